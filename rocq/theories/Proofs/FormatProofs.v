(** The format of index files is what the writer writes and what the reader reads. *)
From Coq Require Import Sorted.
From Verif Require Import Model.Base Model.Codec Model.Writer Model.Reader Model.IndexRun Spec.Names Spec.CodecSpec Spec.IndexSpec Spec.RunSpec Spec.FormatSpec
  Proofs.Arith Proofs.ListLemmas Proofs.CodecProofs Proofs.CodecSpecProofs Proofs.SparseProofs Proofs.WriterProofs Proofs.MergeProofs Proofs.AddProofs Proofs.ReaderProofs
  Proofs.IndexProofs Proofs.MergeRanges Proofs.IndexFile Proofs.IndexMergeProofs Proofs.IndexMergeTop.
Local Open Scope N_scope.

(** ** Numbers *)
Lemma be_snoc : forall d b, be_value (d ++ [b]) = be_value d * 256 + b.
Proof. intros. unfold be_value. rewrite fold_left_app. reflexivity. Qed.
Lemma be_bound : forall d, Forall (fun c => c < 256) d -> be_value d < 256 ^ size d.
Proof.
  induction d as [|b d IH] using rev_ind; intros F; [vm_compute; reflexivity|].
  apply Forall_app in F. destruct F as (F & B). apply Forall_inv in B. specialize (IH F). rewrite be_snoc.
  unfold size in *. rewrite app_length. cbn [length]. rewrite Nat.add_1_r, Nnat.Nat2N.inj_succ, N.pow_succ_r'. lia.
Qed.
Lemma be_unique : forall d e, length d = length e -> Forall (fun c => c < 256) d -> Forall (fun c => c < 256) e ->
  be_value d = be_value e -> d = e.
Proof.
  induction d as [|b d IH] using rev_ind; intros e L F G V.
  - destruct e; [reflexivity|discriminate].
  - destruct e as [|c e _] using rev_ind; [rewrite app_length in L; cbn in L; lia|].
    rewrite !app_length in L. cbn [length] in L. apply Forall_app in F, G. destruct F as (F & B), G as (G & C).
    apply Forall_inv in B, C. rewrite !be_snoc in V.
    assert (be_value d = be_value e /\ b = c) as (V1 & ->) by lia. f_equal. apply IH; [lia|assumption|assumption|assumption].
Qed.
Lemma big_unique : forall n x b c, big_endian n x b -> big_endian n x c -> b = c.
Proof. intros n x b c (L & F & V) (L' & F' & V'). apply be_unique; congruence. Qed.
Lemma big4 : forall x, x < 2^32 -> big_endian 4 x (put_uint32 x).
Proof.
  intros x H. destruct (be_uint32 x H) as (V & L). split; [exact L|]. split; [|exact V].
  unfold put_uint32. repeat constructor; apply N.mod_lt; discriminate.
Qed.
Lemma big3 : forall x, x < 2^24 -> big_endian 3 x (put_trigram x).
Proof.
  intros x H. split; [reflexivity|]. split.
  - unfold put_trigram. repeat constructor; apply N.mod_lt; discriminate.
  - pose proof (get_put_trigram x [] H) as E. rewrite app_nil_r in E. unfold put_trigram in *. unfold be_value. cbn [fold_left].
    set (a := (x / 2^16) mod 256) in *. set (b := (x / 2^8) mod 256) in *. set (c := x mod 256) in *. clearbody a b c.
    unfold get_trigram in E. apply (f_equal (fun o => match o with Some v => v | None => 0 end)) in E. cbv beta iota in E.
    change (2^16) with 65536 in E. change (2^8) with 256 in E. lia.
Qed.
Lemma big4_bound : forall x b, big_endian 4 x b -> x < 2^32 /\ b = put_uint32 x.
Proof.
  intros x b H. assert (X : x < 2^32). { destruct H as (L & F & <-). apply be_bound in F. unfold size in F. rewrite L in F. exact F. }
  split; [exact X|]. exact (big_unique _ _ _ _ H (big4 x X)).
Qed.
Lemma big3_bound : forall x b, big_endian 3 x b -> x < 2^24 /\ b = put_trigram x.
Proof.
  intros x b H. assert (X : x < 2^24). { destruct H as (L & F & <-). apply be_bound in F. unfold size in F. rewrite L in F. exact F. }
  split; [exact X|]. exact (big_unique _ _ _ _ H (big3 x X)).
Qed.
Lemma leb_unique : forall x d, leb128 x d -> forall e, leb128 x e -> d = e.
Proof.
  intros x d H. induction H as [x L|x d L H IH]; intros e G; inversion G; subst; try reflexivity; try lia.
  f_equal. apply IH. assumption.
Qed.

(** ** Lists of names *)
Lemma names_there : forall l, Forall (fun s => s <> [] /\ ~ In 0 s) l -> name_list l (paths_bytes l).
Proof.
  induction l as [|s l IH]; intros F; [apply names_end|]. destruct (Forall_inv F) as (A & B).
  replace (paths_bytes (s :: l)) with (s ++ 0 :: paths_bytes l); [apply names_one; auto; apply IH; exact (Forall_inv_tail F)|].
  unfold paths_bytes. cbn [map concat]. rewrite <- !app_assoc. reflexivity.
Qed.
Lemma names_that : forall l b, name_list l b -> b = paths_bytes l /\ Forall (fun s => s <> [] /\ ~ In 0 s) l.
Proof.
  intros l b H. induction H as [|s l b A B H (E & F)]; [split; [reflexivity|constructor]|].
  split; [|constructor; auto]. subst b. unfold paths_bytes. cbn [map concat]. rewrite <- !app_assoc. reflexivity.
Qed.

(** ** Posting lists *)
Lemma deltas_first : forall n i, n <= i -> i < 2^32 -> n < 2^32 -> u32 (i + 2^32 - (n + 2^32 - 1) mod 2^32) = u32 (i + 1 - n).
Proof.
  intros n i A B C. destruct (N.eq_dec n 0) as [->|NZ].
  - replace ((0 + 2^32 - 1) mod 2^32) with (2^32 - 1) by reflexivity. f_equal. lia.
  - replace (n + 2^32 - 1) with (n - 1 + 1 * 2^32) by lia. rewrite N.mod_add by discriminate. rewrite (N.mod_small (n - 1)) by lia.
    replace (i + 2^32 - (n - 1)) with (i + 1 - n + 1 * 2^32) by lia. unfold u32. rewrite N.mod_add by discriminate. reflexivity.
Qed.
Definition from (n : N) : N := (n + 2^32 - 1) mod 2^32.
Lemma from_next : forall i, i < 2^32 -> from (i + 1) = i.
Proof. intros i H. unfold from. replace (i + 1 + 2^32 - 1) with (i + 1 * 2^32) by lia. rewrite N.mod_add by discriminate. apply N.mod_small. exact H. Qed.
Lemma deltas_there : forall ids n m, StronglySorted N.lt ids -> Forall (fun i => n <= i) ids -> Forall (fun i => i < m) ids -> m < 2^32 -> n < 2^32 ->
  delta_list n ids (deltas (from n) ids ++ [0]).
Proof.
  induction ids as [|i ids IH]; intros n m S A B M HN; [apply delta_end|]. cbn [deltas]. rewrite <- app_assoc.
  inversion S as [|? ? S' F]; subst. pose proof (Forall_inv A) as A1. pose proof (Forall_inv B) as B1. cbn beta in A1, B1.
  apply delta_one; [exact A1| |].
  - unfold from. rewrite deltas_first by lia. rewrite u32_small by lia. apply uvarint_leb128. lia.
  - replace (deltas i ids) with (deltas (from (i + 1)) ids) by (rewrite from_next by lia; reflexivity).
    apply (IH (i + 1) m); [exact S'| |exact (Forall_inv_tail B)|exact M|lia].
    eapply Forall_impl; [|exact F]. intros a L. cbn beta in L. lia.
Qed.
Lemma deltas_that : forall n ids b, delta_list n ids b -> forall m, Forall (fun i => i < m) ids -> m < 2^32 -> n < 2^32 ->
  b = deltas (from n) ids ++ [0] /\ StronglySorted N.lt ids /\ Forall (fun i => n <= i) ids.
Proof.
  intros n ids b H. induction H as [n|n i ids d b L D H IH]; intros m B M HN; [split; [reflexivity|split; constructor]|].
  pose proof (Forall_inv B) as B1. cbn beta in B1. destruct (IH m (Forall_inv_tail B) M ltac:(lia)) as (E & S & F). split; [|split].
  - cbn [deltas]. rewrite <- app_assoc. rewrite (from_next i) in E by lia. f_equal; [|exact E].
    unfold from. rewrite deltas_first by lia. rewrite u32_small by lia. apply (leb_unique (i + 1 - n)); [exact D|]. apply uvarint_leb128. lia.
  - constructor; [exact S|]. eapply Forall_impl; [|exact F]. intros a X. cbn beta in X. lia.
  - constructor; [exact L|]. eapply Forall_impl; [|exact F]. intros a X. cbn beta in X. lia.
Qed.

Lemma size_nlen : forall (b : bytes), size b = nlen b.
Proof. reflexivity. Qed.
Definition lists_fit (m : N) (gs : list group) : Prop :=
  Forall (fun g => fst g < 2^24 /\ StronglySorted N.lt (snd g) /\ Forall (fun i => i < m) (snd g)) gs.
Lemma lists_there : forall gs m off, lists_fit m gs -> m < 2^32 -> off + nlen (lists_bytes gs) < 2^32 ->
  posting_lists off gs (lists_bytes gs) (index_bytes off gs).
Proof.
  induction gs as [|[t ids] gs IH]; intros m off F M H; [apply posting_end|]. destruct (Forall_inv F) as (A & S & B). cbn [fst snd] in A, S, B.
  unfold lists_bytes in *. cbn [map concat] in *. fold (lists_bytes gs) in *. rewrite nlen_app in H. cbn [index_bytes fst snd].
  rewrite (app_assoc (put_uint32 (nlen ids))), (app_assoc (put_trigram t)).
  assert (NB : nlen ids < 2^32).
  { apply N.le_lt_trans with m; [|exact M]. apply nodup_bound; [|rewrite Forall_forall in B; exact B].
    clear - S. induction S as [|i ids S' IH F]; constructor; [|exact IH]. intros I. rewrite Forall_forall in F. specialize (F i I). lia. }
  apply posting_one.
  - exists (put_trigram t), (deltas (2^32 - 1) ids ++ [0]). split; [reflexivity|]. split; [apply big3, A|].
    change (2^32 - 1) with (from 0). apply (deltas_there ids 0 m); [exact S| |exact B|exact M|reflexivity]. apply Forall_forall. intros. lia.
  - exists (put_trigram t), (put_uint32 (nlen ids)), (put_uint32 off). split; [reflexivity|]. split; [apply big3, A|]. split; apply big4; [exact NB|lia].
  - apply (IH m); [exact (Forall_inv_tail F)|exact M|]. change (@size N) with (@nlen N) in *. lia.
Qed.
Lemma lists_that : forall off gs l x, posting_lists off gs l x -> forall m, Forall (fun g => Forall (fun i => i < m) (snd g)) gs -> m < 2^32 ->
  l = lists_bytes gs /\ x = index_bytes off gs /\ lists_fit m gs /\ Forall (fun g : group => nlen (snd g) < 2^32) gs.
Proof.
  intros off gs l x H. induction H as [off|off t ids gs b e l x P E H IH]; intros m F M.
  - split; [reflexivity|split; [reflexivity|split; constructor]].
  - destruct (IH m (Forall_inv_tail F) M) as (-> & -> & LF & LN). pose proof (Forall_inv F) as B. cbn [snd] in B.
    destruct P as (p & q & -> & BT & D). destruct (big3_bound _ _ BT) as (T & ->).
    destruct (deltas_that _ _ _ D m B M ltac:(reflexivity)) as (-> & S & _).
    destruct E as (u & v & w & -> & BT' & C & O). destruct (big3_bound _ _ BT') as (_ & ->). destruct (big4_bound _ _ C) as (CB & ->).
    destruct (big4_bound _ _ O) as (OB & ->). split; [|split; [|split]].
    + unfold lists_bytes. cbn [map concat]. unfold list_bytes at 2. cbn [fst snd]. change (from 0) with (2^32 - 1). reflexivity.
    + cbn [index_bytes fst snd]. rewrite <- !app_assoc. unfold list_bytes. cbn [fst snd]. change (from 0) with (2^32 - 1). reflexivity.
    + constructor; [cbn [fst snd]; auto|exact LF].
    + constructor; [exact CB|exact LN].
Qed.

(** ** Name index *)
Definition plain_docs (names : list str) : list doc := map (fun s => (s, [])) names.
Lemma offsets_there : forall (docs : list doc) off, off + nlen (names_data docs) < 2^32 ->
  name_index off (map fst docs) (concat (map put_uint32 (name_offsets off docs)) ++ put_uint32 (off + nlen (names_data docs))).
Proof.
  induction docs as [|d docs IH]; intros off H.
  - cbn. unfold nlen in *. cbn in *. rewrite N.add_0_r in *. apply offset_end, big4, H.
  - assert (E : nlen (names_data (d :: docs)) = nlen (fst d) + 1 + nlen (names_data docs)).
    { unfold names_data. cbn [map concat]. rewrite !nlen_app. change (nlen [0]) with 1. lia. }
    rewrite E in *. cbn [map name_offsets concat]. rewrite <- app_assoc. apply offset_one; [apply big4; lia|].
    rewrite size_nlen. replace (off + (nlen (fst d) + 1 + nlen (names_data docs))) with (off + nlen (fst d) + 1 + nlen (names_data docs)) by lia.
    apply IH. lia.
Qed.
Lemma offsets_that : forall names off b, name_index off names b ->
  b = concat (map put_uint32 (name_offsets off (plain_docs names))) ++ put_uint32 (off + nlen (names_data (plain_docs names))).
Proof.
  intros names off b H. induction H as [off b B|off s l x b B H IH].
  - cbn. unfold nlen. cbn. rewrite N.add_0_r. apply (big4_bound _ _ B).
  - destruct (big4_bound _ _ B) as (_ & ->). cbn [plain_docs map name_offsets concat fst]. rewrite <- app_assoc. f_equal. rewrite IH. rewrite size_nlen. f_equal.
    f_equal. fold (plain_docs l). unfold names_data. cbn [map concat fst]. rewrite !nlen_app. change (nlen [0]) with 1. lia.
Qed.
Lemma plain_names : forall names, paths_bytes names = names_data (plain_docs names) ++ [0].
Proof. intros. unfold paths_bytes, names_data, plain_docs. rewrite map_map. reflexivity. Qed.
Lemma plain_fst : forall names, map fst (plain_docs names) = names.
Proof. intros. unfold plain_docs. rewrite map_map. cbn. apply map_id. Qed.

(** ** The file *)
Definition ended (names : list str) (gs : list group) ps : bytes :=
  gfile ps (plain_docs names) [0] (nlen (names_data (plain_docs names))) (gs ++ [last_group]).
Lemma header_magic : header = magic.
Proof. reflexivity. Qed.
Lemma footer_magic : footer = trailer_magic.
Proof. reflexivity. Qed.
Lemma empty_list : posting_list_bytes last_trigram [] (list_bytes last_group).
Proof. exists (put_trigram last_trigram), [0]. split; [reflexivity|]. split; [apply big3; reflexivity|apply delta_end]. Qed.
Lemma empty_entry : forall off, off < 2^32 -> index_entry last_trigram 0 off (index_bytes off [last_group]).
Proof.
  intros off H. exists (put_trigram last_trigram), (put_uint32 0), (put_uint32 off). split; [reflexivity|].
  split; [apply big3; reflexivity|]. split; apply big4; [reflexivity|exact H].
Qed.
Lemma five_put : forall a b c d e, a < 2^32 -> b < 2^32 -> c < 2^32 -> d < 2^32 -> e < 2^32 ->
  five a b c d e (put_uint32 a ++ put_uint32 b ++ put_uint32 c ++ put_uint32 d ++ put_uint32 e).
Proof. intros. exists (put_uint32 a), (put_uint32 b), (put_uint32 c), (put_uint32 d), (put_uint32 e). split; [reflexivity|]. split; [apply big4; assumption|]. split; [apply big4; assumption|]. split; [apply big4; assumption|]. split; apply big4; assumption. Qed.

Lemma names_plain : forall docs : list doc, names_data docs = names_data (plain_docs (map fst docs)).
Proof. intros. unfold names_data, plain_docs. rewrite !map_map. reflexivity. Qed.
Lemma offsets_plain : forall (docs : list doc) off, name_offsets off docs = name_offsets off (plain_docs (map fst docs)).
Proof. induction docs as [|d docs IH]; intros off; cbn; [reflexivity|]. f_equal. apply IH. Qed.
Lemma gfile_plain : forall ps docs junk last gs, gfile ps docs junk last gs = gfile ps (plain_docs (map fst docs)) junk last gs.
Proof.
  intros. unfold gfile, gf_f, gf_e, gf_d, gf_c. rewrite <- names_plain. rewrite <- offsets_plain. reflexivity.
Qed.

Theorem format_there : forall ps names gs, nlen (ended names gs ps) < 2^32 ->
  Forall (fun s => s <> [] /\ ~ In 0 s) ps -> Forall (fun s => s <> [] /\ ~ In 0 s) names ->
  StronglySorted (fun g h : group => fst g < fst h) (gs ++ [last_group]) ->
  Forall (fun g => snd g <> [] /\ StronglySorted N.lt (snd g) /\ Forall (fun i => i < nlen names) (snd g)) gs ->
  index_format true ps names gs (ended names gs ps).
Proof.
  intros ps names gs H HP HN S F. unfold ended in *. set (docs := plain_docs names) in *. set (L := gs ++ [last_group]) in *.
  set (z := nlen (names_data docs)) in *.
  pose proof (gf_sizes ps docs [0] z L) as SZ. pose proof (gfile_len ps docs [0] z L) as L1. pose proof (gf_f_len ps docs [0] z L) as L2.
  pose proof (gf_e_len ps docs [0] z L) as L3.
  assert (Hb : nlen (gf_b ps) <= nlen (gf_c ps docs [0])) by (unfold gf_c; rewrite nlen_app; lia).
  assert (Hc : nlen (gf_c ps docs [0]) <= nlen (gf_d ps docs [0] L)) by (unfold gf_d; rewrite nlen_app; lia).
  assert (LB : lists_bytes L = lists_bytes gs ++ list_bytes last_group) by (apply lists_bytes_snoc).
  assert (LL : nlen (lists_bytes L) = nlen (lists_bytes gs) + nlen (list_bytes last_group)) by (rewrite LB, nlen_app; reflexivity).
  assert (ND : nlen docs = nlen names) by (unfold docs, plain_docs, nlen; rewrite map_length; reflexivity).
  exists (paths_bytes ps), (paths_bytes names), (lists_bytes gs), (list_bytes last_group),
    (concat (map put_uint32 (name_offsets 0 docs)) ++ put_uint32 z), (index_bytes 0 gs), (index_bytes (nlen (lists_bytes gs)) [last_group]),
    (put_uint32 (nlen gf_a) ++ put_uint32 (nlen (gf_b ps)) ++ put_uint32 (nlen (gf_c ps docs [0]))
    ++ put_uint32 (nlen (gf_d ps docs [0] L)) ++ put_uint32 (nlen (gf_e ps docs [0] z L))).
  assert (EN : paths_bytes names = names_data docs ++ [0]) by apply plain_names.
  assert (EI : index_bytes 0 L = index_bytes 0 gs ++ index_bytes (nlen (lists_bytes gs)) [last_group]).
  { unfold L. rewrite index_bytes_app. reflexivity. }
  split; [|split; [|split; [|split; [|split; [|split; [|split; [|split; [|split]]]]]]]].
  - rewrite header_magic, footer_magic. unfold gfile, gf_f. rewrite EI. unfold gf_e, gf_d. rewrite LB. unfold gf_c, gf_b, gf_a. rewrite EN, <- !app_assoc. reflexivity.
  - apply names_there, HP.
  - apply names_there, HN.
  - apply (lists_there gs (nlen names)); [|lia|lia]. unfold L in S. apply SS_app in S. destruct S as (_ & _ & S). apply Forall_forall. intros g I.
    rewrite Forall_forall in F. destruct (F g I) as (_ & F2 & F3). split; [|split; assumption].
    pose proof (S g last_group I (or_introl eq_refl)) as X. cbn beta in X. change (fst last_group) with (2^24 - 1) in X. lia.
  - exact empty_list.
  - apply empty_entry. lia.
  - change z with (0 + z). rewrite <- (plain_fst names). apply offsets_there. lia.
  - rewrite header_magic, !size_nlen.
    replace (magic ++ paths_bytes ps) with (gf_b ps) by reflexivity.
    replace (magic ++ paths_bytes ps ++ paths_bytes names) with (gf_c ps docs [0]) by (unfold gf_c, gf_b, gf_a; rewrite EN, <- !app_assoc; reflexivity).
    replace (magic ++ paths_bytes ps ++ paths_bytes names ++ lists_bytes gs ++ list_bytes last_group) with (gf_d ps docs [0] L)
      by (unfold gf_d, gf_c, gf_b, gf_a; rewrite EN, LB, <- !app_assoc; reflexivity).
    replace (magic ++ paths_bytes ps ++ paths_bytes names ++ (lists_bytes gs ++ list_bytes last_group) ++ concat (map put_uint32 (name_offsets 0 docs)) ++ put_uint32 z)
      with (gf_e ps docs [0] z L) by (unfold gf_e, gf_d, gf_c, gf_b, gf_a; rewrite EN, LB, <- !app_assoc; reflexivity).
    apply five_put; [reflexivity|lia|lia|lia|lia].
  - exact S.
  - eapply Forall_impl; [|exact F]. intros g (A & _ & B). split; assumption.
Qed.

Theorem format_that : forall ps names gs file, index_format true ps names gs file -> nlen file < 2^32 ->
  file = ended names gs ps /\ Forall (fun s => s <> [] /\ ~ In 0 s) ps /\ Forall (fun s => s <> [] /\ ~ In 0 s) names /\
  table_ok (gs ++ [last_group]) /\ lists_ok (nlen names) (gs ++ [last_group]).
Proof.
  intros ps names gs file (p & n & l & la & ni & pi & mark & t & E & NP & NN & PL & PB & IE & NI & FV & S & F) H.
  destruct (names_that _ _ NP) as (-> & OP). destruct (names_that _ _ NN) as (-> & ON).
  assert (SN : nlen names < 2^32).
  { pose proof (paths_bytes_length names) as X. rewrite E, !nlen_app in H. unfold nlen in *. lia. }
  assert (F' : Forall (fun g : N * list N => Forall (fun i => i < nlen names) (snd g)) gs).
  { eapply Forall_impl; [|exact F]. intros g (_ & A). exact A. }
  destruct (lists_that _ _ _ _ PL (nlen names) F' SN) as (-> & -> & LF & LN).
  assert (ELA : la = list_bytes last_group).
  { destruct PB as (x & y & -> & B3 & D). destruct (big3_bound _ _ B3) as (_ & ->). inversion D; subst. reflexivity. }
  subst la. assert (EM : mark = index_bytes (nlen (lists_bytes gs)) [last_group]).
  { destruct IE as (x & y & z & -> & B3 & C & O). destruct (big3_bound _ _ B3) as (_ & ->). destruct (big4_bound _ _ C) as (_ & ->).
    destruct (big4_bound _ _ O) as (_ & ->). reflexivity. }
  subst mark. apply offsets_that in NI. subst ni. set (docs := plain_docs names) in *. rewrite N.add_0_l in *. set (z := nlen (names_data docs)) in *.
  set (L := gs ++ [last_group]).
  assert (LB : lists_bytes L = lists_bytes gs ++ list_bytes last_group) by (apply lists_bytes_snoc).
  assert (EN : paths_bytes names = names_data docs ++ [0]) by apply plain_names.
  assert (EI : index_bytes 0 L = index_bytes 0 gs ++ index_bytes (nlen (lists_bytes gs)) [last_group]).
  { unfold L. rewrite index_bytes_app. reflexivity. }
  split; [|split; [exact OP|split; [exact ON|split; [split; [exact S|]|]]]].
  - destruct FV as (q1 & q2 & q3 & q4 & q5 & -> & B1 & B2 & B3 & B4 & B5).
    destruct (big4_bound _ _ B1) as (_ & ->). destruct (big4_bound _ _ B2) as (_ & ->). destruct (big4_bound _ _ B3) as (_ & ->).
    destruct (big4_bound _ _ B4) as (_ & ->). destruct (big4_bound _ _ B5) as (_ & ->). rewrite E. clear - LB EN EI. subst L.
    unfold ended. fold docs. fold z. set (L := gs ++ [last_group]) in *. rewrite header_magic, footer_magic. change (@size N) with (@nlen N). unfold gfile.
    replace (gf_b ps) with (magic ++ paths_bytes ps) by reflexivity.
    replace (gf_c ps docs [0]) with (magic ++ paths_bytes ps ++ paths_bytes names) by (unfold gf_c, gf_b, gf_a; rewrite EN, <- !app_assoc; reflexivity).
    replace (gf_d ps docs [0] L) with (magic ++ paths_bytes ps ++ paths_bytes names ++ lists_bytes gs ++ list_bytes last_group)
      by (unfold gf_d, gf_c, gf_b, gf_a; rewrite EN, LB, <- !app_assoc; reflexivity).
    replace (gf_f ps docs [0] z L) with ((magic ++ paths_bytes ps ++ paths_bytes names ++ (lists_bytes gs ++ list_bytes last_group) ++ concat (map put_uint32 (name_offsets 0 docs)) ++ put_uint32 z) ++ index_bytes 0 L)
      by (unfold gf_f, gf_e, gf_d, gf_c, gf_b, gf_a; rewrite EN, LB, <- !app_assoc; reflexivity).
    replace (gf_e ps docs [0] z L) with (magic ++ paths_bytes ps ++ paths_bytes names ++ (lists_bytes gs ++ list_bytes last_group) ++ concat (map put_uint32 (name_offsets 0 docs)) ++ put_uint32 z)
      by (unfold gf_e, gf_d, gf_c, gf_b, gf_a; rewrite EN, LB, <- !app_assoc; reflexivity).
    rewrite EI. rewrite <- !app_assoc. reflexivity.
  - apply Forall_app. split; [|repeat constructor; reflexivity]. unfold lists_fit in LF. rewrite Forall_forall in *. intros g I.
    split; [apply (LF g I)|apply (LN g I)].
  - intros g I. apply in_app_or in I. destruct I as [I|[<-|[]]]; [|split; [constructor|intros i []]].
    unfold lists_fit in LF. rewrite Forall_forall in LF. destruct (LF g I) as (_ & A & B). split; [exact A|]. rewrite Forall_forall in B. exact B.
Qed.

(** What the reader makes of such a file. *)
Theorem format_read : forall ps names gs file, index_format true ps names gs file -> nlen file < 2^32 ->
  exists ix, ix_open file = Some ix /\ ix_paths ix = Some ps /\ ix_numName ix = Z.of_nat (length names) /\
    (forall i s, nth_error names i = Some s -> ix_name ix (N.of_nat i) = Some s) /\
    (forall t ids, In (t, ids) gs -> posting_list ix t None = Some ids) /\
    (forall t, (forall ids, ~ In (t, ids) gs) -> posting_list ix t None = Some []).
Proof.
  intros ps names gs file X H. destruct (format_that _ _ _ _ X H) as (-> & OP & ON & TO & LO). unfold ended in *.
  set (docs := plain_docs names) in *. set (z := nlen (names_data docs)) in *. exists (g_index ps docs [0] z (gs ++ [last_group])).
  assert (ND : nlen docs = nlen names) by (unfold docs, plain_docs, nlen; rewrite map_length; reflexivity).
  assert (PL : forall t, posting_list (g_index ps docs [0] z (gs ++ [last_group])) t None = Some (lk (gs ++ [last_group]) t)).
  { intros t. unfold posting_list. rewrite (pr_ids_gfile ps docs [0] z _ t None H TO); [|rewrite ND; exact LO|exact I].
    f_equal. generalize (lk (gs ++ [last_group]) t). induction l as [|x l IH]; cbn; [reflexivity|]. f_equal. exact IH. }
  split; [apply open_gfile, H|]. split; [apply paths_gfile; [exact H|exact OP]|].
  split; [unfold g_index; cbn [ix_numName]; rewrite ND; unfold nlen; lia|]. split; [|split].
  - intros i s E. apply (name_gfile ps docs [0] z (gs ++ [last_group]) (N.of_nat i) (s, [])); [exact H| |].
    + unfold names_ok, docs, plain_docs. apply Forall_map. eapply Forall_impl; [|exact ON]. intros u (_ & U). exact U.
    + rewrite Nnat.Nat2N.id. unfold docs, plain_docs. rewrite nth_error_map, E. reflexivity.
  - intros t ids I. rewrite PL. f_equal. apply lk_in; [exact TO|apply in_or_app; left; exact I].
  - intros t NI. rewrite PL. f_equal. destruct (N.eq_dec t last_trigram) as [->|NE].
    + apply lk_in; [exact TO|apply in_or_app; right; left; reflexivity].
    + apply lk_none. intros ids I. apply in_app_or in I. destruct I as [I|[I|[]]]; [exact (NI ids I)|]. apply NE. change last_group with (last_trigram, @nil N) in I.
      congruence.
Qed.

(** The groups are the posting lists that are not empty. *)
Lemma pe_inj : forall t i u j, i < 2^32 -> j < 2^32 -> pe t i = pe u j -> t = u /\ i = j.
Proof. intros t i u j A B E. unfold pe in E. lia. Qed.
Lemma in_flat : forall gs t i, groups_ok gs -> i < 2^32 -> (In (pe t i) (flat gs) <-> exists ids, In (t, ids) gs /\ In i ids).
Proof.
  intros gs t i (G & _) B. unfold flat. rewrite in_concat. split.
  - intros (l & I & J). apply in_map_iff in I. destruct I as ((u, ids) & <- & I). cbn [fst snd] in J. apply in_map_iff in J.
    destruct J as (j & E & J). rewrite Forall_forall in G. destruct (G _ I) as (_ & G2 & _). cbn [snd] in G2.
    destruct (pe_inj u j t i (G2 j J) B E) as (-> & ->). exists ids. auto.
  - intros (ids & I & J). exists (map (pe t) ids). split; [|apply in_map, J].
    apply (in_map (fun g => map (pe (fst g)) (snd g)) _ _ I).
Qed.
Lemma group_unique : forall gs t a b, StronglySorted (fun g h : group => fst g < fst h) gs -> In (t, a) gs -> In (t, b) gs -> a = b.
Proof.
  intros gs t a b S. induction S as [|g gs S IH F]; intros I J; [destruct I|]. rewrite Forall_forall in F.
  destruct I as [I|I], J as [J|J].
  - congruence.
  - specialize (F _ J). subst g. cbn in F. lia.
  - specialize (F _ I). subst g. cbn in F. lia.
  - apply IH; assumption.
Qed.
Lemma groups_postings : forall docs L, sorted_entries docs L -> nlen docs < 2^32 ->
  Forall (fun d => nul_free (fst d) /\ text_ok (snd d)) docs -> forall t ids,
  In (t, ids) (group_up L) <-> ids <> [] /\ positions_where (fun text => has_trigram text t) (map snd docs) ids.
Proof.
  intros docs L HL HN Hd t ids. destruct (groups_bounds docs L HL HN Hd) as (GO & _). pose proof (flat_group_up L) as FG.
  assert (MEM : forall u i, i < 2^32 -> ((exists l, In (u, l) (group_up L) /\ In i l) <-> exists d, nth_error docs (N.to_nat i) = Some d /\ has_trigram (snd d) u)).
  { intros u i B. rewrite <- (in_flat (group_up L) u i GO B), FG. rewrite (proj2 HL). unfold entry_in. split.
    - intros (j & d & v & E & T & Q). assert (J : j < 2^32). { apply nth_error_lt in E. unfold nlen in HN. lia. }
      destruct (pe_inj u i v j B J Q) as (-> & ->). exists d. auto.
    - intros (d & E & T). exists i, d, u. auto. }
  assert (IDB : forall i, (exists d : doc, nth_error docs (N.to_nat i) = Some d /\ has_trigram (snd d) t) -> i < 2^32).
  { intros i (d & E & _). apply nth_error_lt in E. unfold nlen in HN. lia. }
  assert (OK : forall l, In (t, l) (group_up L) -> l <> [] /\ StronglySorted N.lt l /\ forall i, In i l <-> exists d, nth_error docs (N.to_nat i) = Some d /\ has_trigram (snd d) t).
  { intros l I. destruct GO as (G & S). rewrite Forall_forall in G. destruct (G _ I) as (G1 & G2 & G3). cbn [snd] in G1, G2, G3.
    split; [exact G1|]. split; [exact G3|]. intros i. split.
    - intros J. apply (MEM t i (G2 i J)). exists l. auto.
    - intros X. apply (MEM t i (IDB i X)) in X. destruct X as (l' & I' & J). rewrite (group_unique _ _ _ _ S I I'). exact J. }
  unfold positions_where. split.
  - intros I. destruct (OK ids I) as (A & B & C). split; [exact A|]. split; [exact B|]. intros i. rewrite positions_map. apply C.
  - intros (A & B & C). destruct ids as [|i0 ids]; [congruence|]. set (l0 := i0 :: ids) in *.
    assert (X : exists d, nth_error docs (N.to_nat i0) = Some d /\ has_trigram (snd d) t).
    { rewrite <- (positions_map docs (fun text => has_trigram text t)). apply C. left. reflexivity. }
    apply (MEM t i0 (IDB i0 X)) in X. destruct X as (l & I & _). destruct (OK l I) as (_ & SL & IL).
    replace l0 with l; [exact I|]. apply (strict_sorted_ext N.lt); auto.
    + intros x. apply N.lt_irrefl.
    + intros x y U V. lia.
    + intros x. rewrite IL, C, positions_map. reflexivity.
Qed.

(** What the writer writes. *)
Theorem format_written : forall cap mem paths files vs b, (1 <= cap)%nat -> files_ok files ->
  Forall (fun p => p <> [] /\ ~ In 0 p) paths -> Forall (fun f => fst f <> []) files ->
  build_index cap mem paths files = Some (vs, b) ->
  exists docs gs, kept files vs docs /\ index_format true paths (map fst docs) gs b /\ nlen b < 2^32 /\
    (forall t ids, In (t, ids) gs <-> ids <> [] /\ positions_where (fun text => has_trigram text t) (map snd docs) ids).
Proof.
  intros cap mem paths files vs b C F P NE H. destruct (build_index_spec _ _ _ _ _ _ C F H) as (docs & L & K & HL & Hd & -> & Hlt).
  exists docs, (group_up L). pose proof (layout_names paths docs L) as HLN. pose proof (names_data_length docs) as Hnl.
  destruct (groups_bounds docs L HL ltac:(lia) Hd) as [[HG1 HG2] HB].
  assert (NED : Forall (fun d : doc => fst d <> []) docs).
  { clear - K NE. induction K; auto; inversion NE; subst; auto. }
  split; [exact K|].
  assert (EL : layout paths docs L = ended (map fst docs) (group_up L) paths).
  { rewrite layout_gfile, gfile_plain. unfold ended. f_equal. rewrite <- names_plain. reflexivity. }
  assert (LN : nlen (map fst docs) = nlen docs) by (unfold nlen; rewrite map_length; reflexivity).
  assert (SS : StronglySorted (fun g h : group => fst g < fst h) (group_up L ++ [last_group])).
  { apply SS_app. split; [assumption|]. split; [repeat constructor|].
    intros x y Hx [<-|[]]. rewrite Forall_forall in HB. destruct (HB x Hx) as (B & _). exact B. }
  split; [|split; [exact Hlt|]].
  - rewrite EL. apply format_there; [rewrite <- EL; exact Hlt|exact P| |exact SS|].
    + apply Forall_map. rewrite Forall_forall in *. intros d I. split; [apply NED, I|apply (Hd d I)].
    + rewrite LN. rewrite Forall_forall in *. intros g I. destruct (HG1 g I) as (A & _ & B). destruct (HB g I) as (_ & _ & D).
      split; [exact A|]. split; [exact B|]. apply Forall_forall. exact D.
  - exact (groups_postings docs L HL ltac:(lia) Hd).
Qed.
