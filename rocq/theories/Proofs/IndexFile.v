(** Index files in general: as the writer leaves them (Proofs/MergeProofs.v, layout) and as
    Merge does. *)
From Coq Require Import Sorted Permutation.
From Verif Require Import Model.Base Model.Codec Model.Sparse Model.Posts Model.Writer Model.Reader Model.IndexMerge
  Spec.IndexSpec Spec.RunSpec Proofs.Arith Proofs.ListLemmas Proofs.CodecProofs Proofs.ScanProofs Proofs.WriterProofs
  Proofs.MergeProofs Proofs.ReaderProofs.
Local Open Scope N_scope.

Definition gf_a : bytes := magic.
Definition gf_b ps : bytes := gf_a ++ paths_bytes ps.
Definition gf_c ps (docs : list doc) junk : bytes := gf_b ps ++ names_data docs ++ junk.
Definition gf_d ps docs junk gs : bytes := gf_c ps docs junk ++ lists_bytes gs.
Definition gf_e ps docs junk last gs : bytes :=
  gf_d ps docs junk gs ++ concat (map put_uint32 (name_offsets 0 docs)) ++ put_uint32 last.
Definition gf_f ps docs junk last gs : bytes := gf_e ps docs junk last gs ++ index_bytes 0 gs.
Definition gfile ps docs junk last gs : bytes :=
  gf_f ps docs junk last gs ++ (put_uint32 (nlen gf_a) ++ put_uint32 (nlen (gf_b ps)) ++ put_uint32 (nlen (gf_c ps docs junk))
    ++ put_uint32 (nlen (gf_d ps docs junk gs)) ++ put_uint32 (nlen (gf_e ps docs junk last gs))) ++ trailer_magic.

Definition g_index ps docs junk last gs : index :=
  mkIndex (gfile ps docs junk last gs) (nlen gf_a) (nlen (gf_b ps)) (nlen (gf_c ps docs junk)) (nlen (gf_d ps docs junk gs))
    (nlen (gf_e ps docs junk last gs)) (Z.of_N (nlen docs)) (nlen gs).

Lemma layout_gfile : forall ps docs L,
  layout ps docs L = gfile ps docs [0] (nlen (names_data docs)) (group_up L ++ [last_group]).
Proof.
  intros ps docs L. unfold layout, gfile, gf_f, gf_e, gf_d, gf_c, gf_b, gf_a. cbv zeta.
  rewrite names_data_app, name_offsets_app. cbn [name_offsets]. rewrite N.add_0_l.
  replace (names_data [([], [])]) with [0] by reflexivity.
  rewrite map_app, concat_app. cbn [map concat]. rewrite app_nil_r. reflexivity.
Qed.

Lemma nlen_put32 : forall x, nlen (put_uint32 x) = 4.
Proof. intros. unfold nlen. rewrite put_uint32_length. reflexivity. Qed.
Lemma nlen_put3 : forall x, nlen (put_trigram x) = 3.
Proof. intros. unfold nlen. rewrite put_trigram_length. reflexivity. Qed.

Lemma gf_e_len : forall ps docs junk last gs, nlen (gf_e ps docs junk last gs) = nlen (gf_d ps docs junk gs) + 4 * (nlen docs + 1).
Proof. intros. unfold gf_e. rewrite !nlen_app, concat_uint32_len, name_offsets_nlen, nlen_put32. lia. Qed.
Lemma gf_f_len : forall ps docs junk last gs, nlen (gf_f ps docs junk last gs) = nlen (gf_e ps docs junk last gs) + 11 * nlen gs.
Proof. intros. unfold gf_f. rewrite nlen_app, index_bytes_len. reflexivity. Qed.
Lemma gfile_len : forall ps docs junk last gs, nlen (gfile ps docs junk last gs) = nlen (gf_f ps docs junk last gs) + 36.
Proof. intros. unfold gfile. rewrite !nlen_app, !nlen_put32. change (nlen trailer_magic) with 16. lia. Qed.
Lemma gf_sizes : forall ps docs junk last gs, nlen (gfile ps docs junk last gs) =
  nlen magic + nlen (paths_bytes ps) + nlen (names_data docs) + nlen junk + nlen (lists_bytes gs) + 4 * (nlen docs + 1) + 11 * nlen gs + 36.
Proof.
  intros. rewrite gfile_len, gf_f_len, gf_e_len. unfold gf_d, gf_c, gf_b, gf_a. rewrite !nlen_app. lia.
Qed.

Lemma open_gfile : forall ps docs junk last gs, nlen (gfile ps docs junk last gs) < 2^32 ->
  ix_open (gfile ps docs junk last gs) = Some (g_index ps docs junk last gs).
Proof.
  intros ps docs junk last gs H. pose proof (gfile_len ps docs junk last gs) as L1. pose proof (gf_f_len ps docs junk last gs) as L2.
  pose proof (gf_e_len ps docs junk last gs) as L3.
  assert (Hb : nlen (gf_b ps) <= nlen (gf_c ps docs junk)) by (unfold gf_c; rewrite nlen_app; lia).
  assert (Hc : nlen (gf_c ps docs junk) <= nlen (gf_d ps docs junk gs)) by (unfold gf_d; rewrite nlen_app; lia).
  unfold g_index. unfold gfile at 1.
  rewrite (open_generic (gf_f ps docs junk last gs) (nlen gf_a) (nlen (gf_b ps)) (nlen (gf_c ps docs junk)) (nlen (gf_d ps docs junk gs)) (nlen (gf_e ps docs junk last gs)));
    try lia.
  - fold (gfile ps docs junk last gs). f_equal. f_equal.
    + rewrite L3. replace (nlen (gf_d ps docs junk gs) + 4 * (nlen docs + 1) - nlen (gf_d ps docs junk gs)) with ((nlen docs + 1) * 4) by lia.
      rewrite N.div_mul by discriminate. lia.
    + rewrite L2. replace (nlen (gf_e ps docs junk last gs) + 11 * nlen gs - nlen (gf_e ps docs junk last gs)) with (nlen gs * 11) by lia.
      rewrite N.div_mul by discriminate. reflexivity.
  - change (nlen gf_a) with 16. lia.
Qed.

Definition names_ok (docs : list doc) : Prop := Forall (fun d : doc => nul_free (fst d)) docs.

Lemma name_gfile : forall ps docs junk last gs i d, nlen (gfile ps docs junk last gs) < 2^32 -> names_ok docs ->
  nth_error docs (N.to_nat i) = Some d -> ix_name (g_index ps docs junk last gs) i = Some (fst d).
Proof.
  intros ps docs junk last gs i d H Hok Hi.
  pose proof Hi as Hi0. apply nth_error_split' in Hi. destruct Hi as (d1 & d2 & E & El).
  assert (Ei : i = nlen d1) by (unfold nlen; lia).
  assert (Hn : nul_free (fst d)). { unfold names_ok in Hok. rewrite Forall_forall in Hok. apply Hok. eapply nth_error_In. exact Hi0. }
  assert (EO : name_offsets 0 docs = name_offsets 0 d1 ++ nlen (names_data d1) :: name_offsets (nlen (names_data d1) + nlen (fst d) + 1) d2).
  { rewrite E, name_offsets_app. reflexivity. }
  assert (EN : names_data docs = names_data d1 ++ fst d ++ 0 :: names_data d2).
  { rewrite E, names_data_app. f_equal. unfold names_data. cbn [map List.concat]. rewrite <- app_assoc. reflexivity. }
  pose proof (gf_sizes ps docs junk last gs) as SZ.
  assert (ED : nlen docs = nlen d1 + 1 + nlen d2) by (rewrite E, nlen_app, nlen_cons; lia).
  assert (EL : nlen (names_data docs) = nlen (names_data d1) + (nlen (fst d) + (1 + nlen (names_data d2)))) by (rewrite EN, !nlen_app, nlen_cons; lia).
  assert (LD : nlen (gf_d ps docs junk gs) = nlen magic + nlen (paths_bytes ps) + nlen (names_data docs) + nlen junk + nlen (lists_bytes gs)).
  { unfold gf_d, gf_c, gf_b, gf_a. rewrite !nlen_app. lia. }
  assert (LB : nlen (gf_b ps) = nlen magic + nlen (paths_bytes ps)) by (unfold gf_b, gf_a; rewrite nlen_app; reflexivity).
  unfold ix_name, g_index. cbn [ix_data ix_nameIndex ix_nameData].
  rewrite (u32_small (nlen (gf_d ps docs junk gs) + 4 * i)) by lia.
  erewrite (rd_uint32_at (gfile ps docs junk last gs) (gf_d ps docs junk gs ++ concat (map put_uint32 (name_offsets 0 d1))) (nlen (names_data d1))).
  2:{ unfold gfile, gf_f, gf_e. rewrite EO, map_app, concat_app. cbn [map concat]. rewrite <- !app_assoc. reflexivity. }
  2:{ lia. }
  2:{ rewrite nlen_app, concat_uint32_len, name_offsets_nlen, Ei. reflexivity. }
  cbn [bind]. rewrite u32_small by lia.
  eapply (ix_str_at _ (gf_b ps ++ names_data d1) (fst d)).
  - unfold gfile, gf_f, gf_e, gf_d, gf_c. rewrite EN. rewrite <- !app_assoc. cbn [app]. reflexivity.
  - assumption.
  - rewrite nlen_app. reflexivity.
Qed.

Lemma paths_gfile : forall ps docs junk last gs, nlen (gfile ps docs junk last gs) < 2^32 -> Forall path_ok ps ->
  ix_paths (g_index ps docs junk last gs) = Some ps.
Proof.
  intros ps docs junk last gs H Hp. unfold ix_paths, g_index. cbn [ix_data ix_pathData].
  assert (E : exists post, gfile ps docs junk last gs = magic ++ paths_bytes ps ++ post).
  { unfold gfile, gf_f, gf_e, gf_d, gf_c, gf_b, gf_a. eexists. rewrite <- !app_assoc. reflexivity. }
  destruct E as (post & E). rewrite E in *. apply paths_from_spec; [assumption| |].
  - rewrite !app_length. pose proof (paths_bytes_length ps). lia.
  - rewrite !nlen_app in H. rewrite nlen_app. change (nlen gf_a) with (nlen magic) in *. lia.
Qed.

(** ** Posting lists *)
Fixpoint lk (gs : list group) (t : N) : list N :=
  match gs with [] => [] | g :: r => if fst g =? t then snd g else lk r t end.
Lemma lk_none : forall gs t, (forall ids, ~ In (t, ids) gs) -> lk gs t = [].
Proof.
  induction gs as [|[u ids] gs IH]; intros t H; [reflexivity|]. cbn. destruct (N.eqb_spec u t) as [->|NE].
  - destruct (H ids). left. reflexivity.
  - apply IH. intros ids' X. apply (H ids'). right. exact X.
Qed.
Lemma lk_in : forall gs t ids, table_ok gs -> In (t, ids) gs -> lk gs t = ids.
Proof.
  induction gs as [|[u ids'] gs IH]; intros t ids [S F] I; [destruct I|]. cbn. inversion S as [|? ? S1 F1]; subst. inversion F; subst.
  destruct I as [E|I].
  - injection E as -> ->. rewrite N.eqb_refl. reflexivity.
  - rewrite Forall_forall in F1. specialize (F1 _ I). cbn in F1. destruct (N.eqb_spec u t); [lia|]. apply IH; [split; assumption|exact I].
Qed.

(** Posting lists: ascending ids of files. *)
Definition lists_ok (n : N) (gs : list group) : Prop :=
  forall g, In g gs -> StronglySorted N.lt (snd g) /\ forall i, In i (snd g) -> i < n.

Lemma lk_ok : forall n gs t, lists_ok n gs -> StronglySorted N.lt (lk gs t) /\ forall i, In i (lk gs t) -> i < n.
Proof.
  intros n gs t. induction gs as [|g gs IH]; intros H; [split; [constructor|intros i []]|]. cbn.
  destruct (fst g =? t); [apply H; left; reflexivity|]. apply IH. intros g' I. apply H. right. exact I.
Qed.

Lemma gf_d_small : forall ps docs junk last gs, nlen (gfile ps docs junk last gs) < 2^32 -> nlen (gf_d ps docs junk gs) < 2^32.
Proof. intros. rewrite gfile_len, gf_f_len, gf_e_len in H. lia. Qed.

Lemma lists_split : forall g1 t ids g2, lists_bytes (g1 ++ (t, ids) :: g2) =
  (lists_bytes g1 ++ put_trigram t) ++ deltas (2^32 - 1) ids ++ 0 :: lists_bytes g2.
Proof.
  intros. rewrite lists_bytes_app. unfold lists_bytes at 2. cbn [map concat]. unfold list_bytes at 1. cbn [fst snd].
  rewrite <- !app_assoc. reflexivity.
Qed.

Lemma ids_chain : forall n ids, StronglySorted N.lt ids -> (forall i, In i ids -> i < n) -> n < 2^32 -> chain (2^32 - 1) ids.
Proof.
  intros n ids S B Hn. split; [exact S|]. split; [apply Forall_forall; intros i Hi; specialize (B i Hi); lia|].
  split; [lia|]. destruct ids as [|i ids]; [exact I|]. specialize (B i (or_introl eq_refl)). lia.
Qed.

(** Where the list of an entry is. *)
Lemma list_there : forall ps docs junk last g1 t ids g2, let gs := g1 ++ (t, ids) :: g2 in nlen (gfile ps docs junk last gs) < 2^32 ->
  exists rest, slice_from (gfile ps docs junk last gs) (u32 (nlen (gf_c ps docs junk) + nlen (lists_bytes g1) + 3)) = Some (deltas (2^32 - 1) ids ++ 0 :: rest).
Proof.
  intros ps docs junk last g1 t ids g2 gs H. pose proof (gf_d_small _ _ _ _ _ H) as HD.
  unfold gf_d, gs in HD. rewrite lists_split, !nlen_app, nlen_put3 in HD. rewrite u32_small by lia.
  replace (nlen (gf_c ps docs junk) + nlen (lists_bytes g1) + 3) with (nlen (gf_c ps docs junk ++ lists_bytes g1 ++ put_trigram t)) by (rewrite !nlen_app, nlen_put3; lia).
  assert (EG : exists z, gfile ps docs junk last gs = (gf_c ps docs junk ++ lists_bytes g1 ++ put_trigram t) ++ deltas (2 ^ 32 - 1) ids ++ 0 :: z).
  { unfold gfile, gf_f, gf_e, gf_d. unfold gs at 1. rewrite lists_split. eexists. rewrite <- !app_assoc. cbn [app]. reflexivity. }
  destruct EG as (z & ->). exists z. apply slice_from_app.
Qed.

Lemma pr_ids_gfile : forall ps docs junk last gs t restrict, nlen (gfile ps docs junk last gs) < 2^32 ->
  table_ok gs -> lists_ok (nlen docs) gs -> rsorted restrict ->
  pr_ids (g_index ps docs junk last gs) t restrict = Some (filter (rmem restrict) (lk gs t)).
Proof.
  intros ps docs junk last gs t restrict H TO LO RS.
  pose proof (gf_sizes ps docs junk last gs) as SZ.
  destruct (find_list_spec (g_index ps docs junk last gs) gs (gf_e ps docs junk last gs)
     ((put_uint32 (nlen gf_a) ++ put_uint32 (nlen (gf_b ps)) ++ put_uint32 (nlen (gf_c ps docs junk))
    ++ put_uint32 (nlen (gf_d ps docs junk gs)) ++ put_uint32 (nlen (gf_e ps docs junk last gs))) ++ trailer_magic) t) as
    [(g1 & ids & g2 & Egs & Ef)|(Hno & Ef)]; try reflexivity; try assumption; try lia.
  - unfold g_index. cbn [ix_data]. unfold gfile, gf_f. rewrite <- !app_assoc. reflexivity.
  - assert (IN : In (t, ids) gs) by (rewrite Egs; apply in_or_app; right; left; reflexivity).
    rewrite (lk_in gs t ids TO IN). destruct (LO _ IN) as (S & B). cbn [snd] in S, B.
    unfold pr_ids, pr_init. rewrite Ef. cbn [bind fst snd].
    destruct (N.eqb_spec (nlen ids) 0) as [E0|E0].
    { assert (ids = []) by (destruct ids; [reflexivity|unfold nlen in E0; cbn in E0; lia]). subst ids. reflexivity. }
    subst gs. destruct (list_there ps docs junk last g1 t ids g2 H) as (rest & ER). cbn [g_index ix_data ix_postData].
    rewrite ER. cbn [bind pr_count]. apply (pr_all_spec (length ids)); [lia| |exact RS|unfold nlen; lia].
    apply (ids_chain (nlen docs)); [assumption|assumption|lia].
  - rewrite lk_none by assumption. unfold pr_ids, pr_init. rewrite Ef. reflexivity.
Qed.

(** The entry of the k-th list. *)
Lemma list_at_gfile : forall ps docs junk last g1 t ids g2, let gs := g1 ++ (t, ids) :: g2 in nlen (gfile ps docs junk last gs) < 2^32 -> table_ok gs ->
  list_at (g_index ps docs junk last gs) (u32 (nlen g1 * post_entry_size)) = Some (t, nlen ids, nlen (lists_bytes g1)).
Proof.
  intros ps docs junk last g1 t ids g2 gs H TO. pose proof (gf_sizes ps docs junk last gs) as SZ.
  assert (GL : nlen gs = nlen g1 + 1 + nlen g2) by (unfold gs; rewrite nlen_app, nlen_cons; lia).
  assert (LL : nlen (lists_bytes g1) <= nlen (lists_bytes gs)) by (unfold gs; rewrite lists_bytes_app, nlen_app; lia).
  destruct TO as (_ & F). rewrite Forall_forall in F. destruct (F (t, ids)) as (T1 & T2); [unfold gs; apply in_or_app; right; left; reflexivity|]. cbn [fst snd] in T1, T2.
  unfold list_at, g_index, post_entry_size. cbn [ix_data ix_postIndex]. rewrite (u32_small (nlen g1 * 11)) by lia.
  pose proof (gfile_len ps docs junk last gs) as L1. pose proof (gf_f_len ps docs junk last gs) as L2.
  rewrite u32_small by lia.
  assert (EI : index_bytes 0 gs = index_bytes 0 g1 ++ (put_trigram t ++ put_uint32 (nlen ids) ++ put_uint32 (nlen (lists_bytes g1))) ++ index_bytes (nlen (lists_bytes g1) + nlen (list_bytes (t, ids))) g2).
  { unfold gs. rewrite index_bytes_app. cbn [index_bytes]. rewrite <- !app_assoc. reflexivity. }
  unfold gfile, gf_f. rewrite EI. rewrite <- !app_assoc.
  replace (nlen (gf_e ps docs junk last gs) + nlen g1 * 11) with (nlen (gf_e ps docs junk last gs ++ index_bytes 0 g1)) by (rewrite nlen_app, index_bytes_len; lia).
  change 11%nat with (length (put_trigram t ++ put_uint32 (nlen ids) ++ put_uint32 (nlen (lists_bytes g1)))).
  rewrite app_assoc. rewrite (app_assoc (put_uint32 (nlen ids))). rewrite (app_assoc (put_trigram t)).
  rewrite slice_n_app. cbn [bind]. rewrite get_put_trigram by assumption. cbn [bind].
  change (skipn 3 (put_trigram t ++ ?x)) with x. unfold put_trigram. cbn [app skipn]. rewrite get_put_uint32 by assumption. cbn [bind].
  rewrite <- (app_nil_r (put_uint32 (nlen (lists_bytes g1)))). unfold put_uint32 at 1. cbn [app skipn].
  rewrite get_put_uint32 by lia. reflexivity.
Qed.
