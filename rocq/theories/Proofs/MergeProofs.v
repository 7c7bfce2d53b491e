(** mergePost and Flush: the bytes of the flushed index (C04-C06). *)
From Coq Require Import Sorted Permutation.
From Verif Require Import Model.Base Model.Codec Model.Sparse Model.Posts Model.Writer
  Spec.IndexSpec Spec.RunSpec Proofs.Arith Proofs.ListLemmas Proofs.CodecProofs Proofs.SparseProofs
  Proofs.SortProofs Proofs.HeapProofs Proofs.ScanProofs Proofs.RatioProofs Proofs.WriterProofs.
Local Open Scope N_scope.

(** ** The heap as a sorted stream. *)
Definition hs (h : heap) (L : list N) : Prop :=
  hinv h /\ StronglySorted N.le L /\ Permutation (entries h) L.

Definition sentinel : N := make_pe max_trigram 0.

Lemma hs_nil : forall h, hs h [] -> h = [].
Proof.
  intros h (_ & _ & P). apply Permutation_sym, Permutation_nil in P.
  destruct h as [|[e m] h]; [reflexivity|discriminate].
Qed.

Lemma hs_next : forall h L, hs h L ->
  exists h', heap_next h = Some (hd sentinel L, h') /\ hs h' (tl L).
Proof.
  intros h L Hh. destruct L as [|x L].
  - pose proof (hs_nil h Hh). subst h. exists []. split; [reflexivity|assumption].
  - destruct Hh as (Hi & Hs & HP). destruct h as [|[e m] h].
    { apply Permutation_nil in HP. discriminate. }
    destruct (heap_next_spec e m h Hi) as (h' & E & Hi' & HP').
    assert (x = e).
    { apply N.le_antisymm.
      - inversion Hs as [|? ? _ F]; subst. rewrite Forall_forall in F.
        assert (He : In e (x :: L)).
        { eapply Permutation_in; [exact HP|]. unfold entries. cbn. left. reflexivity. }
        destruct He as [<-|He]; [reflexivity|apply F; assumption].
      - eapply hinv_root_min; [exact Hi|]. eapply Permutation_in; [apply Permutation_sym; exact HP|].
        left. reflexivity. }
    subst x. exists h'. split; [exact E|]. split; [assumption|].
    split; [inversion Hs; assumption|]. apply Permutation_cons_inv with e.
    cbn [tl]. eapply Permutation_trans; [apply Permutation_sym; exact HP'|exact HP].
Qed.

(** ** Groups of equal trigrams. *)
Notation group := (N * list N)%type.
Definition pe (t id : N) : N := t * 2^32 + id.
Definition flat (gs : list group) : list N := concat (map (fun g => map (pe (fst g)) (snd g)) gs).

Fixpoint group_up (L : list N) : list group :=
  match L with
  | [] => []
  | e :: L' =>
      let t := e / 2^32 in let i := e mod 2^32 in
      match group_up L' with
      | (t', ids) :: rest => if t' =? t then (t, i :: ids) :: rest else (t, [i]) :: (t', ids) :: rest
      | [] => [(t, [i])]
      end
  end.

Lemma pe_divmod : forall e, pe (e / 2^32) (e mod 2^32) = e.
Proof. intros. unfold pe. rewrite N.mul_comm. symmetry. apply N.div_mod. discriminate. Qed.

Lemma flat_group_up : forall L, flat (group_up L) = L.
Proof.
  induction L as [|e L IH]; [reflexivity|]. cbn [group_up].
  destruct (group_up L) as [|[t' ids] rest] eqn:E.
  - cbn. rewrite pe_divmod. unfold flat in IH. cbn in IH. congruence.
  - destruct (N.eqb_spec t' (e / 2^32)) as [->|Hne].
    + unfold flat in *. cbn [map concat fst snd app] in *. rewrite pe_divmod. cbn. f_equal. exact IH.
    + unfold flat in *. cbn [map concat fst snd app] in *. rewrite pe_divmod. cbn. f_equal. exact IH.
Qed.

Definition group_ok (g : group) : Prop :=
  snd g <> [] /\ (forall i, In i (snd g) -> i < 2^32) /\ StronglySorted N.lt (snd g).
Definition groups_ok (gs : list group) : Prop :=
  Forall group_ok gs /\ StronglySorted (fun g1 g2 => fst g1 < fst g2) gs.

Lemma group_up_ok : forall L, StronglySorted N.lt L -> groups_ok (group_up L).
Proof.
  induction L as [|e L IH]; intros H; [split; constructor|].
  inversion H as [|? ? H1 H2]; subst. specialize (IH H1). cbn [group_up].
  pose proof (flat_group_up L) as FL.
  assert (Hmod : forall x, x mod 2^32 < 2^32) by (intros; apply N.mod_lt; discriminate).
  destruct (group_up L) as [|[t' ids] rest] eqn:E.
  - split; repeat constructor; cbn; try discriminate; intros; intuition; subst; apply Hmod.
  - destruct IH as [G S]. pose proof (Forall_inv G) as (G1 & G2 & G3).
    pose proof (Forall_inv_tail G) as G'. cbn in G1, G2, G3.
    destruct ids as [|i0 ids]; [congruence|].
    assert (Hhd : In (pe t' i0) L). { rewrite <- FL. unfold flat. cbn. left. reflexivity. }
    rewrite Forall_forall in H2. pose proof (H2 _ Hhd) as Hlt.
    assert (Hi0 : i0 < 2^32) by (apply G2; left; reflexivity).
    assert (Et : pe t' i0 / 2^32 = t' /\ pe t' i0 mod 2^32 = i0).
    { unfold pe. rewrite N.add_comm, N.div_add, N.mod_add by discriminate.
      rewrite N.div_small, N.mod_small by assumption. auto. }
    destruct (N.eqb_spec t' (e / 2^32)) as [->|Hne].
    + split; [|inversion S; subst; constructor; auto].
      constructor; [|assumption]. split; [discriminate|]. cbn. split.
      * intros i [<-|Hi]; [apply Hmod|apply G2; assumption].
      * constructor; [assumption|].
        assert (Hlt0 : e mod 2^32 < i0).
        { pose proof (pe_divmod e) as D. unfold pe in *. set (q := e / 2^32) in *.
          set (r := e mod 2^32) in *. clearbody q r. lia. }
        apply Forall_forall. intros i [<-|Hi]; [assumption|].
        inversion G3 as [|? ? _ F]; subst. rewrite Forall_forall in F. specialize (F _ Hi). lia.
    + split; [constructor; [|assumption]|].
      * split; [discriminate|]. cbn. split; [intros i [<-|[]]; apply Hmod|repeat constructor].
      * constructor; [assumption|]. apply Forall_forall. intros g Hg. cbn.
        assert (Hle : e / 2^32 <= t').
        { rewrite <- (proj1 Et). apply N.div_le_mono; [discriminate|lia]. }
        destruct Hg as [<-|Hg]; [cbn; lia|].
        inversion S as [|? ? _ F]; subst. rewrite Forall_forall in F. specialize (F _ Hg). cbn in F. lia.
Qed.

(** ** The bytes of a posting list. *)
Fixpoint deltas (f : N) (ids : list N) : bytes :=
  match ids with
  | [] => []
  | i :: r => put_uvarint (u32 (i + 2^32 - f)) ++ deltas i r
  end.
Definition list_bytes (g : group) : bytes := put_trigram (fst g) ++ deltas (2^32 - 1) (snd g) ++ [0].
Definition lists_bytes (gs : list group) : bytes := concat (map list_bytes gs).
Fixpoint index_bytes (off : N) (gs : list group) : bytes :=
  match gs with
  | [] => []
  | g :: r => put_trigram (fst g) ++ put_uint32 (nlen (snd g)) ++ put_uint32 off
              ++ index_bytes (off + nlen (list_bytes g)) r
  end.
Definition last_group : group := (max_trigram, []).

Lemma pe_fields : forall t i, t < 2^24 -> i < 2^32 -> pe_trigram (pe t i) = t /\ pe_fileid (pe t i) = i.
Proof.
  intros t i Ht Hi. unfold pe_trigram, pe_fileid, u32, pe.
  destruct (entry_fields t i Ht Hi) as (E1 & E2 & _). rewrite E1, E2. split; [|reflexivity].
  apply N.mod_small. change (2^32) with 4294967296. change (2^24) with 16777216 in Ht. lia.
Qed.

Lemma sentinel_fields : pe_trigram sentinel = max_trigram.
Proof. vm_compute. reflexivity. Qed.

Lemma merge_list_spec : forall ids fuel h R t f n out,
  t < max_trigram -> (forall i, In i ids -> i < 2^32) -> n + nlen ids < 2^32 ->
  pe_trigram (hd sentinel R) <> t ->
  hs h (tl (map (pe t) ids ++ R)) -> (length ids < fuel)%nat ->
  exists h', merge_list fuel h (hd sentinel (map (pe t) ids ++ R)) t f n out =
    Some (hd sentinel R, h', n + nlen ids, out ++ deltas f ids) /\ hs h' (tl R).
Proof.
  induction ids as [|i ids IH]; intros fuel h R t f n out Ht Hi Hn HR Hh Hf;
    (destruct fuel as [|fuel]; [cbn in Hf; lia|]); cbn [merge_list].
  - cbn [map app] in *. replace (pe_trigram (hd sentinel R) =? t) with false
      by (symmetry; apply N.eqb_neq; assumption).
    cbn [andb]. exists h. split; [|assumption]. cbn [deltas]. rewrite app_nil_r.
    unfold nlen. cbn. rewrite N.add_0_r. reflexivity.
  - cbn [map app hd tl] in *.
    assert (Ht24 : t < 2^24) by (change max_trigram with (2^24-1) in Ht; lia).
    destruct (pe_fields t i Ht24 (Hi i (or_introl eq_refl))) as [P1 P2].
    rewrite P1, P2, N.eqb_refl.
    replace (t =? max_trigram) with false by (symmetry; apply N.eqb_neq; lia). cbn [negb andb].
    destruct (hs_next h _ Hh) as (h1 & E1 & Hh1). rewrite E1. cbn [bind fst snd].
    assert (Hn1 : n + 1 + nlen ids < 2^32) by (unfold nlen in *; cbn [length] in Hn; lia).
    rewrite (u32_small (n + 1)) by (unfold nlen in *; lia).
    destruct (IH fuel h1 R t i (n + 1) (out ++ put_uvarint (u32 (i + 2 ^ 32 - f)))) as (h' & E' & Hh');
      auto; [intros; apply Hi; right; assumption|cbn in Hf; lia|].
    exists h'. split; [|assumption]. rewrite E'. cbn [deltas]. rewrite <- app_assoc.
    do 2 f_equal. f_equal. unfold nlen. cbn [length]. lia.
Qed.

Lemma flat_length : forall gs, Forall group_ok gs -> (length gs <= length (flat gs))%nat.
Proof.
  induction gs as [|g gs IH]; intros H; [cbn; lia|]. inversion H as [|? ? (G & _) H']; subst.
  unfold flat in *. cbn [map concat length]. rewrite app_length, map_length.
  specialize (IH H'). destruct (snd g); [congruence|cbn; lia].
Qed.

Lemma nlen_app : forall {A} (a b : list A), nlen (a ++ b) = nlen a + nlen b.
Proof. intros. unfold nlen. rewrite app_length. lia. Qed.

Lemma list_bytes_max : list_bytes last_group = put_trigram max_trigram ++ put_uvarint 0.
Proof. reflexivity. Qed.

Lemma merge_lists_spec : forall gs fuel h off0 out pidx,
  groups_ok gs -> Forall (fun g => fst g < max_trigram /\ nlen (snd g) < 2^32) gs ->
  hs h (tl (flat gs)) -> (length (flat gs) + 1 < fuel)%nat -> off0 <= nlen out ->
  merge_lists fuel h (hd sentinel (flat gs)) off0 out pidx =
    if nlen (out ++ lists_bytes gs) <? 2^32 then
      Some (out ++ lists_bytes gs ++ list_bytes last_group,
            pidx ++ index_bytes (nlen out - off0) (gs ++ [last_group]))
    else None.
Proof.
  induction gs as [|g gs IH]; intros fuel h off0 out pidx Hok Hb Hh Hf Ho;
    (destruct fuel as [|fuel]; [cbn in Hf; lia|]); cbn [merge_lists].
  - unfold lists_bytes. cbn [map concat]. rewrite app_nil_r.
    unfold off32. destruct (N.ltb_spec (nlen out) (2^32)) as [H|H].
    2:{ destruct (u32 (nlen out) =? nlen out) eqn:E; [apply u32_self in E; lia|reflexivity]. }
    rewrite (proj2 (u32_self _) H). cbn [bind flat map concat hd].
    rewrite sentinel_fields. cbn [merge_list]. rewrite ?N.eqb_refl, ?sentinel_fields. cbn [negb andb].
    rewrite ?andb_false_r.
    cbn [bind app].
    f_equal. f_equal.
    + rewrite list_bytes_max, <- app_assoc. reflexivity.
    + cbn [index_bytes app]. rewrite app_nil_r. do 3 f_equal.
      replace (nlen out + 2^32 - off0) with (nlen out - off0 + 1 * 2^32) by lia.
      unfold u32. rewrite N.mod_add by discriminate. rewrite N.mod_small by lia. reflexivity.
  - destruct Hok as [G S]. inversion G as [|? ? (G1 & G2 & G3) G']; subst.
    inversion S as [|? ? S' F]; subst. inversion Hb as [|? ? [B1 B2] Hb']; subst.
    destruct g as [t ids]. cbn [fst snd] in *.
    change (flat ((t, ids) :: gs)) with (map (pe t) ids ++ flat gs) in *.
    assert (Ehd : pe_trigram (hd sentinel (map (pe t) ids ++ flat gs)) = t).
    { destruct ids as [|i ids]; [congruence|]. cbn. apply pe_fields.
      - change max_trigram with (2^24-1) in B1. lia.
      - apply G2. left. reflexivity. }
    rewrite Ehd. unfold off32.
    assert (Hlt : nlen (out ++ lists_bytes ((t, ids) :: gs)) < 2^32 -> nlen out < 2^32)
      by (rewrite nlen_app; lia).
    destruct (u32 (nlen out) =? nlen out) eqn:Eo; cbn [bind].
    2:{ destruct (N.ltb_spec (nlen (out ++ lists_bytes ((t, ids) :: gs))) (2^32)) as [H|H]; [|reflexivity].
        apply Hlt, u32_self in H. congruence. }
    apply u32_self in Eo.
    assert (HR : pe_trigram (hd sentinel (flat gs)) <> t).
    { destruct gs as [|[t2 ids2] gs].
      - cbn [flat map concat hd]. rewrite sentinel_fields. lia.
      - inversion G' as [|? ? (G1' & G2' & _) _]; subst. cbn [fst snd] in *.
        destruct ids2 as [|i2 ids2]; [congruence|]. unfold flat. cbn [map concat hd app fst snd].
        inversion Hb' as [|? ? [B1' _] _]; subst. cbn [fst] in *.
        rewrite (proj1 (pe_fields t2 i2 ltac:(change max_trigram with (2^24-1) in B1'; lia)
                          (G2' i2 (or_introl eq_refl)))).
        rewrite Forall_forall in F. specialize (F (t2, i2 :: ids2) (or_introl eq_refl)). cbn in F. lia. }
    rewrite app_length, map_length in Hf.
    destruct (merge_list_spec ids (Datatypes.S fuel) h (flat gs) t (2^32 - 1) 0 (out ++ put_trigram t))
      as (h' & E' & Hh'); auto; [lia|].
    rewrite E'. cbn [bind]. rewrite N.add_0_l.
    replace (t =? max_trigram) with false by (symmetry; apply N.eqb_neq; lia).
    assert (Eout : ((out ++ put_trigram t) ++ deltas (2 ^ 32 - 1) ids) ++ put_uvarint 0
                   = out ++ list_bytes (t, ids)).
    { unfold list_bytes. cbn [fst snd]. rewrite <- !app_assoc. reflexivity. }
    rewrite Eout.
    rewrite IH; auto.
    + replace ((out ++ list_bytes (t, ids)) ++ lists_bytes gs) with (out ++ lists_bytes ((t, ids) :: gs))
        by (unfold lists_bytes; cbn [map concat]; rewrite <- app_assoc; reflexivity).
      destruct (N.ltb_spec (nlen (out ++ lists_bytes ((t, ids) :: gs))) (2^32)) as [H|H]; [|reflexivity].
      f_equal. f_equal.
      * unfold lists_bytes. cbn [map concat]. rewrite <- !app_assoc. reflexivity.
      * cbn [app index_bytes fst snd]. rewrite <- !app_assoc. do 3 f_equal.
        -- replace (nlen out + 2^32 - off0) with (nlen out - off0 + 1 * 2^32) by lia.
           unfold u32. rewrite N.mod_add by discriminate. rewrite N.mod_small by lia. f_equal.
           f_equal. rewrite nlen_app. lia.
    + split; assumption.
    + destruct ids; [congruence|]. cbn [length] in Hf. lia.
    + rewrite nlen_app. lia.
Qed.

(** ** The whole file. *)
Definition sorted_entries (docs : list doc) (L : list N) : Prop :=
  StronglySorted N.lt L /\ forall e, In e L <-> entry_in docs e.

Lemma sorted_entries_unique : forall docs L1 L2,
  sorted_entries docs L1 -> sorted_entries docs L2 -> L1 = L2.
Proof.
  intros docs L1 L2 [S1 H1] [S2 H2]. apply (strict_sorted_ext N.lt); auto.
  - intros x. apply N.lt_irrefl.
  - intros x y A B. apply (N.lt_irrefl x). eapply N.lt_trans; eassumption.
  - intros x. rewrite H1, H2. reflexivity.
Qed.

Definition layout (paths : list str) (docs : list doc) (L : list N) : bytes :=
  let docs' := docs ++ [([], [])] in
  let gs := group_up L in
  let a := magic in
  let b := a ++ paths_bytes paths in
  let c := b ++ names_data docs' in
  let d := c ++ lists_bytes (gs ++ [last_group]) in
  let e := d ++ concat (map put_uint32 (name_offsets 0 docs')) in
  let f := e ++ index_bytes 0 (gs ++ [last_group]) in
  f ++ (put_uint32 (nlen a) ++ put_uint32 (nlen b) ++ put_uint32 (nlen c) ++ put_uint32 (nlen d)
        ++ put_uint32 (nlen e)) ++ trailer_magic.

Lemma heap_of_build : forall ms h, heap_of h ms = build_heap h ms.
Proof. induction ms; intros; cbn; [reflexivity|]. destruct (heap_add h a); cbn; auto. Qed.

Lemma lt_sorted_of_le : forall l, StronglySorted N.le l -> NoDup l -> StronglySorted N.lt l.
Proof.
  induction l as [|x l IH]; intros H N; constructor; inversion H; inversion N; subst; auto.
  rewrite Forall_forall in *. intros y Hy. assert (x <> y) by congruence. specialize (H3 y Hy). lia.
Qed.

Lemma le_sorted_of_lt : forall l, StronglySorted N.lt l -> StronglySorted N.le l.
Proof.
  intros l. apply StronglySorted_weaken. intros. lia.
Qed.

(** From the writer's buffers to the sorted stream. *)
Lemma merge_heap : forall w ps docs, winv w ps docs -> nlen docs <= 2^32 ->
  exists h1 p h L, heap_of [] (w_postFile w) = Some h1 /\ sort_post (w_post w) = Some p /\
    heap_add h1 p = Some h /\ hs h L /\ sorted_entries docs L /\ length L = total_posts w.
Proof.
  intros w ps docs (_ & _ & _ & _ & _ & _ & W7 & W8 & W9 & W10 & W11) Hn.
  assert (Hlt : Forall (fun p => p < 2^56) (w_post w)).
  { apply Forall_forall. intros e He. apply (entry_in_bounds docs e Hn W7).
    apply W9. apply in_or_app. right. assumption. }
  destruct (sort_post_spec (w_post w) Hlt W10) as (p & Ep & HPp & HSp).
  destruct (build_heap_spec (w_postFile w) [] hinv_nil W11) as (h1 & E1 & Hi1 & HP1).
  destruct (heap_add_spec h1 p Hi1 HSp) as (h & Eh & Hi & HP).
  destruct (drain_spec (length (entries h)) h Hi eq_refl) as (L & _ & HPL & HSL).
  assert (PL : Permutation L (concat (w_postFile w) ++ w_post w)).
  { eapply Permutation_trans; [exact HPL|]. eapply Permutation_trans; [apply Permutation_sym; exact HP|].
    apply Permutation_app; [apply Permutation_sym; exact HP1|assumption]. }
  exists h1, p, h, L. rewrite heap_of_build. repeat split; auto.
  - apply Hi.
  - apply Hi.
  - apply Permutation_sym; assumption.
  - apply lt_sorted_of_le; [assumption|]. eapply Permutation_NoDup; [apply Permutation_sym; exact PL|assumption].
  - intros He. apply W9. eapply Permutation_in; eassumption.
  - intros He. apply W9 in He. eapply Permutation_in; [apply Permutation_sym; eassumption|assumption].
  - apply Permutation_length in PL. rewrite PL, app_length. reflexivity.
Qed.

(** Trigrams and list lengths of the groups. *)
Lemma groups_bounds : forall docs L, sorted_entries docs L -> nlen docs < 2^32 ->
  Forall (fun d => nul_free (fst d) /\ text_ok (snd d)) docs ->
  groups_ok (group_up L) /\
  Forall (fun g => fst g < max_trigram /\ nlen (snd g) < 2^32 /\ forall i, In i (snd g) -> i < nlen docs)
         (group_up L).
Proof.
  intros docs L [HS HI] Hn Hd. pose proof (group_up_ok L HS) as [G S]. split; [split; assumption|].
  apply Forall_forall. intros [t ids] Hg. rewrite Forall_forall in G. destruct (G _ Hg) as (G1 & G2 & G3).
  cbn [fst snd] in *.
  assert (Hin : forall i, In i ids -> t < max_trigram /\ i < nlen docs).
  { intros i Hi. assert (Hp : In (pe t i) L).
    { rewrite <- (flat_group_up L). unfold flat. apply in_concat. exists (map (pe t) ids).
      split; [apply (in_map (fun g => map (pe (fst g)) (snd g)) _ _ Hg)|apply in_map; assumption]. }
    apply HI in Hp. destruct (entry_in_bounds docs _ ltac:(lia) Hd Hp) as (_ & B1 & B2).
    specialize (G2 i Hi). unfold pe in B1, B2.
    rewrite N.add_comm, N.mod_add in B1 by discriminate. rewrite N.mod_small in B1 by assumption.
    rewrite N.add_comm, N.div_add in B2 by discriminate. rewrite N.div_small in B2 by assumption.
    split; [lia|assumption]. }
  split; [destruct ids as [|i ids]; [congruence|]; apply (Hin i); left; reflexivity|].
  split; [|intros i Hi; apply Hin; assumption].
  apply N.le_lt_trans with (nlen docs); [|assumption].
  apply nodup_bound; [|intros i Hi; apply Hin; assumption].
  clear -G3. induction ids as [|i ids IH]; constructor; inversion G3 as [|? ? H F]; subst; auto.
  intros Hi. rewrite Forall_forall in F. specialize (F i Hi). lia.
Qed.

Lemma layout_names : forall ps docs L, nlen (names_data docs) < nlen (layout ps docs L).
Proof.
  intros. unfold layout. cbv zeta. rewrite !nlen_app.
  unfold names_data at 2. rewrite map_app, concat_app, nlen_app.
  fold (names_data docs).
  assert (0 < nlen magic) by (vm_compute; reflexivity). lia.
Qed.

Lemma off32_cases : forall b, off32 b = if nlen b <? 2^32 then Some (nlen b) else None.
Proof.
  intros. unfold off32. destruct (u32 (nlen b) =? nlen b) eqn:E.
  - apply u32_self in E. apply N.ltb_lt in E. rewrite E. reflexivity.
  - destruct (N.ltb_spec (nlen b) (2^32)) as [H|H]; [|reflexivity].
    apply u32_self in H. congruence.
Qed.

Lemma lists_bytes_snoc : forall gs g, lists_bytes (gs ++ [g]) = lists_bytes gs ++ list_bytes g.
Proof.
  intros. unfold lists_bytes. rewrite map_app, concat_app. cbn [map concat].
  rewrite app_nil_r. reflexivity.
Qed.

(** Flush writes [layout], unless the file would reach 4 GiB, where it stops. *)
Inductive flush_outcome (ps : list str) (docs : list doc) : option bytes -> Prop :=
| flush_ok : forall L, sorted_entries docs L -> nlen (layout ps docs L) < 2^32 ->
    flush_outcome ps docs (Some (layout ps docs L))
| flush_big : (forall L, sorted_entries docs L -> 2^32 <= nlen (layout ps docs L)) ->
    flush_outcome ps docs None.

Lemma iw_flush_spec : forall w ps docs, winv w ps docs -> flush_outcome ps docs (iw_flush w).
Proof.
  intros w ps docs Hw. pose proof Hw as (_ & W2 & W3 & W4 & W5 & W6 & W7 & _).
  unfold iw_flush, add_name. cbn [existsb]. rewrite off32_cases, W3.
  destruct (N.ltb_spec (nlen (names_data docs)) (2^32)) as [Hnd|Hnd]; cbn [bind].
  2:{ apply flush_big. intros L _. pose proof (layout_names ps docs L). lia. }
  pose proof (names_data_length docs) as Hnl.
  destruct (merge_heap w ps docs Hw ltac:(lia)) as (h1 & p & h & L & E1 & E2 & E3 & Hh & HL & Hlen).
  destruct (groups_bounds docs L HL ltac:(lia) W7) as [HG HB].
  destruct (hs_next h L Hh) as (h' & E4 & Hh').
  assert (Enames : names_data docs ++ [] ++ [0] = names_data (docs ++ [([], [])])).
  { unfold names_data. rewrite map_app, concat_app. reflexivity. }
  assert (Eoffs : w_nameIndex w ++ put_uint32 (nlen (names_data docs))
                  = concat (map put_uint32 (name_offsets 0 (docs ++ [([], [])])))).
  { rewrite name_offsets_snoc, map_app, concat_app, W4. cbn [map concat].
    rewrite app_nil_r, N.add_0_l. reflexivity. }
  cbn [snd w_paths w_nameData w_nameIndex].
  rewrite W2, Enames, Eoffs.
  unfold merge_post. cbn [w_postFile w_post]. rewrite E1, E2. cbn [bind]. rewrite E3. cbn [bind].
  rewrite E4. cbn [bind fst snd].
  rewrite (off32_cases magic). change (nlen magic <? 2^32) with true. cbn [bind].
  set (b := magic ++ paths_bytes ps).
  set (c := b ++ names_data (docs ++ [([], [])])).
  assert (Hlay : nlen (layout ps docs L) < 2^32 -> nlen c < 2^32).
  { unfold layout. cbv zeta. fold b. fold c. rewrite !nlen_app. lia. }
  assert (Hbc : nlen b <= nlen c) by (unfold c; rewrite nlen_app; lia).
  assert (Hbig : 2^32 <= nlen (layout ps docs L) -> flush_outcome ps docs None).
  { intros H. apply flush_big. intros L' HL'.
    rewrite (sorted_entries_unique docs L' L HL' HL). exact H. }
  rewrite (off32_cases b). destruct (N.ltb_spec (nlen b) (2^32)) as [Hb|Hb]; cbn [bind].
  2:{ apply Hbig. destruct (N.lt_ge_cases (nlen (layout ps docs L)) (2^32)) as [H|H]; [|assumption].
      apply Hlay in H. lia. }
  rewrite !(off32_cases c). destruct (N.ltb_spec (nlen c) (2^32)) as [Hc|Hc]; cbn [bind].
  2:{ apply Hbig. destruct (N.lt_ge_cases (nlen (layout ps docs L)) (2^32)) as [H|H]; [|assumption].
      apply Hlay in H. lia. }
  assert (Hms := merge_lists_spec (group_up L) (S (S (total_posts w))) h' (nlen c) c [] HG).
  rewrite flat_group_up in Hms. unfold total_posts in *. cbn [w_postFile w_post].
  rewrite Hms; clear Hms.
  2:{ eapply Forall_impl; [|exact HB]. intros g (A & B & _). auto. }
  2:{ assumption. }
  2:{ lia. }
  2:{ lia. }
  rewrite N.sub_diag. set (d := c ++ lists_bytes (group_up L) ++ list_bytes last_group).
  assert (Ed : d = c ++ lists_bytes (group_up L ++ [last_group])) by (rewrite lists_bytes_snoc; reflexivity).
  assert (Hlay2 : nlen (layout ps docs L) < 2^32 -> nlen d < 2^32).
  { rewrite Ed. unfold layout. cbv zeta. fold b. fold c. rewrite !nlen_app. lia. }
  assert (Hcd : nlen (c ++ lists_bytes (group_up L)) <= nlen d) by (unfold d; rewrite !nlen_app; lia).
  destruct (N.ltb_spec (nlen (c ++ lists_bytes (group_up L))) (2^32)) as [H1|H1]; cbn [bind].
  2:{ apply Hbig. destruct (N.lt_ge_cases (nlen (layout ps docs L)) (2^32)) as [H|H]; [|assumption].
      apply Hlay2 in H. lia. }
  cbn [fst snd app]. rewrite (off32_cases d). destruct (N.ltb_spec (nlen d) (2^32)) as [Hd|Hd]; cbn [bind].
  2:{ apply Hbig. destruct (N.lt_ge_cases (nlen (layout ps docs L)) (2^32)) as [H|H]; [|assumption].
      apply Hlay2 in H. lia. }
  set (e := d ++ concat (map put_uint32 (name_offsets 0 (docs ++ [([], [])])))).
  assert (Elay : layout ps docs L =
    ((e ++ index_bytes 0 (group_up L ++ [last_group])) ++
     (put_uint32 (nlen magic) ++ put_uint32 (nlen b) ++ put_uint32 (nlen c) ++ put_uint32 (nlen d)
        ++ put_uint32 (nlen e))) ++ trailer_magic).
  { unfold layout. cbv zeta. fold b. fold c. rewrite <- Ed. fold e. rewrite <- !app_assoc. reflexivity. }
  assert (Hlay3 : nlen (layout ps docs L) < 2^32 -> nlen e < 2^32).
  { rewrite Elay. rewrite !nlen_app. lia. }
  rewrite (off32_cases e). destruct (N.ltb_spec (nlen e) (2^32)) as [He|He]; cbn [bind].
  2:{ apply Hbig. destruct (N.lt_ge_cases (nlen (layout ps docs L)) (2^32)) as [H|H]; [|assumption].
      apply Hlay3 in H. lia. }
  rewrite <- Elay. rewrite off32_cases.
  destruct (N.ltb_spec (nlen (layout ps docs L)) (2^32)) as [Hf|Hf]; cbn [bind].
  - apply flush_ok; assumption.
  - apply Hbig; assumption.
Qed.
