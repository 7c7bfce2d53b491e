(** merge.go:165-214 and 234-344, posting lists of the merged index. *)
From Coq Require Import Sorted.
From Verif Require Import Model.Base Model.Codec Model.Writer Model.Reader Model.IndexMerge Spec.RunSpec Spec.MergeSpec
  Proofs.Arith Proofs.CodecProofs Proofs.WriterProofs Proofs.MergeProofs Proofs.ReaderProofs Proofs.IndexFile Proofs.MergeRanges Proofs.MergeCopy.
Local Open Scope N_scope.

(** ** Mapping ids *)
Fixpoint mapped (ids : list N) (rs : list idrange) : list N :=
  match ids with
  | [] => []
  | i :: r => match drop_ranges rs i with
              | [] => []
              | (q :: _) as rs' => if i <? r_lo q then mapped r rs' else (r_new q + i - r_lo q) :: mapped r rs'
              end
  end.

Fixpoint rs_ok (lo new : N) (rs : list idrange) : Prop :=
  match rs with
  | [] => True
  | r :: rest => lo <= r_lo r /\ r_lo r < r_hi r /\ new <= r_new r /\ rs_ok (r_hi r) (r_new r + (r_hi r - r_lo r)) rest
  end.
Lemma rs_ok_weak : forall rs lo new lo' new', rs_ok lo new rs -> lo' <= lo -> new' <= new -> rs_ok lo' new' rs.
Proof. intros [|r rs] lo new lo' new' H L1 L2; [exact I|]. cbn in *. destruct H as (A & B & C & D). repeat split; try lia; assumption. Qed.
Lemma rs_ok_in : forall rs lo new q, rs_ok lo new rs -> In q rs -> lo <= r_lo q /\ r_lo q < r_hi q /\ new <= r_new q.
Proof.
  induction rs as [|r rs IH]; intros lo new q H I; [destruct I|]. cbn in H. destruct H as (A & B & C & D). destruct I as [<-|I]; [auto|].
  destruct (IH _ _ _ D I) as (X & Y & Z). repeat split; lia.
Qed.
Lemma drop_ranges_spec : forall rs i, exists a, rs = a ++ drop_ranges rs i /\ (forall q, In q a -> r_hi q <= i) /\
  match drop_ranges rs i with [] => True | q :: _ => i < r_hi q end.
Proof.
  induction rs as [|r rs IH]; intros i; cbn.
  - exists []. split; [reflexivity|]. split; [intros q []|exact I].
  - destruct (N.leb_spec (r_hi r) i) as [L|L].
    + destruct (IH i) as (a & E & A & B). exists (r :: a). split; [cbn; congruence|]. split; [|exact B]. intros q [<-|J]; auto.
    + exists []. split; [reflexivity|]. split; [intros q []|exact L].
Qed.
Lemma rs_ok_drop : forall rs i, rs_ok 0 0 rs -> rs_ok 0 0 (drop_ranges rs i).
Proof.
  induction rs as [|r rs IH]; intros i H; cbn; [exact I|]. destruct (r_hi r <=? i); [|exact H]. apply IH. destruct H as (_ & _ & _ & D).
  eapply rs_ok_weak; [exact D|lia|lia].
Qed.
Lemma drop_in : forall rs i q, In q (drop_ranges rs i) -> In q rs.
Proof. intros rs i q H. destruct (drop_ranges_spec rs i) as (a & E & _). rewrite E. apply in_or_app. right. exact H. Qed.

Definition image (rs : list idrange) (i x : N) : Prop := exists q, In q rs /\ r_lo q <= i < r_hi q /\ x = r_new q + i - r_lo q.

Lemma mapped_in : forall ids rs x, rs_ok 0 0 rs -> StronglySorted N.lt ids -> (In x (mapped ids rs) <-> exists i, In i ids /\ image rs i x).
Proof.
  induction ids as [|i ids IH]; intros rs x O S.
  - cbn. split; [intros []|intros (i & [] & _)].
  - inversion S as [|? ? S1 S2]; subst. rewrite Forall_forall in S2. cbn [mapped].
    destruct (drop_ranges_spec rs i) as (a & E & A & B). pose proof (rs_ok_drop rs i O) as O'.
    assert (LATE : forall j q, In j (i :: ids) -> In q rs -> r_lo q <= j < r_hi q -> In q (drop_ranges rs i)).
    { intros j q J Q L. rewrite E in Q. apply in_app_or in Q. destruct Q as [Q|Q]; [|exact Q]. specialize (A q Q).
      destruct J as [<-|J]; [lia|]. specialize (S2 j J). lia. }
    assert (SUB : forall q, In q (drop_ranges rs i) -> In q rs) by (intros q; apply drop_in).
    destruct (drop_ranges rs i) as [|q rs'] eqn:D.
    + split; [intros []|]. intros (j & J & q & Q & L & _). destruct (LATE j q J Q L).
    + assert (OT : forall q', In q' rs' -> r_hi q <= r_lo q').
      { intros q' Q. cbn in O'. destruct O' as (_ & _ & _ & O2). apply (rs_ok_in _ _ _ _ O2 Q). }
      assert (HQ : r_lo q < r_hi q) by (cbn in O'; tauto).
      assert (REC : In x (mapped ids (q :: rs')) <-> exists j, In j ids /\ image rs j x).
      { rewrite (IH _ x O' S1). split; intros (j & J & q' & Q & L & X); exists j; (split; [exact J|]); exists q'.
        - split; [apply SUB, Q|split; assumption].
        - split; [apply (LATE j); [right; exact J|exact Q|exact L]|split; assumption]. }
      destruct (N.ltb_spec i (r_lo q)) as [L|L].
      * rewrite REC. split; intros (j & J & X).
        -- exists j. split; [right; exact J|exact X].
        -- destruct J as [<-|J]; [|exists j; split; assumption]. exfalso. destruct X as (q' & Q & LL & _).
           pose proof (LATE i q' (or_introl eq_refl) Q LL) as [<-|Q']; [lia|]. specialize (OT q' Q'). lia.
      * cbn [In]. rewrite REC. split.
        -- intros [<-|(j & J & X)]; [|exists j; split; [right; exact J|exact X]]. exists i. split; [left; reflexivity|].
           exists q. split; [apply SUB; left; reflexivity|split; [lia|reflexivity]].
        -- intros (j & [<-|J] & X); [left|right; exists j; split; assumption]. destruct X as (q' & Q & LL & ->).
           pose proof (LATE i q' (or_introl eq_refl) Q LL) as [<-|Q']; [reflexivity|]. specialize (OT q' Q'). lia.
Qed.

Lemma mapped_sorted : forall ids rs, rs_ok 0 0 rs -> StronglySorted N.lt ids -> StronglySorted N.lt (mapped ids rs).
Proof.
  induction ids as [|i ids IH]; intros rs O S; [constructor|].
  inversion S as [|? ? S1 S2]; subst. rewrite Forall_forall in S2. cbn [mapped]. pose proof (rs_ok_drop rs i O) as O'.
  destruct (drop_ranges rs i) as [|q rs'] eqn:D; [constructor|].
  destruct (drop_ranges_spec rs i) as (_ & _ & _ & B). rewrite D in B.
  destruct (N.ltb_spec i (r_lo q)) as [L|L]; [apply IH; assumption|]. constructor; [apply IH; assumption|].
  apply Forall_forall. intros x X. apply (mapped_in _ _ _ O' S1) in X. destruct X as (j & J & q' & Q & LL & ->).
  specialize (S2 j J). destruct Q as [<-|Q]; [lia|]. cbn in O'. destruct O' as (_ & _ & _ & O2). pose proof (rs_ok_in _ _ _ _ O2 Q). lia.
Qed.

Lemma mapped_len : forall ids rs, (length (mapped ids rs) <= length ids)%nat.
Proof.
  induction ids as [|i ids IH]; intros rs; [constructor|]. cbn [mapped length]. destruct (drop_ranges rs i) as [|q rs']; [cbn; lia|].
  destruct (i <? r_lo q); [specialize (IH (q :: rs')); lia|]. cbn [length]. specialize (IH (q :: rs')). lia.
Qed.

(** ** Reading *)
Section Read.
Variable n : N.
Hypothesis NS : n < 2^32.
Definition rs_in (rs : list idrange) : Prop := rs_ok 0 0 rs /\ forall q, In q rs -> r_new q + (r_hi q - r_lo q) <= n.

Lemma next_loop_spec : forall ids old rs rest, chain old ids -> rs_in rs ->
  match mapped ids rs with
  | [] => exists d' old' rs', p_next_loop (length ids) (deltas old ids ++ rest) old rs = Some (false, 0, d', old', max32, rs')
  | x :: xs => exists ids' old' rs', p_next_loop (length ids) (deltas old ids ++ rest) old rs = Some (true, nlen ids', deltas old' ids' ++ rest, old', x, rs')
      /\ chain old' ids' /\ rs_in rs' /\ xs = mapped ids' rs'
  end.
Proof.
  induction ids as [|i ids IH]; intros old rs rest C R.
  - cbn. eauto.
  - cbn [mapped length p_next_loop deltas]. pose proof C as (CS & CF & CO & CN). pose proof (Forall_inv CF) as Ci. cbv beta in Ci.
    destruct (delta_step old i CO Ci CN) as (D1 & D2 & D3).
    rewrite <- app_assoc, (get_put_uvarint _ _ D2). rewrite (u32_small _ D2).
    replace (u32 (i + 2 ^ 32 - old) =? 0) with false by (symmetry; apply N.eqb_neq; exact D1).
    rewrite skipn_len_app, D3. pose proof (chain_tail _ _ _ C) as C'.
    assert (R' : rs_in (drop_ranges rs i)).
    { destruct R as (R1 & R2). split; [apply rs_ok_drop, R1|]. intros q Q. apply R2. apply (drop_in _ _ _ Q). }
    destruct (drop_ranges_spec rs i) as (_ & _ & _ & B).
    destruct (drop_ranges rs i) as [|q rs'] eqn:D; [eauto|].
    destruct (N.ltb_spec i (r_lo q)) as [L|L].
    + apply (IH i (q :: rs') rest C' R').
    + exists ids, i, (q :: rs'). split; [|split; [exact C'|split; [exact R'|reflexivity]]].
      pose proof (proj2 R' q (or_introl eq_refl)). unfold nlen. repeat f_equal.
      replace (r_new q + i + 2^32 - r_lo q) with (r_new q + (i - r_lo q) + 2^32 - 0) by lia. rewrite u32_sub by lia. lia.
Qed.

Inductive feeds (r : pmr) : list N -> Prop :=
| f_nil : p_count r = 0 -> feeds r []
| f_more : forall ids rest, p_count r = nlen ids -> p_d r = deltas (p_oldid r) ids ++ rest -> chain (p_oldid r) ids -> rs_in (p_rest r) ->
    feeds r (mapped ids (p_rest r)).
Definition same (r r' : pmr) : Prop := p_idmap r' = p_idmap r /\ p_triNum r' = p_triNum r.

Lemma feeds_len : forall r xs, feeds r xs -> (length xs <= N.to_nat (p_count r))%nat.
Proof. intros r xs [|ids rest C _ _ _]; [cbn; lia|]. rewrite C. pose proof (mapped_len ids (p_rest r)). unfold nlen. lia. Qed.

Lemma next_spec : forall r xs, feeds r xs ->
  match xs with
  | [] => exists r', p_next_id r = Some (false, r') /\ same r r' /\ p_fileid r' = max32
  | x :: xs' => exists r', p_next_id r = Some (true, r') /\ same r r' /\ p_fileid r' = x /\ feeds r' xs'
  end.
Proof.
  intros r xs [C|ids rest C D CH R]; unfold p_next_id.
  - rewrite C. cbn. eexists. split; [reflexivity|]. split; [split; reflexivity|reflexivity].
  - rewrite C, D. replace (N.to_nat (nlen ids)) with (length ids) by (unfold nlen; lia).
    pose proof (next_loop_spec ids (p_oldid r) (p_rest r) rest CH R) as H. destruct (mapped ids (p_rest r)) as [|x xs'].
    + destruct H as (d' & old' & rs' & ->). cbn [bind]. eexists. split; [reflexivity|]. split; [split; reflexivity|reflexivity].
    + destruct H as (ids' & old' & rs' & -> & CH' & R' & ->). cbn [bind]. eexists. split; [reflexivity|]. split; [split; reflexivity|]. split; [reflexivity|].
      eapply (f_more (mkPmr _ _ _ (nlen ids') (deltas old' ids' ++ rest) old' x rs') ids' rest); cbn; auto.
Qed.

Lemma same_trans : forall a b c, same a b -> same b c -> same a c.
Proof. intros a b c (A & B) (C & D). split; congruence. Qed.

Lemma copy_ids_spec : forall xs r fuel, feeds r xs -> (length xs < fuel)%nat ->
  exists r', same r r' /\ forall w, copy_ids fuel r w = Some (r', fold_left w_fileid xs w).
Proof.
  induction xs as [|x xs IH]; intros r fuel F L; (destruct fuel as [|fuel]; [cbn in L; lia|]); cbn [copy_ids]; pose proof (next_spec r _ F) as H.
  - destruct H as (r' & -> & S & _). cbn. eauto.
  - destruct H as (r' & -> & S & X & F'). cbn [bind fst snd]. rewrite X.
    destruct (IH r' fuel F') as (r2 & S2 & E); [cbn in L; lia|]. exists r2. split; [eapply same_trans; eassumption|]. intros w. apply E.
Qed.

Definition ahead (r : pmr) (xs : list N) : Prop :=
  match xs with [] => p_fileid r = max32 | x :: xs' => p_fileid r = x /\ feeds r xs' end.
Lemma next_ahead : forall r xs, feeds r xs -> exists x, p_next_id r = Some x /\ same r (snd x) /\ ahead (snd x) xs.
Proof.
  intros r xs F. pose proof (next_spec r xs F) as H. destruct xs as [|x xs].
  - destruct H as (r' & -> & S & X). exists (false, r'). auto.
  - destruct H as (r' & -> & S & X & F'). exists (true, r'). cbn. auto.
Qed.

Lemma zip_ids_spec : forall k xs ys r1 r2 fuel, (length xs + length ys <= k)%nat -> ahead r1 xs -> ahead r2 ys -> (k < fuel)%nat ->
  StronglySorted N.lt xs -> StronglySorted N.lt ys -> (forall x, In x xs -> x < n) -> (forall y, In y ys -> y < n) -> (forall x, In x xs -> In x ys -> False) ->
  exists zs r1' r2', (forall w, zip_ids fuel r1 r2 w = Some (r1', r2', fold_left w_fileid zs w)) /\ same r1 r1' /\ same r2 r2' /\
    StronglySorted N.lt zs /\ (forall x, In x zs <-> In x xs \/ In x ys).
Proof.
  assert (NM : forall x, x < n -> x < max32) by (intros x H; unfold max32; lia).
  induction k as [|k IH]; intros xs ys r1 r2 fuel LK A1 A2 LF S1 S2 B1 B2 DJ; (destruct fuel as [|fuel]; [lia|]); cbn [zip_ids].
  - destruct xs; [|cbn in LK; lia]. destruct ys; [|cbn in LK; lia]. cbn in A1, A2. rewrite A1, A2, N.ltb_irrefl. cbn [orb].
    exists [], r1, r2. split; [reflexivity|]. split; [split; reflexivity|]. split; [split; reflexivity|]. split; [constructor|]. intros x. cbn. tauto.
  - destruct xs as [|x xs]; destruct ys as [|y ys]; cbn [ahead] in A1, A2.
    + rewrite A1, A2, N.ltb_irrefl. cbn [orb]. exists [], r1, r2. split; [reflexivity|].
      split; [split; reflexivity|]. split; [split; reflexivity|]. split; [constructor|]. intros x. cbn. tauto.
    + destruct A2 as (Y & F). pose proof (B2 y (or_introl eq_refl)) as By. apply NM in By. rewrite A1, Y, N.ltb_irrefl. apply N.ltb_lt in By as By'. rewrite By'. cbn [orb].
      replace (max32 <? y) with false by (symmetry; apply N.ltb_ge; lia).
      destruct (next_ahead r2 ys F) as (z & -> & Sz & Az). cbn [bind]. inversion S2 as [|? ? S3 S4]; subst. rewrite Forall_forall in S4.
      destruct (IH [] ys r1 (snd z) fuel) as (zs & r1' & r2' & EE & SA & SB & SZ & IZ); try assumption; try lia; try (cbn in LK |- *; lia).
      { intros a H. apply B2. right. exact H. }
      exists (p_fileid r2 :: zs), r1', r2'. split; [intros w; apply EE|]. split; [exact SA|]. split; [eapply same_trans; eassumption|].
      split; [constructor; [exact SZ|apply Forall_forall; intros a H; apply IZ in H; destruct H as [[]|H]; apply S4, H]|].
      intros a. cbn. rewrite IZ. cbn. tauto.
    + destruct A1 as (X & F). pose proof (B1 x (or_introl eq_refl)) as Bx. apply NM in Bx. rewrite A2, X. apply N.ltb_lt in Bx as Bx'. rewrite Bx'. cbn [orb].
      destruct (next_ahead r1 xs F) as (z & -> & Sz & Az). cbn [bind]. inversion S1 as [|? ? S3 S4]; subst. rewrite Forall_forall in S4.
      destruct (IH xs [] (snd z) r2 fuel) as (zs & r1' & r2' & EE & SA & SB & SZ & IZ); try assumption; try lia; try (cbn in LK |- *; lia).
      { intros a H. apply B1. right. exact H. }
      exists (p_fileid r1 :: zs), r1', r2'. split; [intros w; apply EE|]. split; [eapply same_trans; eassumption|]. split; [exact SB|].
      split; [constructor; [exact SZ|apply Forall_forall; intros a H; apply IZ in H; destruct H as [H|[]]; apply S4, H]|].
      intros a. cbn. rewrite IZ. cbn. tauto.
    + destruct A1 as (X & F1), A2 as (Y & F2). pose proof (NM x (B1 x (or_introl eq_refl))) as Bx. rewrite X, Y. apply N.ltb_lt in Bx as Bx'. rewrite Bx'. cbn [orb].
      inversion S1 as [|? ? S3 S4]; subst. rewrite Forall_forall in S4. inversion S2 as [|? ? S5 S6]; subst. rewrite Forall_forall in S6.
      destruct (N.ltb_spec (p_fileid r1) (p_fileid r2)) as [L|L]; [|destruct (N.ltb_spec (p_fileid r2) (p_fileid r1)) as [L2|L2]].
      * destruct (next_ahead r1 xs F1) as (z & -> & Sz & Az). cbn [bind].
        destruct (IH xs (p_fileid r2 :: ys) (snd z) r2 fuel) as (zs & r1' & r2' & EE & SA & SB & SZ & IZ); try assumption; try lia; try (cbn in LK |- *; lia).
        { split; [reflexivity|exact F2]. } { intros a H. apply B1. right. exact H. } { intros a H H'. apply (DJ a); [right; exact H|exact H']. }
        exists (p_fileid r1 :: zs), r1', r2'. split; [intros w; apply EE|]. split; [eapply same_trans; eassumption|]. split; [exact SB|].
        split; [constructor; [exact SZ|apply Forall_forall; intros a H; apply IZ in H; destruct H as [H|[<-|H]]; [apply S4, H|exact L|specialize (S6 a H); lia]]|].
        intros a. cbn. rewrite IZ. cbn. tauto.
      * destruct (next_ahead r2 ys F2) as (z & -> & Sz & Az). cbn [bind].
        destruct (IH (p_fileid r1 :: xs) ys r1 (snd z) fuel) as (zs & r1' & r2' & EE & SA & SB & SZ & IZ); try assumption; try lia; try (cbn in LK |- *; lia).
        { split; [reflexivity|exact F1]. } { intros a H. apply B2. right. exact H. } { intros a H H'. apply (DJ a); [exact H|right; exact H']. }
        exists (p_fileid r2 :: zs), r1', r2'. split; [intros w; apply EE|]. split; [exact SA|]. split; [eapply same_trans; eassumption|].
        split; [constructor; [exact SZ|apply Forall_forall; intros a H; apply IZ in H; destruct H as [[<-|H]|H]; [exact L2|specialize (S4 a H); lia|apply S6, H]]|].
        intros a. cbn. rewrite IZ. cbn. tauto.
      * exfalso. apply (DJ (p_fileid r1)); [left; reflexivity|left; lia].
Qed.
End Read.

(** ** Writing *)
Definition grp (t : N) (zs : list N) : list group := match zs with [] => [] | _ => [(t, zs)] end.

Lemma fold_more : forall zs w, 0 < w_count w -> w_count w + nlen zs < 2^32 ->
  exists last, fold_left w_fileid zs w = mkPdw (w_out w ++ deltas (w_last w) zs) (w_idx w) (w_base w) (w_count w + nlen zs) (w_offset w) last (w_t w).
Proof.
  induction zs as [|z zs IH]; intros w P L.
  - exists (w_last w). cbn. rewrite app_nil_r, N.add_0_r. destruct w; reflexivity.
  - cbn [fold_left]. rewrite nlen_cons in *.
    assert (E : w_fileid w z = mkPdw (w_out w ++ put_uvarint (u32 (z + 2^32 - w_last w))) (w_idx w) (w_base w) (w_count w + 1) (w_offset w) z (w_t w)).
    { unfold w_fileid. replace (w_count w =? 0) with false by (symmetry; apply N.eqb_neq; lia). rewrite (u32_small (w_count w + 1)) by lia. reflexivity. }
    rewrite E. destruct (IH (mkPdw (w_out w ++ put_uvarint (u32 (z + 2^32 - w_last w))) (w_idx w) (w_base w) (w_count w + 1) (w_offset w) z (w_t w))) as (last & ->);
      cbn [w_out w_idx w_base w_count w_offset w_last w_t]; [lia|lia|]. exists last. cbn [deltas]. rewrite <- app_assoc. f_equal. lia.
Qed.

Lemma write_list : forall zs w t off, nlen zs < 2^32 -> off32 (w_out w) = Some off -> w_base w <= off ->
  exists w1, w_trigram w t = Some w1 /\
    let w2 := w_end (fold_left w_fileid zs w1) in
    w_out w2 = w_out w ++ lists_bytes (grp t zs) /\ w_idx w2 = w_idx w ++ index_bytes (off - w_base w) (grp t zs) /\ w_base w2 = w_base w.
Proof.
  intros zs w t off L O B. unfold w_trigram. rewrite O. cbn [bind]. eexists. split; [reflexivity|]. cbv zeta. destruct zs as [|z zs].
  - unfold w_end, lists_bytes. cbn. rewrite !app_nil_r. auto.
  - assert (OS : off < 2^32). { destruct (off32_cases (w_out w)) as [[E1 E2]|[E1 _]]; congruence. }
    cbn [fold_left]. rewrite nlen_cons in L.
    destruct (fold_more zs (w_fileid (mkPdw (w_out w) (w_idx w) (w_base w) 0 off max32 t) z)) as (last & ->); [cbn; lia| |].
    { change (w_count (w_fileid (mkPdw (w_out w) (w_idx w) (w_base w) 0 off max32 t) z)) with 1. lia. }
    change (w_count (w_fileid (mkPdw (w_out w) (w_idx w) (w_base w) 0 off max32 t) z)) with 1.
    unfold w_end. cbn [w_count w_out w_idx w_base w_t w_offset w_fileid w_last].
    replace (1 + nlen zs =? 0) with false by (symmetry; apply N.eqb_neq; lia). cbn [w_out w_idx w_base].
    split; [|split; [|reflexivity]].
    + unfold grp, lists_bytes. cbn [map concat]. unfold list_bytes. cbn [fst snd deltas]. rewrite app_nil_r, <- !app_assoc. reflexivity.
    + unfold grp. cbn [index_bytes fst snd]. rewrite app_nil_r, nlen_cons. rewrite u32_sub by lia. replace (1 + nlen zs) with (nlen zs + 1) by lia. reflexivity.
Qed.

(** ** All lists *)
Lemma index_bytes_app' : forall a b off, index_bytes off (a ++ b) = index_bytes off a ++ index_bytes (off + nlen (lists_bytes a)) b.
Proof.
  induction a as [|g a IH]; intros b off; [cbn; rewrite N.add_0_r; reflexivity|]. cbn [app index_bytes]. rewrite IH, <- !app_assoc.
  unfold lists_bytes. cbn [map concat]. rewrite nlen_app, N.add_assoc. reflexivity.
Qed.

Section Lists.
Variables (n : N) (map1 map2 : list idrange) (ix1 ix2 : index) (gs1 gs2 : list group).
Hypothesis NS : n < 2^32.
Hypothesis M1 : rs_in n map1.
Hypothesis M2 : rs_in n map2.
Hypothesis DISJ : forall i j x, image map1 i x -> image map2 j x -> False.
Hypothesis T1 : table_ok gs1.
Hypothesis T2 : table_ok gs2.
Hypothesis S1 : forall g, In g gs1 -> StronglySorted N.lt (snd g).
Hypothesis S2 : forall g, In g gs2 -> StronglySorted N.lt (snd g).

Definition loaded (mp : list idrange) (pre rem : list group) (r : pmr) : Prop :=
  p_idmap r = mp /\ p_triNum r = nlen pre /\
  match rem with
  | [] => p_trigram r = max32
  | (t, ids) :: _ => p_trigram r = t /\ feeds n r (mapped ids mp)
  end.
Definition loads (ix : index) (mp : list idrange) (gs : list group) : Prop :=
  forall pre rem r, gs = pre ++ rem -> p_idmap r = mp -> p_triNum r = nlen pre -> exists r', p_load ix r = Some r' /\ loaded mp pre rem r'.
Hypothesis LD1 : loads ix1 map1 gs1.
Hypothesis LD2 : loads ix2 map2 gs2.
Hypothesis SZ1 : nlen gs1 < 2^32.
Hypothesis SZ2 : nlen gs2 < 2^32.

Lemma image_lt : forall mp i x, rs_in n mp -> image mp i x -> x < n.
Proof. intros mp i x (_ & B) (q & Q & L & ->). specialize (B q Q). lia. Qed.
Lemma mapped_lt : forall mp ids x, rs_in n mp -> StronglySorted N.lt ids -> In x (mapped ids mp) -> x < n.
Proof. intros mp ids x M S I. apply mapped_in in I; [|apply M|exact S]. destruct I as (i & _ & I). apply (image_lt _ _ _ M I). Qed.

Lemma next_load : forall ix mp gs pre t ids rem r, loads ix mp gs -> nlen gs < 2^32 -> gs = pre ++ (t, ids) :: rem -> p_idmap r = mp -> p_triNum r = nlen pre ->
  exists r', p_next_trigram ix r = Some r' /\ loaded mp (pre ++ [(t, ids)]) rem r'.
Proof.
  intros ix mp gs pre t ids rem r LD SZ E I T. unfold p_next_trigram. apply LD; cbn [p_idmap p_triNum].
  - rewrite <- app_assoc. exact E.
  - exact I.
  - rewrite T, u32_small, nlen_app; [reflexivity|]. rewrite E, nlen_app, nlen_cons in SZ. lia.
Qed.

Lemma sorted_below : forall xs m, StronglySorted N.lt xs -> (forall x, In x xs -> x < m) -> nlen xs <= m.
Proof.
  intros xs. induction xs as [|x xs IH] using rev_ind; intros m S B; [cbn; lia|].
  apply SS_app in S. destruct S as (S & _ & L). rewrite nlen_app. change (nlen [x]) with 1.
  assert (nlen xs <= x). { apply IH; [exact S|]. intros y Y. apply L; [exact Y|left; reflexivity]. }
  specialize (B x). rewrite in_app_iff in B. specialize (B (or_intror (or_introl eq_refl))). lia.
Qed.

Lemma lk_head : forall t ids gs, lk ((t, ids) :: gs) t = ids.
Proof. intros. cbn. rewrite N.eqb_refl. reflexivity. Qed.
Lemma lk_tail : forall t ids gs u, u <> t -> lk ((t, ids) :: gs) u = lk gs u.
Proof. intros t ids gs u H. cbn. destruct (N.eqb_spec t u); [congruence|reflexivity]. Qed.
Lemma lk_grp : forall t zs gs u, (forall g, In g gs -> fst g <> t) -> lk (grp t zs ++ gs) u = if u =? t then zs else lk gs u.
Proof.
  intros t zs gs u H. assert (Z : lk gs t = []). { apply lk_none. intros ids I. apply (H _ I). reflexivity. }
  destruct zs as [|z zs]; cbn [grp app].
  - destruct (N.eqb_spec u t) as [->|]; [exact Z|reflexivity].
  - destruct (N.eqb_spec u t) as [->|NE]; [apply lk_head|apply lk_tail, NE].
Qed.
Lemma fst_above : forall t ids gs g, table_ok ((t, ids) :: gs) -> In g gs -> t < fst g.
Proof. intros t ids gs g (S & _) I. inversion S as [|? ? _ F]; subst. rewrite Forall_forall in F. apply (F g I). Qed.
Lemma table_tail : forall g gs, table_ok (g :: gs) -> table_ok gs.
Proof. intros g gs (S & F). inversion S; inversion F; subst. split; assumption. Qed.
Lemma table_rest : forall pre gs, table_ok (pre ++ gs) -> table_ok gs.
Proof. induction pre as [|g pre IH]; intros gs T; [exact T|]. apply IH. apply (table_tail g). exact T. Qed.

(** An upper bound for the size of the lists. *)
Definition weight (gs : list group) : N := fold_right (fun g k => 4 + 5 * nlen (snd g) + k) 0 gs.
Lemma weight_app : forall a b, weight (a ++ b) = weight a + weight b.
Proof. induction a as [|g a IH]; intros b; [reflexivity|]. cbn [app weight fold_right]. fold (weight (a ++ b)). fold (weight a). rewrite IH. lia. Qed.
Lemma weight_cons : forall t ids gs, weight ((t, ids) :: gs) = 4 + 5 * nlen ids + weight gs.
Proof. reflexivity. Qed.
Lemma weight_grp : forall t zs, weight (grp t zs) <= 4 + 5 * nlen zs /\ nlen (grp t zs) <= 1.
Proof. intros t [|z zs]; [cbn; lia|]. unfold grp. rewrite weight_cons. change (weight []) with 0. change (nlen [(t, z :: zs)]) with 1. lia. Qed.
Lemma sorted_nodup : forall zs, StronglySorted N.lt zs -> NoDup zs.
Proof.
  induction zs as [|z zs IH]; intros S; [constructor|]. inversion S as [|? ? A B]; subst. constructor; [|apply IH, A].
  intros I. rewrite Forall_forall in B. specialize (B z I). lia.
Qed.
Lemma union_len : forall zs ids1 ids2, StronglySorted N.lt zs -> (forall x, In x zs -> In x (mapped ids1 map1) \/ In x (mapped ids2 map2)) ->
  nlen zs <= nlen ids1 + nlen ids2.
Proof.
  intros zs ids1 ids2 S H. pose proof (NoDup_incl_length (l' := mapped ids1 map1 ++ mapped ids2 map2) (sorted_nodup zs S)) as L.
  rewrite app_length in L. pose proof (mapped_len ids1 map1). pose proof (mapped_len ids2 map2). unfold nlen.
  enough (length zs <= length (mapped ids1 map1) + length (mapped ids2 map2))%nat by lia. apply L. intros x I. apply in_or_app. apply H, I.
Qed.

(** The table of the merged index, from the rests of the two tables. *)
Definition merged_table (rem1 rem2 gs3 : list group) : Prop :=
  table_ok gs3 /\ (forall g, In g gs3 -> StronglySorted N.lt (snd g) /\ (forall i, In i (snd g) -> i < n) /\
    ((exists g', In g' rem1 /\ fst g' = fst g) \/ (exists g', In g' rem2 /\ fst g' = fst g))) /\
  (forall u x, In x (lk gs3 u) <-> In x (mapped (lk rem1 u) map1) \/ In x (mapped (lk rem2 u) map2)) /\
  weight gs3 <= weight rem1 + weight rem2 /\ nlen gs3 <= nlen rem1 + nlen rem2.

Lemma merged_grp : forall t zs rem1 rem2 gs3, t < 2^24 -> StronglySorted N.lt zs -> (forall i, In i zs -> i < n) ->
  forall rem1' rem2', merged_table rem1 rem2 gs3 ->
  (forall g, In g rem1 -> t < fst g /\ In g rem1') -> (forall g, In g rem2 -> t < fst g /\ In g rem2') ->
  ((exists g, In g rem1' /\ fst g = t) \/ (exists g, In g rem2' /\ fst g = t)) ->
  (forall u, u <> t -> lk rem1' u = lk rem1 u /\ lk rem2' u = lk rem2 u) ->
  (forall x, In x zs <-> In x (mapped (lk rem1' t) map1) \/ In x (mapped (lk rem2' t) map2)) ->
  4 + 5 * nlen zs + weight rem1 + weight rem2 <= weight rem1' + weight rem2' -> 1 + nlen rem1 + nlen rem2 <= nlen rem1' + nlen rem2' ->
  merged_table rem1' rem2' (grp t zs ++ gs3).
Proof.
  intros t zs rem1 rem2 gs3 HT SZ BZ rem1' rem2' ((TS & TF) & TI & TL & TW & TN) A1 A2 ORG OTH HEAD HW HN.
  assert (AB : forall g, In g gs3 -> t < fst g).
  { intros g I. destruct (TI g I) as (_ & _ & [(g' & I' & E)|(g' & I' & E)]); rewrite <- E; [apply A1, I'|apply A2, I']. }
  assert (GI : forall g, In g (grp t zs) -> g = (t, zs)) by (intros g I; destruct zs; [destruct I|destruct I as [<-|[]]; reflexivity]).
  split; [|split; [|split; [|split]]].
  - split.
    + apply SS_app. split; [destruct zs; repeat constructor|]. split; [exact TS|]. intros x y I J. rewrite (GI x I). apply AB, J.
    + apply Forall_app. split; [|exact TF]. apply Forall_forall. intros g I. rewrite (GI g I). cbn [fst snd]. split; [exact HT|].
      pose proof (sorted_below zs n SZ BZ). lia.
  - intros g I. apply in_app_or in I. destruct I as [I|I].
    + rewrite (GI g I). cbn [fst snd]. split; [exact SZ|]. split; [exact BZ|exact ORG].
    + destruct (TI g I) as (X & Y & [(g' & I' & E)|(g' & I' & E)]); (split; [exact X|]); (split; [exact Y|]); [left|right]; exists g'; (split; [|exact E]).
      * apply A1, I'.
      * apply A2, I'.
  - intros u x. rewrite lk_grp by (intros g I E; specialize (AB g I); lia). destruct (N.eqb_spec u t) as [->|NE].
    + apply HEAD.
    + destruct (OTH u NE) as (-> & ->). apply TL.
  - rewrite weight_app. pose proof (weight_grp t zs). lia.
  - rewrite nlen_app. pose proof (weight_grp t zs). lia.
Qed.

Definition writes (next : pdw -> option pdw) (Q : list group -> Prop) : Prop := forall w, w_base w <= nlen (w_out w) ->
  exists gs w', fits (next w) w' (nlen (w_out w ++ lists_bytes gs)) /\
    w_out w' = w_out w ++ lists_bytes gs /\ w_idx w' = w_idx w ++ index_bytes (nlen (w_out w) - w_base w) gs /\ Q gs.

Lemma writes_list : forall t zs next k Q, nlen zs < 2^32 -> writes next Q ->
  (forall w1, k w1 = next (w_end (fold_left w_fileid zs w1))) ->
  writes (fun w => w1 <- w_trigram w t ;; k w1) (fun gs => exists gs', gs = grp t zs ++ gs' /\ Q gs').
Proof.
  intros t zs next k Q L W K w B. destruct (off32_cases (w_out w)) as [[O OL]|[O OL]].
  - destruct (write_list zs w t _ L O B) as (w1 & -> & W1 & W2 & W3). cbn [bind]. rewrite K.
    destruct (W (w_end (fold_left w_fileid zs w1))) as (gs & w' & F & O' & X' & HQ); [rewrite W3, W1, nlen_app; lia|].
    exists (grp t zs ++ gs), w'. rewrite lists_bytes_app, app_assoc, <- W1. split; [exact F|]. split; [exact O'|]. split; [|eauto].
    rewrite X', W2, W3, index_bytes_app', <- app_assoc. do 3 f_equal. rewrite W1, nlen_app. lia.
  - destruct (W w B) as (gs & w' & F & O' & X' & HQ). unfold w_trigram. rewrite O. cbn [bind].
    exists (grp t zs ++ gs), (mkPdw (w_out w ++ lists_bytes (grp t zs ++ gs)) (w_idx w ++ index_bytes (nlen (w_out w) - w_base w) (grp t zs ++ gs)) 0 0 0 0 0).
    split; [right; split; [reflexivity|rewrite nlen_app; lia]|]. split; [reflexivity|]. split; [reflexivity|eauto].
Qed.
Lemma writes_weak : forall next (Q Q' : list group -> Prop), writes next Q -> (forall gs, Q gs -> Q' gs) -> writes next Q'.
Proof. intros next Q Q' W H w B. destruct (W w B) as (gs & w' & F & O' & X' & HQ). exists gs, w'. auto. Qed.
Lemma writes_eq : forall next next' Q, writes next Q -> (forall w, next' w = next w) -> writes next' Q.
Proof. intros next next' Q W H w B. rewrite H. apply W, B. Qed.

Lemma merge_lists_of_spec : forall fuel pre1 rem1 pre2 rem2 r1 r2, gs1 = pre1 ++ rem1 -> gs2 = pre2 ++ rem2 ->
  loaded map1 pre1 rem1 r1 -> loaded map2 pre2 rem2 r2 -> (length rem1 + length rem2 < fuel)%nat ->
  writes (merge_lists_of fuel ix1 ix2 r1 r2) (merged_table rem1 rem2).
Proof.
  induction fuel as [|fuel IH]; intros pre1 rem1 pre2 rem2 r1 r2 E1 E2 L1 L2 F; [lia|].
  assert (TR1 : table_ok rem1) by (apply (table_rest pre1); rewrite <- E1; exact T1).
  assert (TR2 : table_ok rem2) by (apply (table_rest pre2); rewrite <- E2; exact T2).
  assert (SR1 : forall g, In g rem1 -> StronglySorted N.lt (snd g)) by (intros g I; apply S1; rewrite E1; apply in_or_app; right; exact I).
  assert (SR2 : forall g, In g rem2 -> StronglySorted N.lt (snd g)) by (intros g I; apply S2; rewrite E2; apply in_or_app; right; exact I).
  destruct L1 as (I1 & N1 & L1), L2 as (I2 & N2 & L2).
  assert (TB : forall gs t ids rest, gs = (t, ids) :: rest -> table_ok gs -> t < 2^24).
  { intros gs t ids rest -> (_ & TF). apply (proj1 (Forall_inv TF)). }
  (** only the first index has this trigram *)
  assert (LEFT : forall t ids rest1, rem1 = (t, ids) :: rest1 -> p_trigram r1 < p_trigram r2 -> (forall g, In g rem2 -> t < fst g) ->
     writes (merge_lists_of (S fuel) ix1 ix2 r1 r2) (merged_table rem1 rem2)).
  { intros t ids rest1 E LT AB. rewrite E in *. destruct L1 as (PT & F1). set (zs := mapped ids map1) in *.
    assert (SI : StronglySorted N.lt ids) by (apply (SR1 (t, ids)); left; reflexivity).
    assert (ZS : StronglySorted N.lt zs) by (apply mapped_sorted; [apply M1|exact SI]).
    assert (ZB : forall i, In i zs -> i < n) by (intros i I; apply (mapped_lt _ _ _ M1 SI I)).
    assert (ZL : nlen zs < 2^32) by (pose proof (sorted_below zs n ZS ZB); lia).
    assert (CP : exists r1'', loaded map1 (pre1 ++ [(t, ids)]) rest1 r1'' /\ forall w1,
       (x <- copy_ids (S (N.to_nat (p_count r1))) r1 w1 ;; r1 <- p_next_trigram ix1 (fst x) ;; merge_lists_of fuel ix1 ix2 r1 r2 (w_end (snd x)))
       = merge_lists_of fuel ix1 ix2 r1'' r2 (w_end (fold_left w_fileid zs w1))).
    { destruct (copy_ids_spec n NS zs r1 (S (N.to_nat (p_count r1))) F1) as (r0 & (SA1 & SA2) & CI); [pose proof (feeds_len n NS r1 zs F1); lia|].
      destruct (next_load ix1 map1 gs1 pre1 t ids rest1 r0 LD1 SZ1 E1) as (r1'' & NL & LO); [congruence|congruence|].
      exists r1''. split; [exact LO|]. intros w1. rewrite CI. cbn [bind fst snd]. rewrite NL. reflexivity. }
    destruct CP as (r1'' & LO & CP). eapply writes_eq; [eapply writes_weak|].
    - apply (writes_list t zs (merge_lists_of fuel ix1 ix2 r1'' r2) (fun w => x <- copy_ids (S (N.to_nat (p_count r1))) r1 w ;; r1 <- p_next_trigram ix1 (fst x) ;; merge_lists_of fuel ix1 ix2 r1 r2 (w_end (snd x))) (merged_table rest1 rem2) ZL); [|exact CP].
      apply (IH (pre1 ++ [(t, ids)]) rest1 pre2 rem2).
      + rewrite <- app_assoc. exact E1.
      + exact E2.
      + exact LO.
      + split; [exact I2|]. split; [exact N2|exact L2].
      + cbn in F. lia.
    - intros gs (gs3 & -> & MT). apply (merged_grp t zs rest1 rem2 gs3); try assumption.
      + apply (TB _ _ _ _ eq_refl TR1).
      + intros g I. split; [apply (fst_above t ids rest1 g TR1 I)|right; exact I].
      + intros g I. split; [apply AB, I|exact I].
      + left. exists (t, ids). split; [left; reflexivity|reflexivity].
      + intros u NE. split; [apply lk_tail, NE|reflexivity].
      + intros x. rewrite lk_head. rewrite (lk_none rem2 t); [cbn; fold zs; tauto|]. intros ids' I. specialize (AB _ I). cbn in AB. lia.
      + rewrite weight_cons. pose proof (union_len zs ids [] ZS (fun x I => or_introl I)) as UL. change (nlen (@nil N)) with 0 in UL. lia.
      + rewrite nlen_cons. lia.
    - intros w. cbn [merge_lists_of]. apply N.ltb_lt in LT. rewrite LT, PT. reflexivity. }
  (** only the second *)
  assert (RIGHT : forall t ids rest2, rem2 = (t, ids) :: rest2 -> p_trigram r2 < p_trigram r1 -> (forall g, In g rem1 -> t < fst g) ->
     writes (merge_lists_of (S fuel) ix1 ix2 r1 r2) (merged_table rem1 rem2)).
  { clear LEFT. intros t ids rest2 E LT AB. rewrite E in *. destruct L2 as (PT & F2). set (zs := mapped ids map2) in *.
    assert (SI : StronglySorted N.lt ids) by (apply (SR2 (t, ids)); left; reflexivity).
    assert (ZS : StronglySorted N.lt zs) by (apply mapped_sorted; [apply M2|exact SI]).
    assert (ZB : forall i, In i zs -> i < n) by (intros i I; apply (mapped_lt _ _ _ M2 SI I)).
    assert (ZL : nlen zs < 2^32) by (pose proof (sorted_below zs n ZS ZB); lia).
    assert (CP : exists r2'', loaded map2 (pre2 ++ [(t, ids)]) rest2 r2'' /\ forall w1,
       (x <- copy_ids (S (N.to_nat (p_count r2))) r2 w1 ;; r2 <- p_next_trigram ix2 (fst x) ;; merge_lists_of fuel ix1 ix2 r1 r2 (w_end (snd x)))
       = merge_lists_of fuel ix1 ix2 r1 r2'' (w_end (fold_left w_fileid zs w1))).
    { destruct (copy_ids_spec n NS zs r2 (S (N.to_nat (p_count r2))) F2) as (r0 & (SA1 & SA2) & CI); [pose proof (feeds_len n NS r2 zs F2); lia|].
      destruct (next_load ix2 map2 gs2 pre2 t ids rest2 r0 LD2 SZ2 E2) as (r2'' & NL & LO); [congruence|congruence|].
      exists r2''. split; [exact LO|]. intros w1. rewrite CI. cbn [bind fst snd]. rewrite NL. reflexivity. }
    destruct CP as (r2'' & LO & CP). eapply writes_eq; [eapply writes_weak|].
    - apply (writes_list t zs (merge_lists_of fuel ix1 ix2 r1 r2'') (fun w => x <- copy_ids (S (N.to_nat (p_count r2))) r2 w ;; r2 <- p_next_trigram ix2 (fst x) ;; merge_lists_of fuel ix1 ix2 r1 r2 (w_end (snd x))) (merged_table rem1 rest2) ZL); [|exact CP].
      apply (IH pre1 rem1 (pre2 ++ [(t, ids)]) rest2).
      + exact E1.
      + rewrite <- app_assoc. exact E2.
      + split; [exact I1|]. split; [exact N1|exact L1].
      + exact LO.
      + cbn in F. lia.
    - intros gs (gs3 & -> & MT). apply (merged_grp t zs rem1 rest2 gs3); try assumption.
      + apply (TB _ _ _ _ eq_refl TR2).
      + intros g I. split; [apply AB, I|exact I].
      + intros g I. split; [apply (fst_above t ids rest2 g TR2 I)|right; exact I].
      + right. exists (t, ids). split; [left; reflexivity|reflexivity].
      + intros u NE. split; [reflexivity|apply lk_tail, NE].
      + intros x. rewrite lk_head. rewrite (lk_none rem1 t); [cbn; fold zs; tauto|]. intros ids' I. specialize (AB _ I). cbn in AB. lia.
      + rewrite weight_cons. pose proof (union_len zs [] ids ZS (fun x I => or_intror I)) as UL. change (nlen (@nil N)) with 0 in UL. lia.
      + rewrite nlen_cons. lia.
    - intros w. cbn [merge_lists_of]. replace (p_trigram r1 <? p_trigram r2) with false by (symmetry; apply N.ltb_ge; lia).
      apply N.ltb_lt in LT. rewrite LT, PT. reflexivity. }
  destruct rem1 as [|(t1, ids1) rest1].
  - destruct rem2 as [|(t2, ids2) rest2].
    + intros w B. exists [], w. cbn [merge_lists_of]. rewrite L1, L2, N.ltb_irrefl, N.eqb_refl. split; [left; reflexivity|].
      split; [cbn; rewrite app_nil_r; reflexivity|]. split; [cbn; rewrite app_nil_r; reflexivity|].
      split; [split; constructor|]. split; [intros g []|]. split; [intros u x; cbn; tauto|]. split; cbn; lia.
    + apply (RIGHT t2 ids2 rest2 eq_refl); [|intros g []]. destruct L2 as (-> & _). rewrite L1. pose proof (TB _ _ _ _ eq_refl TR2). unfold max32. lia.
  - destruct rem2 as [|(t2, ids2) rest2].
    + apply (LEFT t1 ids1 rest1 eq_refl); [|intros g []]. destruct L1 as (-> & _). rewrite L2. pose proof (TB _ _ _ _ eq_refl TR1). unfold max32. lia.
    + destruct (N.lt_trichotomy t1 t2) as [LT|[EQ|LT]].
      * apply (LEFT t1 ids1 rest1 eq_refl); [destruct L1 as (-> & _), L2 as (-> & _); exact LT|].
        intros g [<-|I]; [exact LT|]. pose proof (fst_above _ _ _ _ TR2 I). lia.
      * clear LEFT RIGHT. subst t2. rename t1 into t. destruct L1 as (PT1 & F1), L2 as (PT2 & F2).
        assert (SI1 : StronglySorted N.lt ids1) by (apply (SR1 (t, ids1)); left; reflexivity).
        assert (SI2 : StronglySorted N.lt ids2) by (apply (SR2 (t, ids2)); left; reflexivity).
        destruct (next_ahead n NS r1 _ F1) as (x1 & NX1 & (SX1 & SX1') & AH1). destruct (next_ahead n NS r2 _ F2) as (x2 & NX2 & (SX2 & SX2') & AH2).
        assert (DJ : forall x, In x (mapped ids1 map1) -> In x (mapped ids2 map2) -> False).
        { intros x A C. apply mapped_in in A; [|apply M1|exact SI1]. apply mapped_in in C; [|apply M2|exact SI2].
          destruct A as (i & _ & A), C as (j & _ & C). apply (DISJ i j x A C). }
        destruct (zip_ids_spec n NS (N.to_nat (p_count r1 + p_count r2)) (mapped ids1 map1) (mapped ids2 map2) (snd x1) (snd x2) (S (N.to_nat (p_count r1 + p_count r2)))) as (zs & r1' & r2' & ZE & (Z1 & Z1') & (Z2 & Z2') & ZS & ZI);
          [|exact AH1|exact AH2|lia|apply mapped_sorted; [apply M1|exact SI1]|apply mapped_sorted; [apply M2|exact SI2]
          |intros x A; apply (mapped_lt _ _ _ M1 SI1 A)|intros x A; apply (mapped_lt _ _ _ M2 SI2 A)|exact DJ|].
        { pose proof (feeds_len n NS r1 _ F1). pose proof (feeds_len n NS r2 _ F2). lia. }
        destruct (next_load ix1 map1 gs1 pre1 t ids1 rest1 r1' LD1 SZ1 E1) as (r1'' & NL1 & LO1); [congruence|congruence|].
        destruct (next_load ix2 map2 gs2 pre2 t ids2 rest2 r2' LD2 SZ2 E2) as (r2'' & NL2 & LO2); [congruence|congruence|].
        assert (ZB : forall i, In i zs -> i < n).
        { intros i A. apply ZI in A. destruct A as [A|A]; [apply (mapped_lt _ _ _ M1 SI1 A)|apply (mapped_lt _ _ _ M2 SI2 A)]. }
        assert (ZL : nlen zs < 2^32) by (pose proof (sorted_below zs n ZS ZB); lia).
        eapply writes_eq; [eapply writes_weak|].
        -- apply (writes_list t zs (merge_lists_of fuel ix1 ix2 r1'' r2'') (fun w =>
             x1 <- p_next_id r1 ;; x2 <- p_next_id r2 ;; z <- zip_ids (S (N.to_nat (p_count r1 + p_count r2))) (snd x1) (snd x2) w ;;
             match z with (r1, r2, w) => r1 <- p_next_trigram ix1 r1 ;; r2 <- p_next_trigram ix2 r2 ;; merge_lists_of fuel ix1 ix2 r1 r2 (w_end w) end)
             (merged_table rest1 rest2) ZL).
           ++ apply (IH (pre1 ++ [(t, ids1)]) rest1 (pre2 ++ [(t, ids2)]) rest2); [rewrite <- app_assoc; exact E1|rewrite <- app_assoc; exact E2|exact LO1|exact LO2|cbn in F; lia].
           ++ intros w1. rewrite NX1, NX2. cbn [bind]. rewrite ZE. cbn [bind]. rewrite NL1, NL2. reflexivity.
        -- intros gs (gs3 & -> & MT). apply (merged_grp t zs rest1 rest2 gs3); try assumption.
           ++ apply (TB _ _ _ _ eq_refl TR2).
           ++ intros g I. split; [apply (fst_above t ids1 rest1 g TR1 I)|right; exact I].
           ++ intros g I. split; [apply (fst_above t ids2 rest2 g TR2 I)|right; exact I].
           ++ left. exists (t, ids1). split; [left; reflexivity|reflexivity].
           ++ intros u NE. split; apply lk_tail, NE.
           ++ intros x. rewrite !lk_head. apply ZI.
           ++ rewrite !weight_cons. pose proof (union_len zs ids1 ids2 ZS (fun x => proj1 (ZI x))). lia.
           ++ rewrite !nlen_cons. lia.
        -- intros w. cbn [merge_lists_of]. rewrite PT1, PT2, N.ltb_irrefl. pose proof (TB _ _ _ _ eq_refl TR2).
           replace (t =? max32) with false by (symmetry; apply N.eqb_neq; unfold max32; lia). reflexivity.
      * apply (RIGHT t2 ids2 rest2 eq_refl); [destruct L1 as (-> & _), L2 as (-> & _); exact LT|].
        intros g [<-|I]; [exact LT|]. pose proof (fst_above _ _ _ _ TR1 I). lia.
Qed.
End Lists.
