(** merge.go: the merged index. *)
From Coq Require Import Sorted.
From Verif Require Import Model.Base Model.Codec Model.Writer Model.Reader Model.IndexRun Model.IndexMerge Model.Query Spec.IndexSpec Spec.RunSpec Spec.QuerySpec Spec.MergeSpec
  Proofs.Arith Proofs.CodecProofs Proofs.WriterProofs Proofs.MergeProofs Proofs.AddProofs Proofs.ReaderProofs Proofs.LookupProofs Proofs.IndexProofs
  Proofs.IndexFile Proofs.MergeRanges Proofs.MergeCopy Proofs.MergePostings Proofs.MergePathLists.
Local Open Scope N_scope.

(** ** Segments and ids *)
Lemma ranges_ok : forall (b : bool) l off lo1 lo2 h1 h2, ordered lo1 lo2 l h1 h2 -> rs_ok (if b then lo1 else lo2) off (ranges b off l).
Proof.
  intros b. induction l as [|s l IH]; intros off lo1 lo2 h1 h2 O; [exact I|]. cbn [ordered] in O. cbn [ranges].
  destruct (s_first s) eqn:F; destruct O as (O & O'); specialize (IH (off + nlen (s_docs s)) _ _ _ _ O'); destruct b; cbn [Bool.eqb app] in *.
  - destruct (s_docs s) as [|d ds] eqn:E; cbn [app].
    + change (nlen (@nil doc)) with 0 in *. rewrite !N.add_0_r in IH. rewrite N.add_0_r. eapply rs_ok_weak; [exact IH|lia|lia].
    + assert (0 < nlen (d :: ds)) by (rewrite nlen_cons; lia). cbn [rs_ok r_lo r_hi r_new].
      split; [lia|]. split; [lia|]. split; [lia|]. eapply rs_ok_weak; [exact IH|lia|lia].
  - eapply rs_ok_weak; [exact IH|lia|lia].
  - eapply rs_ok_weak; [exact IH|lia|lia].
  - destruct (s_docs s) as [|d ds] eqn:E; cbn [app].
    + change (nlen (@nil doc)) with 0 in *. rewrite !N.add_0_r in IH. rewrite N.add_0_r. eapply rs_ok_weak; [exact IH|lia|lia].
    + assert (0 < nlen (d :: ds)) by (rewrite nlen_cons; lia). cbn [rs_ok r_lo r_hi r_new].
      split; [lia|]. split; [lia|]. split; [lia|]. eapply rs_ok_weak; [exact IH|lia|lia].
Qed.
Lemma merged_cons : forall s l, merged (s :: l) = s_docs s ++ merged l.
Proof. reflexivity. Qed.
Lemma ranges_cons : forall b s l off q, In q (ranges b off (s :: l)) <->
  (s_first s = b /\ s_docs s <> [] /\ q = mkRange (s_lo s) (s_lo s + nlen (s_docs s)) off) \/ In q (ranges b (off + nlen (s_docs s)) l).
Proof.
  intros b s l off q. cbn [ranges]. rewrite in_app_iff. destruct (Bool.eqb (s_first s) b) eqn:E.
  - apply Bool.eqb_prop in E. destruct (s_docs s) as [|d ds].
    + cbn [In]. split; [intros [[]|H]; right; exact H|intros [(_ & X & _)|H]; [congruence|right; exact H]].
    + cbn [In]. split.
      * intros [[<-|[]]|H]; [left; split; [exact E|split; [discriminate|reflexivity]]|right; exact H].
      * intros [(_ & _ & ->)|H]; [left; left; reflexivity|right; exact H].
  - split; [intros [[]|H]; right; exact H|]. intros [(X & _)|H]; [|right; exact H]. rewrite X, Bool.eqb_reflx in E. discriminate.
Qed.
Lemma ranges_hi : forall b l off q, In q (ranges b off l) -> r_new q + (r_hi q - r_lo q) <= off + nlen (merged l).
Proof.
  induction l as [|s l IH]; intros off q I; [destruct I|]. apply ranges_cons in I. rewrite merged_cons, nlen_app.
  destruct I as [(_ & _ & ->)|I]; [cbn; lia|]. specialize (IH _ _ I). lia.
Qed.
Lemma image_ge : forall b l off i x, image (ranges b off l) i x -> off <= x.
Proof. intros b l off i x (q & Q & L & ->). apply ranges_new in Q. lia. Qed.
Lemma image_cons : forall b s l off i x, image (ranges b off (s :: l)) i x <->
  (s_first s = b /\ s_lo s <= i < s_lo s + nlen (s_docs s) /\ x = off + (i - s_lo s)) \/ image (ranges b (off + nlen (s_docs s)) l) i x.
Proof.
  intros b s l off i x. unfold image. split.
  - intros (q & Q & L & X). apply ranges_cons in Q. destruct Q as [(F & _ & ->)|Q]; [left; cbn in *; split; [exact F|split; [exact L|lia]]|right; eauto].
  - intros [(F & L & X)|(q & Q & L & X)].
    + eexists. split; [apply ranges_cons; left; split; [exact F|split; [|reflexivity]]|cbn; split; [exact L|lia]].
      intros E. rewrite E in L. cbn in L. lia.
    + exists q. split; [apply ranges_cons; right; exact Q|auto].
Qed.
Lemma image_disj : forall l off i j x, image (ranges true off l) i x -> image (ranges false off l) j x -> False.
Proof.
  induction l as [|s l IH]; intros off i j x A B; [destruct A as (q & [] & _)|]. apply image_cons in A. apply image_cons in B.
  destruct A as [(F & L & X)|A], B as [(F' & L' & X')|B].
  - congruence.
  - apply image_ge in B. lia.
  - apply image_ge in A. lia.
  - apply (IH _ _ _ _ A B).
Qed.
Lemma image_pos : forall docs1 docs2 l off x d, located docs1 docs2 l ->
  (off <= x /\ nth_error (merged l) (N.to_nat (x - off)) = Some d <->
   exists b i, image (ranges b off l) i x /\ nth_error (if b : bool then docs1 else docs2) (N.to_nat i) = Some d).
Proof.
  intros docs1 docs2. induction l as [|s l IH]; intros off x d LOC.
  - split; [intros (_ & E); unfold merged in E; cbn in E; destruct (N.to_nat (x - off)); discriminate|].
    intros (b & i & (q & [] & _) & _).
  - assert (LOC' : located docs1 docs2 l) by (intros z I; apply LOC; right; exact I).
    destruct (LOC s (or_introl eq_refl)) as (pre & post & E & EP). rewrite merged_cons.
    assert (HD : forall k, k < nlen (s_docs s) -> nth_error (if s_first s then docs1 else docs2) (N.to_nat (s_lo s + k)) = nth_error (s_docs s) (N.to_nat k)).
    { intros k K. rewrite E. rewrite nth_error_app2 by (unfold nlen in *; lia). rewrite nth_error_app1 by (unfold nlen in *; lia). f_equal. unfold nlen in *. lia. }
    specialize (IH (off + nlen (s_docs s)) x d LOC'). split.
    + intros (L & X). destruct (N.lt_ge_cases (x - off) (nlen (s_docs s))) as [LT|GE].
      * rewrite nth_error_app1 in X by (unfold nlen in *; lia). exists (s_first s), (s_lo s + (x - off)). split; [|rewrite HD by exact LT; exact X].
        apply image_cons. left. split; [reflexivity|lia].
      * rewrite nth_error_app2 in X by (unfold nlen in *; lia).
        destruct (proj1 IH) as (b & i & IM & Y); [split; [lia|]; rewrite <- X; f_equal; unfold nlen in *; lia|].
        exists b, i. split; [apply image_cons; right; exact IM|exact Y].
    + intros (b & i & IM & Y). apply image_cons in IM. destruct IM as [(F & L & X)|IM].
      * split; [lia|]. rewrite nth_error_app1 by (unfold nlen in *; lia). subst b.
        replace i with (s_lo s + (x - off)) in Y by lia. rewrite HD in Y by lia. exact Y.
      * destruct (proj2 IH) as (L & X); [exists b, i; split; assumption|]. split; [lia|].
        rewrite nth_error_app2 by (unfold nlen in *; lia). rewrite <- X. f_equal. unfold nlen in *. lia.
Qed.
Lemma segs_shuffle : forall l, shuffle (part true l) (part false l) (merged l).
Proof.
  induction l as [|s l IH]; [constructor|]. rewrite merged_cons. unfold part. cbn [filter].
  destruct (s_first s); cbn [Bool.eqb]; rewrite merged_cons; fold (part true l); fold (part false l).
  - induction (s_docs s) as [|d ds IHd]; [exact IH|]. cbn. apply sh_left. exact IHd.
  - induction (s_docs s) as [|d ds IHd]; [exact IH|]. cbn. apply sh_right. exact IHd.
Qed.

(** ** Index files *)
Definition sem (docs : list doc) (gs : list group) : Prop :=
  forall t i, In i (lk gs t) <-> exists d, nth_error docs (N.to_nat i) = Some d /\ has_trigram (snd d) t.
Definition docs_ok (docs : list doc) : Prop := Forall (fun d => nul_free (fst d) /\ text_ok (snd d)) docs.
(** [D] is an index file (doc comment of read.go) for these paths and files. *)
Definition made (D : bytes) (ps : list str) (docs : list doc) : Prop :=
  exists junk last gs, D = gfile ps docs junk last gs /\ nlen D < 2^32 /\ docs_ok docs /\ Forall path_ok ps /\
    table_ok gs /\ lists_ok (nlen docs) gs /\ sem docs gs.

Lemma docs_names : forall docs, docs_ok docs -> names_ok docs.
Proof. intros docs H. eapply Forall_impl; [|exact H]. intros d (A & _). exact A. Qed.
Lemma reads_gfile : forall ps docs junk last gs, nlen (gfile ps docs junk last gs) < 2^32 -> docs_ok docs -> reads (g_index ps docs junk last gs) docs.
Proof.
  intros ps docs junk last gs H OK. pose proof (gf_sizes ps docs junk last gs) as SZ. split; [|split; [lia|]].
  - unfold num_names, g_index. cbn [ix_numName]. rewrite Z.mod_small; [apply N2Z.id|]. change (2^32)%Z with (Z.of_N (2^32)). lia.
  - intros i d E. apply (name_gfile ps docs junk last gs i d H (docs_names docs OK) E).
Qed.

Lemma loads_gfile : forall n mp ps docs junk last gs, n < 2^32 -> rs_in n mp -> nlen (gfile ps docs junk last gs) < 2^32 -> table_ok gs -> lists_ok (nlen docs) gs ->
  loads n (g_index ps docs junk last gs) mp gs.
Proof.
  intros n mp ps docs junk last gs NS R H TO LO pre rem r E I T. pose proof (gf_sizes ps docs junk last gs) as SZ.
  assert (ND : nlen docs < 2^32) by lia. unfold p_load. cbn [ix_numPost g_index]. rewrite u32_small by lia. rewrite T. destruct rem as [|(t, ids) rem].
  - replace (nlen gs <=? nlen pre) with true by (symmetry; apply N.leb_le; rewrite E, app_nil_r; lia).
    eexists. split; [reflexivity|]. split; [exact I|]. split; [reflexivity|reflexivity].
  - replace (nlen gs <=? nlen pre) with false by (symmetry; apply N.leb_gt; rewrite E, nlen_app, nlen_cons; lia).
    rewrite E in H, TO. rewrite E. rewrite (list_at_gfile ps docs junk last pre t ids rem H TO). cbn [bind].
    destruct (N.eqb_spec (nlen ids) 0) as [Z|NZ].
    + assert (ids = []) by (destruct ids; [reflexivity|rewrite nlen_cons in Z; lia]). subst ids.
      eexists. split; [reflexivity|]. split; [exact I|]. split; [reflexivity|]. split; [reflexivity|]. cbn [mapped]. apply f_nil. reflexivity.
    + destruct (list_there ps docs junk last pre t ids rem H) as (rest & SL).
      change (ix_data (g_index ps docs junk last (pre ++ (t, ids) :: rem))) with (gfile ps docs junk last (pre ++ (t, ids) :: rem)).
      change (ix_postData (g_index ps docs junk last (pre ++ (t, ids) :: rem))) with (nlen (gf_c ps docs junk)).
      rewrite SL. cbn [bind]. eexists. split; [reflexivity|]. split; [exact I|]. split; [reflexivity|]. split; [reflexivity|]. rewrite I.
      apply (f_more n (mkPmr mp (nlen pre) t (nlen ids) (deltas (2^32 - 1) ids ++ 0 :: rest) max32 (p_fileid r) mp) ids (0 :: rest)); cbn [p_count p_d p_oldid p_rest]; auto.
      destruct (LO (t, ids)) as (A & B); [rewrite E; apply in_or_app; right; left; reflexivity|].
      apply (ids_chain (nlen docs)); [exact A|exact B|exact ND].
Qed.

Lemma without_in : forall A (P : A -> Prop) l l', without P l l' -> forall x, In x l' -> In x l.
Proof. intros A P l l' W. induction W; intros y I; [destruct I|right; auto|]. destruct I as [<-|I]; [left; reflexivity|right; auto]. Qed.
Lemma shuffle_in : forall A (a b c : list A), shuffle a b c -> forall x, In x c <-> In x a \/ In x b.
Proof. intros A a b c S. induction S; intros y; cbn; [tauto| |]; rewrite IHS; tauto. Qed.

Lemma deltas_weight : forall ids f, nlen (deltas f ids) <= 5 * nlen ids.
Proof.
  induction ids as [|i ids IH]; intros f; [cbn; lia|]. cbn [deltas]. rewrite nlen_app, nlen_cons. specialize (IH i).
  pose proof (put_uvarint_le5 (u32 (i + 2^32 - f))). unfold nlen in *. lia.
Qed.
Lemma deltas_least : forall ids f, nlen ids <= nlen (deltas f ids).
Proof.
  induction ids as [|i ids IH]; intros f; [cbn; lia|]. cbn [deltas]. rewrite nlen_app, nlen_cons. specialize (IH i).
  pose proof (put_uvarint_nonempty (u32 (i + 2^32 - f))) as NE. destruct (put_uvarint (u32 (i + 2^32 - f))); [congruence|]. rewrite nlen_cons. lia.
Qed.
Lemma lists_weight : forall gs, nlen (lists_bytes gs) <= weight gs /\ weight gs <= 5 * nlen (lists_bytes gs).
Proof.
  induction gs as [|g gs IH]; [cbn; lia|]. unfold lists_bytes, weight. cbn [map concat fold_right]. fold (lists_bytes gs). fold (weight gs).
  unfold list_bytes. rewrite !nlen_app, nlen_put3. change (nlen [0]) with 1.
  pose proof (deltas_weight (snd g) (2^32 - 1)). pose proof (deltas_least (snd g) (2^32 - 1)). lia.
Qed.
Lemma names_size : forall docs, nlen (names_data docs) = psum (map fst docs).
Proof.
  induction docs as [|d docs IH]; [reflexivity|]. rewrite names_data_cons, !nlen_app, IH. change (nlen [0]) with 1. cbn [map psum fold_right]. fold (psum (map fst docs)). lia.
Qed.
Lemma psum_shuffle : forall (a b c : list doc), shuffle a b c -> psum (map fst c) = psum (map fst a) + psum (map fst b) /\ nlen c = nlen a + nlen b.
Proof.
  intros a b c S. induction S as [|x a b c S IH|x a b c S IH]; [split; reflexivity| |]; cbn [map psum fold_right];
    fold (psum (map fst a)); fold (psum (map fst b)); fold (psum (map fst c)); rewrite ?nlen_cons; lia.
Qed.
Lemma psum_without : forall P (a b : list doc), without P a b -> psum (map fst b) <= psum (map fst a) /\ nlen b <= nlen a.
Proof.
  intros P a b W. induction W as [|x a b N W IH|x a b N W IH]; [cbn; lia| |]; cbn [map psum fold_right];
    fold (psum (map fst a)); fold (psum (map fst b)); rewrite ?nlen_cons; lia.
Qed.

Lemma mk_eq : forall A (x y : A), x = y -> Some x = Some y.
Proof. intros; congruence. Qed.
Theorem merge_file : forall D1 ps1 docs1 D2 ps2 docs2, made D1 ps1 docs1 -> made D2 ps2 docs2 -> mergeable docs1 ps2 docs2 ->
  exists D3 docs3, let ps3 := merge_paths (length ps1 + length ps2) ps1 ps2 [0] in
    fits (merge D1 D2) D3 (nlen D3) /\ docs_merged docs1 ps2 docs2 docs3 /\ (nlen D3 < 2^32 -> made D3 ps3 docs3) /\
    nlen D3 <= 5 * (nlen D1 + nlen D2).
Proof.
  intros D1 ps1 docs1 D2 ps2 docs2 (j1 & l1 & gs1 & E1 & H1 & O1 & P1 & T1 & L1 & SE1) (j2 & l2 & gs2 & E2 & H2 & O2 & P2 & T2 & L2 & SE2) (SP & PE & CV & ST).
  pose proof (gf_sizes ps1 docs1 j1 l1 gs1) as Z1. pose proof (gf_sizes ps2 docs2 j2 l2 gs2) as Z2. rewrite <- E1 in Z1. rewrite <- E2 in Z2.
  set (ix1 := g_index ps1 docs1 j1 l1 gs1). set (ix2 := g_index ps2 docs2 j2 l2 gs2).
  assert (R1 : reads ix1 docs1) by (apply reads_gfile; [rewrite <- E1; exact H1|exact O1]).
  assert (R2 : reads ix2 docs2) by (apply reads_gfile; [rewrite <- E2; exact H2|exact O2]).
  assert (NM1 : nlen docs1 <= nlen (names_data docs1)) by (pose proof (names_data_length docs1); unfold nlen in *; lia).
  assert (NM2 : nlen docs2 <= nlen (names_data docs2)) by (pose proof (names_data_length docs2); unfold nlen in *; lia).
  assert (SMALL : nlen docs1 + nlen docs2 < 2^32) by lia.
  destruct (maps_spec ix1 ix2 docs1 docs2 ps2 R1 R2 SMALL PE (fun p I => proj1 (ST p I)) (fun p I => proj2 (ST p I)) CV SP)
    as (m & m' & l & MP & MR & MN & MM1 & MM2 & LOC & ORD & W1 & W2 & SO).
  set (docs3 := merged l) in *. set (ps3 := merge_paths (length ps1 + length ps2) ps1 ps2 [0]).
  pose proof (segs_shuffle l) as SH. rewrite W2 in SH. fold docs3 in SH.
  assert (LEN : nlen docs3 <= nlen docs1 + nlen docs2).
  { destruct (psum_shuffle _ _ _ SH) as (_ & X). destruct (psum_without _ _ _ W1) as (_ & Y). lia. }
  assert (N3 : nlen docs3 < 2^32) by lia.
  assert (RI1 : rs_in (nlen docs3) (ranges true 0 l)).
  { split; [apply (ranges_ok true l 0 0 0 _ _ ORD)|]. intros q Q. apply (ranges_hi _ _ _ _ Q). }
  assert (RI2 : rs_in (nlen docs3) (ranges false 0 l)).
  { split; [apply (ranges_ok false l 0 0 0 _ _ ORD)|]. intros q Q. apply (ranges_hi _ _ _ _ Q). }
  assert (LD1 : loads (nlen docs3) ix1 (ranges true 0 l) gs1) by (apply loads_gfile; [exact N3|exact RI1|rewrite <- E1; exact H1|exact T1|exact L1]).
  assert (LD2 : loads (nlen docs3) ix2 (ranges false 0 l) gs2) by (apply loads_gfile; [exact N3|exact RI2|rewrite <- E2; exact H2|exact T2|exact L2]).
  destruct (LD1 [] gs1 (mkPmr (ranges true 0 l) 0 max32 0 [] 0 0 []) eq_refl eq_refl eq_refl) as (r1 & PL1 & LO1).
  destruct (LD2 [] gs2 (mkPmr (ranges false 0 l) 0 max32 0 [] 0 0 []) eq_refl eq_refl eq_refl) as (r2 & PL2 & LO2).
  set (out := gf_c ps3 docs3 []).
  assert (LISTS : writes (merge_lists_of (S (N.to_nat (ix_numPost ix1 + ix_numPost ix2))) ix1 ix2 r1 r2) (merged_table (nlen docs3) (ranges true 0 l) (ranges false 0 l) gs1 gs2)).
  { apply (merge_lists_of_spec (nlen docs3) (ranges true 0 l) (ranges false 0 l) ix1 ix2 gs1 gs2 N3 RI1 RI2 (image_disj l 0) T1 T2) with (pre1 := []) (pre2 := []);
      try assumption; try reflexivity; try lia.
    - intros g I. apply (L1 g I).
    - intros g I. apply (L2 g I).
    - unfold ix1, ix2. cbn [ix_numPost g_index]. unfold nlen. lia. }
  destruct (LISTS (mkPdw out [] (nlen out) 0 0 0 0)) as (gs3 & w & FW & WO & WX & MT); [cbn; lia|]. cbn [w_out w_idx w_base app] in FW, WO, WX.
  rewrite N.sub_diag in WX. destruct MT as (T3 & TI & TL & TW & TN).
  set (D3 := gfile ps3 docs3 [] (nlen out) gs3). pose proof (gf_sizes ps3 docs3 [] (nlen out) gs3) as Z3. fold D3 in Z3. change (nlen (@nil N)) with 0 in Z3.
  exists D3, docs3. cbv zeta. fold ps3.
  assert (OUT : out = (magic ++ paths_bytes ps3) ++ names_data docs3) by (unfold out, gf_c, gf_b, gf_a; rewrite app_nil_r; reflexivity).
  assert (OUTN : nlen out = nlen magic + nlen (paths_bytes ps3) + nlen (names_data docs3)) by (rewrite OUT, !nlen_app; lia).
  split; [|split; [|split]].
  - unfold merge. rewrite E1, E2 in *. rewrite (open_gfile _ _ _ _ _ H1), (open_gfile _ _ _ _ _ H2). cbn [bind].
    rewrite (paths_gfile _ _ _ _ _ H1 P1), (paths_gfile _ _ _ _ _ H2 P2). cbn [bind]. fold ix1 ix2. rewrite MP. cbn [bind]. rewrite MR. cbn [bind].
    rewrite MN, MM1, MM2. fold ps3.
    eapply fits_bind; [apply fits_off32|lia|].
    eapply fits_bind; [apply fits_off32|rewrite nlen_app; lia|].
    eapply fits_bind; [apply (copy_ranges_spec ix1 ix2 docs1 docs2 (nlen (magic ++ paths_bytes ps3)) R1 R2 l 0 (magic ++ paths_bytes ps3) [])|..];
      [exact LOC|lia|exact N3|lia|fold docs3; rewrite <- OUT; lia|]. fold docs3. rewrite <- OUT, N.sub_diag. cbn [fst snd app].
    assert (ON : nlen (offs 0 docs3) = 4 * nlen docs3) by (unfold offs; rewrite concat_uint32_len; unfold nlen; rewrite name_offsets_length; lia).
    destruct (off32_cases (offs 0 docs3)) as [[-> OL]|[-> OL]]; [|right; split; [reflexivity|lia]]. cbn [bind].
    replace (u32 (nlen docs3 * 4) =? nlen (offs 0 docs3)) with true by (symmetry; apply N.eqb_eq; rewrite u32_small by lia; lia). cbn [negb].
    eapply fits_bind; [apply fits_off32|lia|].
    eapply fits_bind; [apply fits_off32|lia|].
    unfold p_init. rewrite PL1. cbn [bind]. rewrite PL2. cbn [bind]. unfold w_init.
    eapply fits_bind; [eapply fits_bind; [apply fits_off32|apply N.le_refl|left; reflexivity]|lia|].
    eapply fits_bind; [exact FW|rewrite nlen_app; lia|]. rewrite WO, WX.
    assert (GD : out ++ lists_bytes gs3 = gf_d ps3 docs3 [] gs3) by reflexivity. rewrite GD.
    eapply fits_bind; [apply fits_off32|rewrite <- GD, nlen_app; lia|].
    assert (GE : gf_d ps3 docs3 [] gs3 ++ offs 0 docs3 ++ put_uint32 (nlen out) = gf_e ps3 docs3 [] (nlen out) gs3) by reflexivity. rewrite GE.
    eapply fits_bind; [apply fits_off32|rewrite gf_e_len, <- GD, nlen_app; lia|].
    left. apply mk_eq. unfold D3, gfile, gf_f. change (nlen (gf_a)) with (nlen magic). reflexivity.
  - split; [exists (part true l); split; assumption|exact SO].
  - intros H3. exists [], (nlen out), gs3. split; [reflexivity|]. split; [exact H3|]. split; [|split; [apply merge_paths_ok; assumption|split; [exact T3|split]]].
    + apply Forall_forall. intros d I. apply (shuffle_in _ _ _ _ SH) in I. unfold docs_ok in O1, O2. rewrite Forall_forall in O1, O2.
      destruct I as [I|I]; [apply O1; apply (without_in _ _ _ _ W1 d I)|apply O2, I].
    + intros g I. destruct (TI g I) as (A & B & _). split; assumption.
    + intros t x. rewrite TL.
      assert (MI : forall b gs n0 docs, lists_ok n0 gs -> sem docs gs -> (In x (mapped (lk gs t) (ranges b 0 l)) <->
         exists i d, nth_error docs (N.to_nat i) = Some d /\ has_trigram (snd d) t /\ image (ranges b 0 l) i x)).
      { intros b gs n0 docs LO SE. rewrite mapped_in; [|destruct b; [apply RI1|apply RI2]|apply (lk_ok n0 gs t LO)]. split.
        - intros (i & I & M). apply SE in I. destruct I as (d & A & B). exists i, d. auto.
        - intros (i & d & A & B & C). exists i. split; [apply SE; eauto|exact C]. }
      rewrite (MI true gs1 _ docs1 L1 SE1), (MI false gs2 _ docs2 L2 SE2).
      pose proof (fun d => image_pos docs1 docs2 l 0 x d LOC) as IP. split.
      * intros [(i & d & A & B & C)|(i & d & A & B & C)]; exists d; (split; [|exact B]).
        -- destruct (proj2 (IP d)) as (_ & X); [exists true, i; split; assumption|]. rewrite N.sub_0_r in X. exact X.
        -- destruct (proj2 (IP d)) as (_ & X); [exists false, i; split; assumption|]. rewrite N.sub_0_r in X. exact X.
      * intros (d & A & B). destruct (proj1 (IP d)) as (b & i & C & X); [rewrite N.sub_0_r; split; [lia|exact A]|].
        destruct b; [left|right]; exists i, d; auto.
  - rewrite Z3. destruct (psum_shuffle _ _ _ SH) as (X1 & X2). destruct (psum_without _ _ _ W1) as (Y1 & Y2).
    pose proof (merge_paths_size (length ps1 + length ps2) ps1 ps2 [0]) as PS. fold ps3 in PS.
    pose proof (lists_weight gs1). pose proof (lists_weight gs2). pose proof (lists_weight gs3).
    rewrite !psum_bytes, !names_size in *. lia.
Qed.

