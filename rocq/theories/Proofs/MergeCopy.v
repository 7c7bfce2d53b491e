(** merge.go:134-163, names of the merged index. *)
From Coq Require Import Sorted.
From Verif Require Import Model.Base Model.Codec Model.Writer Model.Reader Model.IndexMerge Spec.RunSpec Spec.MergeSpec
  Proofs.Arith Proofs.WriterProofs Proofs.MergeProofs Proofs.ReaderProofs Proofs.MergeRanges.
Local Open Scope N_scope.

Lemma off32_cases : forall b, (off32 b = Some (nlen b) /\ nlen b < 2^32) \/ (off32 b = None /\ 2^32 <= nlen b).
Proof.
  intros b. unfold off32. destruct (N.eqb_spec (u32 (nlen b)) (nlen b)) as [E|NE].
  - left. split; [reflexivity|]. rewrite <- E. apply u32_lt.
  - right. split; [reflexivity|]. destruct (N.lt_ge_cases (nlen b) (2^32)) as [L|L]; [|exact L]. destruct NE. apply u32_small, L.
Qed.

(** [Some x], unless what would have been written is too large. *)
Definition fits {A} (r : option A) (x : A) (size : N) : Prop := r = Some x \/ (r = None /\ 2^32 <= size).
Lemma fits_bind : forall A B (r : option A) x n (f : A -> option B) y k, fits r x n -> n <= k -> fits (f x) y k -> fits (z <- r ;; f z) y k.
Proof.
  intros A B r x n f y k [->|[-> L]] LE H; [exact H|]. right. split; [reflexivity|lia].
Qed.
Lemma fits_weak : forall A (r : option A) x n k, fits r x n -> n <= k -> fits r x k.
Proof. intros A r x n k [->|[-> L]] LE; [left; reflexivity|right; split; [reflexivity|lia]]. Qed.
Lemma fits_off32 : forall b, fits (off32 b) (nlen b) (nlen b).
Proof. intros b. destruct (off32_cases b) as [[E _]|[E L]]; [left|right; split]; assumption. Qed.

Definition offs (start : N) (docs : list doc) : bytes := concat (map put_uint32 (name_offsets start docs)).
Lemma offs_app : forall s a b, offs s (a ++ b) = offs s a ++ offs (s + nlen (names_data a)) b.
Proof. intros. unfold offs. rewrite name_offsets_app, map_app, concat_app. reflexivity. Qed.
Lemma names_data_cons : forall d l, names_data (d :: l) = (fst d ++ [0]) ++ names_data l.
Proof. reflexivity. Qed.

Lemma copy_names_spec : forall ix docs base, reads ix docs -> forall chunk pre post out nidx, docs = pre ++ chunk ++ post -> base <= nlen out ->
  fits (copy_names (length chunk) ix (nlen pre) base out nidx)
    (out ++ names_data chunk, nidx ++ offs (nlen out - base) chunk) (nlen (out ++ names_data chunk)).
Proof.
  intros ix docs base R. induction chunk as [|d chunk IH]; intros pre post out nidx E B.
  - left. cbn. unfold offs, names_data. cbn. rewrite !app_nil_r. reflexivity.
  - cbn [length copy_names]. rewrite (read_mid ix docs pre d (chunk ++ post) R E). cbn [bind].
    destruct (off32_cases out) as [[-> L]|[-> L]].
    2: { right. split; [reflexivity|]. rewrite nlen_app. lia. }
    cbn [bind]. rewrite u32_sub by lia.
    replace (nlen pre + 1) with (nlen (pre ++ [d])) by (rewrite nlen_app; reflexivity).
    assert (EN : nlen (out ++ fst d ++ [0]) - base = nlen out - base + nlen (fst d) + 1).
    { rewrite !nlen_app. change (nlen [0]) with 1. lia. }
    pose proof (IH (pre ++ [d]) post (out ++ fst d ++ [0]) (nidx ++ put_uint32 (nlen out - base))) as H.
    rewrite EN in H. rewrite names_data_cons. unfold offs in *. cbn [name_offsets map concat]. rewrite <- !app_assoc in *. apply H; [exact E|].
    rewrite nlen_app. lia.
Qed.

Lemma ranges_new : forall b l off r, In r (ranges b off l) -> off <= r_new r.
Proof.
  induction l as [|s l IH]; intros off r I; [destruct I|]. cbn in I. apply in_app_or in I. destruct I as [I|I].
  - destruct (Bool.eqb (s_first s) b); [|destruct I]. destruct (s_docs s); [destruct I|]. destruct I as [<-|[]]. cbn. lia.
  - apply IH in I. lia.
Qed.

Lemma copy_ranges_spec : forall ix1 ix2 docs1 docs2 base, reads ix1 docs1 -> reads ix2 docs2 ->
  forall l off out nidx fuel, located docs1 docs2 l -> base <= nlen out -> off + nlen (merged l) < 2^32 ->
  (length (ranges true off l) + length (ranges false off l) <= fuel)%nat ->
  fits (copy_ranges fuel ix1 ix2 off (off + nlen (merged l)) base (ranges true off l) (ranges false off l) out nidx)
    (out ++ names_data (merged l), nidx ++ offs (nlen out - base) (merged l)) (nlen (out ++ names_data (merged l))).
Proof.
  intros ix1 ix2 docs1 docs2 base R1 R2. induction l as [|s l IH]; intros off out nidx fuel LOC B SM F.
  - left. unfold merged, names_data, offs. cbn. rewrite !app_nil_r. destruct fuel; cbn [copy_ranges]; rewrite N.add_0_r, N.leb_refl; reflexivity.
  - destruct (s_docs s) as [|d chunk] eqn:EC.
    + assert (EM : merged (s :: l) = merged l) by (unfold merged; cbn; rewrite EC; reflexivity).
      assert (ER : forall b, ranges b off (s :: l) = ranges b off l).
      { intros b. cbn [ranges]. rewrite EC. change (nlen (@nil doc)) with 0. rewrite N.add_0_r. destruct (Bool.eqb (s_first s) b); reflexivity. }
      rewrite EM, !ER in *. apply IH; try assumption. intros z I. apply LOC. right. exact I.
    + set (ch := s_docs s) in *.
      assert (CN : 0 < nlen ch) by (rewrite EC, nlen_cons; lia).
      assert (EM : merged (s :: l) = ch ++ merged l) by reflexivity. rewrite EM in *. rewrite nlen_app in SM.
      assert (LOC' : located docs1 docs2 l) by (intros z I; apply LOC; right; exact I).
      destruct (LOC s (or_introl eq_refl)) as (pre & post & E & EP). fold ch in E.
      set (r0 := mkRange (s_lo s) (s_lo s + nlen ch) off).
      assert (ER : forall b, ranges b off (s :: l) = (if Bool.eqb (s_first s) b then [r0] else []) ++ ranges b (off + nlen ch) l).
      { intros b. cbn [ranges]. fold ch. destruct (Bool.eqb (s_first s) b); [|reflexivity]. rewrite EC at 1. reflexivity. }
      assert (GE : off + nlen (ch ++ merged l) <=? off = false) by (apply N.leb_gt; rewrite nlen_app; lia).
      assert (LN : N.to_nat (r_hi r0 - r_lo r0) = length ch) by (unfold r0; cbn; unfold nlen; lia).
      assert (NX : u32 (off + (r_hi r0 - r_lo r0)) = off + nlen ch) by (unfold r0; cbn [r_hi r_lo]; rewrite u32_small; lia).
      assert (AR : (length (ranges true (off + nlen ch) l) + length (ranges false (off + nlen ch) l) < fuel)%nat).
      { rewrite !ER in F. destruct (s_first s); cbn in F; lia. }
      destruct fuel as [|fuel]; [lia|].
      assert (EN : nlen (out ++ names_data ch) - base = nlen out - base + nlen (names_data ch)) by (rewrite nlen_app; lia).
      assert (REC : forall nidx', fits (copy_ranges fuel ix1 ix2 (off + nlen ch) (off + nlen (ch ++ merged l)) base (ranges true (off + nlen ch) l) (ranges false (off + nlen ch) l)
          (out ++ names_data ch) nidx') (out ++ names_data (ch ++ merged l), nidx' ++ offs (nlen out - base + nlen (names_data ch)) (merged l)) (nlen (out ++ names_data (ch ++ merged l)))).
      { intros nidx'. rewrite names_data_app, app_assoc, nlen_app, N.add_assoc. rewrite <- EN. apply IH; [exact LOC'|rewrite nlen_app; lia|lia|lia]. }
      rewrite offs_app. rewrite !ER. destruct (s_first s) eqn:EF; cbn [Bool.eqb app copy_ranges]; rewrite GE.
      * change (r_new r0 =? off) with (off =? off). rewrite N.eqb_refl, LN. change (r_lo r0) with (s_lo s) at 1. rewrite <- EP.
        eapply fits_bind; [apply (copy_names_spec ix1 docs1 base R1 ch pre post out nidx E B)| |]; 
          [rewrite names_data_app, !nlen_app; lia|]. cbn [fst snd]. rewrite NX, app_assoc. apply REC.
      * assert (C : fits (w <- copy_names (N.to_nat (r_hi r0 - r_lo r0)) ix2 (r_lo r0) base out nidx ;;
             copy_ranges fuel ix1 ix2 (u32 (off + (r_hi r0 - r_lo r0))) (off + nlen (ch ++ merged l)) base (ranges true (off + nlen ch) l) (ranges false (off + nlen ch) l) (fst w) (snd w))
             (out ++ names_data (ch ++ merged l), nidx ++ offs (nlen out - base) ch ++ offs (nlen out - base + nlen (names_data ch)) (merged l)) (nlen (out ++ names_data (ch ++ merged l)))).
        { rewrite LN. change (r_lo r0) with (s_lo s) at 1. rewrite <- EP.
          eapply fits_bind; [apply (copy_names_spec ix2 docs2 base R2 ch pre post out nidx E B)| |]; 
            [rewrite names_data_app, !nlen_app; lia|]. cbn [fst snd]. rewrite NX, app_assoc. apply REC. }
        destruct (ranges true (off + nlen ch) l) as [|r rs] eqn:RR.
        -- change (r_new r0 =? off) with (off =? off). rewrite N.eqb_refl. exact C.
        -- assert (off + nlen ch <= r_new r) by (apply (ranges_new true l); rewrite RR; left; reflexivity).
           replace (r_new r =? off) with false by (symmetry; apply N.eqb_neq; lia).
           change (r_new r0 =? off) with (off =? off). rewrite N.eqb_refl. exact C.
Qed.
