(** Classes as the parser makes them. *)
From Verif Require Import Model.Base Model.GoStr Model.Utf8 Model.Syntax Model.Utf Model.Analyze Model.GoRegexp Model.GoParse Spec.Utf8Spec
  Spec.RegexSpec Spec.RuneProgSpec Spec.ParsedSpec Spec.LiteralSpec Spec.PatternSpec Proofs.Utf8Proofs Proofs.AnalyzeSound Proofs.UtfClass Proofs.LiteralParse.
From Coq Require Import Lia.
Local Open Scope N_scope.

(** ** Ranges away from the surrogates *)
Definition cut (b : N) : Prop := b <= 0xD000 \/ 0xF000 <= b.
Definition okr (lh : N * N) : Prop := fst lh <= snd lh /\ snd lh <= 0x10FFFF /\ cut (fst lh) /\ cut (snd lh + 1).
Lemma okr_proper : forall l, Forall okr l -> Forall proper l.
Proof. intros l. apply Forall_impl. intros a H. apply H. Qed.
Lemma far_one : forall r, far r -> okr (r, r).
Proof. intros r H. unfold far in H. unfold okr, cut. cbn [fst snd]. lia. Qed.
Lemma far_two : forall a b, far a -> far b -> a <= b -> okr (a, b).
Proof. intros a b A B L. unfold far in *. unfold okr, cut. cbn [fst snd]. lia. Qed.
Lemma widen_ok : forall lo hi rlo rhi, okr (lo, hi) -> okr (rlo, rhi) -> okr (widen lo hi rlo rhi).
Proof.
  intros lo hi rlo rhi (A & B & C & D) (A' & B' & C' & D'). unfold okr, widen in *. cbn [fst snd] in *.
  destruct (N.ltb_spec lo rlo), (N.ltb_spec rhi hi); repeat split; auto; lia.
Qed.
Lemma append_ok : forall r lo hi, Forall okr r -> okr (lo, hi) -> Forall okr (appendRange r lo hi) /\
  (forall x, in_ranges (appendRange r lo hi) x <-> in_ranges r x \/ (lo <= x /\ x <= hi)) /\ (length (appendRange r lo hi) <= S (length r))%nat.
Proof.
  intros r lo hi F O. split; [|split; [apply appendRange_in; [apply O|apply okr_proper, F]|]].
  - destruct r as [|[a b] r]; cbn [appendRange]; [constructor; [exact O|constructor]|]. apply Forall_cons_iff in F. destruct F as (F1 & F).
    destruct (touches lo hi a b); [constructor; [apply widen_ok; assumption|exact F]|]. destruct r as [|[a' b'] r]; [constructor; [exact O|constructor; [exact F1|constructor]]|].
    apply Forall_cons_iff in F. destruct F as (F2 & F). destruct (touches lo hi a' b'); [constructor; [exact F1|constructor; [apply widen_ok; assumption|exact F]]|constructor; [exact O|constructor; [exact F1|constructor; assumption]]].
  - destruct r as [|[a b] r]; cbn [appendRange length]; [lia|]. destruct (touches lo hi a b); [cbn [length]; lia|]. destruct r as [|[a' b'] r]; cbn [length]; [lia|]. destruct (touches lo hi a' b'); cbn [length]; lia.
Qed.
Lemma runes_between_in : forall lo hi x, In x (runes_between lo hi) <-> lo <= x /\ x <= hi.
Proof.
  intros lo hi x. unfold runes_between. rewrite in_map_iff. split.
  - intros (k & <- & I). apply in_seq in I. lia.
  - intros (A & B). exists (N.to_nat (x - lo)). split; [lia|]. apply in_seq. lia.
Qed.
Lemma runes_between_len : forall lo hi, length (runes_between lo hi) = N.to_nat (hi + 1 - lo).
Proof. intros lo hi. unfold runes_between. rewrite map_length, seq_length. reflexivity. Qed.

(** ** Sorted, separated ranges *)
Fixpoint separated (l : list (N * N)) : Prop :=
  match l with
  | [] => True
  | a :: l' => match l' with [] => True | b :: _ => snd a + 1 < fst b end /\ separated l'
  end.
Lemma separated_above : forall l a, separated (a :: l) -> Forall okr l -> forall x, in_ranges l x -> snd a + 1 < x.
Proof.
  induction l as [|b l IH]; intros a (S1 & S) F x I; [apply in_ranges_nil in I; destruct I|]. apply Forall_cons_iff in F. destruct F as ((P & _) & F).
  apply in_ranges_cons in I. destruct I as [I|I]; [lia|]. specialize (IH b S F x I). lia.
Qed.
Lemma insert_in : forall a l x, in_ranges (insert a l) x <-> in_ranges (a :: l) x.
Proof.
  intros a l x. induction l as [|b l IH]; cbn [insert]; [reflexivity|]. destruct (before a b); [reflexivity|]. rewrite !in_ranges_cons, IH, in_ranges_cons. tauto.
Qed.
Lemma insert_ok : forall a l, okr a -> Forall okr l -> Forall okr (insert a l).
Proof. intros a l A F. induction F as [|b l B F IH]; cbn [insert]; [constructor; [exact A|constructor]|]. destruct (before a b); constructor; auto. Qed.
Lemma insert_len : forall a l, length (insert a l) = S (length l).
Proof. intros a l. induction l as [|b l IH]; cbn [insert]; [reflexivity|]. destruct (before a b); cbn [length]; auto. Qed.
Fixpoint ordered (l : list (N * N)) : Prop := match l with [] => True | a :: l' => Forall (fun b => fst a <= fst b) l' /\ ordered l' end.
Lemma insert_forall : forall (P : N * N -> Prop) a l, P a -> Forall P l -> Forall P (insert a l).
Proof. intros P a l A F. induction F as [|b l B F IH]; cbn [insert]; [auto|]. destruct (before a b); auto. Qed.
Lemma insert_ordered : forall a l, ordered l -> ordered (insert a l).
Proof.
  intros a l. induction l as [|b l IH]; intros O; cbn [insert]; [split; constructor|]. destruct O as (F & O). destruct (before a b) eqn:B.
  - cbn [ordered]. assert (L : fst a <= fst b). { unfold before in B. apply orb_true_iff in B. rewrite andb_true_iff, N.ltb_lt, N.eqb_eq in B. lia. }
    split; [constructor; [exact L|]|split; assumption]. eapply Forall_impl; [|exact F]. cbn. intros c H. lia.
  - cbn [ordered]. split; [|apply IH, O]. apply insert_forall; [|exact F]. unfold before in B. apply orb_false_iff in B. rewrite N.ltb_ge in B. apply B.
Qed.
Lemma sort_all : forall l, Forall okr l -> Forall okr (sort l) /\ ordered (sort l) /\ (forall x, in_ranges (sort l) x <-> in_ranges l x) /\ length (sort l) = length l.
Proof.
  induction 1 as [|a l A F (I1 & I2 & I3 & I4)]; unfold sort in *; cbn [fold_right]; [repeat split; auto|].
  split; [apply insert_ok; assumption|]. split; [apply insert_ordered, I2|]. split; [|rewrite insert_len, I4; reflexivity]. intros x. rewrite insert_in, !in_ranges_cons, I3. reflexivity.
Qed.
Lemma merge_all : forall l a, okr a -> Forall okr l -> ordered (a :: l) ->
  Forall okr (merge_ranges a l) /\ separated (merge_ranges a l) /\ (exists b t, merge_ranges a l = b :: t /\ fst b = fst a) /\ (forall x, in_ranges (merge_ranges a l) x <-> in_ranges (a :: l) x) /\
  (length (merge_ranges a l) <= S (length l))%nat.
Proof.
  induction l as [|(lo, hi) l IH]; intros a A F (OA & O); cbn [merge_ranges].
  - split; [constructor; [exact A|constructor]|]. split; [cbn; auto|]. split; [eauto|]. split; [reflexivity|cbn [length]; lia].
  - apply Forall_cons_iff in F. destruct F as (B & F). apply Forall_cons_iff in OA. destruct OA as (LO & OA). cbn [fst] in LO. destruct O as (OB & O). cbn [fst] in OB.
    destruct (N.leb_spec lo (snd a + 1)) as [L|L].
    + set (a' := (fst a, if snd a <? hi then hi else snd a)).
      assert (A' : okr a'). { destruct A as (A1 & A2 & A3 & A4), B as (B1 & B2 & B3 & B4). unfold okr, a'. cbn [fst snd] in *. destruct (N.ltb_spec (snd a) hi); repeat split; auto; lia. }
      destruct (IH a' A' F) as (I1 & I2 & (b & t & E & EB) & I3 & I4); [split; [exact OA|exact O]|].
      split; [exact I1|]. split; [exact I2|]. split; [exists b, t; auto|]. split; [|cbn [length]; lia]. intros x. rewrite I3, !in_ranges_cons. cbn [a' fst snd].
      destruct A as (A1 & _), B as (B1 & _). cbn [fst snd] in *.
      assert (Q : fst a <= x /\ x <= (if snd a <? hi then hi else snd a) <-> (fst a <= x /\ x <= snd a) \/ (lo <= x /\ x <= hi)) by (destruct (N.ltb_spec (snd a) hi); lia). tauto.
    + destruct (IH (lo, hi) B F) as (I1 & I2 & (b & t & E & EB) & I3 & I4); [split; assumption|].
      split; [constructor; assumption|]. split; [cbn [separated]; rewrite E; cbn [fst] in EB; split; [rewrite EB; exact L|rewrite <- E; exact I2]|]. split; [eauto|].
      split; [|cbn [length]; lia]. intros x. rewrite !(in_ranges_cons a), I3. reflexivity.
Qed.
Lemma clean_all : forall r, Forall okr r -> Forall okr (cleanClass r) /\ separated (cleanClass r) /\ (forall x, in_ranges (cleanClass r) x <-> in_ranges r x) /\ (length (cleanClass r) <= length r)%nat.
Proof.
  intros r F. unfold cleanClass. destruct (sort_all (rev r) (Forall_rev F)) as (S1 & S2 & S3 & S4). rewrite rev_length in S4.
  assert (S5 : forall x, in_ranges (sort (rev r)) x <-> in_ranges r x) by (intros x; rewrite S3; apply in_ranges_rev).
  destruct (sort (rev r)) as [|a l]; [split; [constructor|]; split; [exact I|]; split; [exact S5|cbn [length] in *; lia]|].
  apply Forall_cons_iff in S1. destruct S1 as (A & F'). destruct (merge_all l a A F' S2) as (I1 & I2 & _ & I3 & I4).
  split; [exact I1|]. split; [exact I2|]. split; [intros x; rewrite I3; apply S5|cbn [length] in S4; lia].
Qed.
Lemma gaps_all : forall l next, Forall okr l -> separated l -> (match l with [] => True | a :: _ => next <= fst a end) -> cut next ->
  Forall okr (gaps next l) /\ separated (gaps next l) /\ (forall x, in_ranges (gaps next l) x <-> next <= x /\ x <= 0x10FFFF /\ ~ in_ranges l x) /\ (length (gaps next l) <= S (length l))%nat /\
  match gaps next l with [] => True | b :: _ => next <= fst b end.
Proof.
  induction l as [|(lo, hi) l IH]; intros next F S B C; cbn [gaps]; unfold max_rune.
  - destruct (N.leb_spec next 0x10FFFF) as [L|L].
    + split; [constructor; [unfold okr, cut in *; cbn [fst snd]; lia|constructor]|]. split; [cbn; auto|]. split; [|cbn [length fst]; lia].
      intros x. rewrite in_ranges_cons, !in_ranges_nil. cbn [fst snd]. tauto.
    + split; [constructor|]. split; [exact I|]. split; [|cbn [length]; lia]. intros x. rewrite !in_ranges_nil. lia.
  - apply Forall_cons_iff in F. destruct F as (R & F). pose proof (separated_above l (lo, hi) S F) as AB. destruct S as (S1 & S). destruct R as (R1 & R2 & R3 & R4). cbn [fst snd] in *.
    destruct (IH (hi + 1) F S) as (I1 & I2 & I3 & I4 & I5); [destruct l as [|b l]; [exact I|lia]|exact R4|].
    destruct (N.ltb_spec next lo) as [L|L].
    + split; [constructor; [|exact I1]|].
      { unfold okr. cbn [fst snd]. replace (lo - 1 + 1) with lo by lia. repeat split; auto; lia. }
      split; [cbn [separated]; split; [|exact I2]; destruct (gaps (hi + 1) l); [exact I|cbn [snd]; lia]|]. split; [|cbn [length fst]; lia].
      intros x. rewrite !in_ranges_cons, I3. cbn [fst snd]. split.
      * intros [H|(H1 & H2 & H3)]; (split; [lia|]); (split; [lia|]); intros [D|D]; try lia; [specialize (AB x D); lia|exact (H3 D)].
      * intros (H1 & H2 & H3). destruct (N.lt_ge_cases x lo); [left; lia|]. right. split; [|split; [exact H2|tauto]]. destruct (N.le_gt_cases x hi); [exfalso; apply H3; left; lia|lia].
    + assert (lo = next) by lia. subst lo. split; [exact I1|]. split; [exact I2|]. split; [|split; [cbn [length]; lia|destruct (gaps (hi + 1) l); [exact I|lia]]].
      intros x. rewrite I3, in_ranges_cons. cbn [fst snd]. split.
      * intros (H1 & H2 & H3). split; [lia|]. split; [exact H2|]. intros [D|D]; [lia|exact (H3 D)].
      * intros (H1 & H2 & H3). split; [|split; [exact H2|tauto]]. destruct (N.le_gt_cases x hi); [exfalso; apply H3; left; lia|lia].
Qed.
Lemma sorted_runes : forall l, Forall okr l -> separated l -> sorted_class (runes_of l) /\ forall x, in_class (runes_of l) x <-> in_ranges l x.
Proof.
  induction l as [|(lo, hi) l IH]; intros F S; [split; [constructor|intros x; cbn; rewrite in_ranges_nil; reflexivity]|].
  apply Forall_cons_iff in F. destruct F as ((R1 & R2 & R3 & R4) & F). destruct S as (S1 & S). destruct (IH F S) as (I1 & I2). cbn [fst snd] in *.
  split; [|intros x; rewrite in_ranges_cons; cbn [runes_of flat_map app in_class fst snd]; fold (runes_of l); rewrite I2; reflexivity].
  assert (CL : clear_range lo hi) by (unfold clear_range, cut in *; lia).
  destruct l as [|(lo', hi') l]; cbn [runes_of flat_map app fst snd] in *; [constructor; assumption|]. constructor; [exact R1|exact CL|lia|exact I1].
Qed.
(** Ranges in order are appended as they are. *)
Lemma append_order : forall sf om x r, Forall okr x -> separated (rev r ++ x) -> Forall okr r -> add_class sf om false r x = rev x ++ r.
Proof.
  intros sf om. induction x as [|(lo, hi) x IH]; intros r F S FR; [reflexivity|]. apply Forall_cons_iff in F. destruct F as (O & F).
  assert (E : appendRange r lo hi = (lo, hi) :: r).
  { assert (AB : Forall (fun a => snd a + 1 < lo) r).
    { clear - S FR O. assert (G : forall l y, separated (l ++ y) -> Forall okr l -> match y with [] => True | b :: _ => okr b -> Forall (fun a => snd a + 1 < fst b) l end).
      { induction l as [|a l IHl]; intros y SY F; [destruct y; [exact I|constructor]|]. destruct y as [|b y]; [exact I|]. intros OB. apply Forall_cons_iff in F. destruct F as (A & F).
        destruct SY as (S1 & SY). specialize (IHl (b :: y) SY F OB). constructor; [|exact IHl]. destruct l as [|c l]; cbn [app] in S1; [exact S1|].
        apply Forall_cons_iff in IHl. apply Forall_cons_iff in F. destruct F as ((C & _) & _). lia. }
      specialize (G _ _ S (Forall_rev FR) O). apply Forall_rev in G. rewrite rev_involutive in G. exact G. }
    destruct r as [|(a, b) r]; [reflexivity|]. apply Forall_cons_iff in AB. destruct AB as (A1 & AB). cbn [appendRange fst snd] in *.
    assert (T : forall a b, b + 1 < lo -> touches lo hi a b = false) by (intros a0 b0 L; unfold touches; replace (lo <=? b0 + 1) with false by (symmetry; apply N.leb_gt, L); reflexivity).
    rewrite (T a b A1). destruct r as [|(a', b') r]; [reflexivity|]. apply Forall_cons_iff in AB. cbn [snd] in AB. rewrite (T a' b') by apply AB. reflexivity. }
  unfold add_class in *. cbn [fold_left add_range fst snd]. rewrite E. rewrite IH; [cbn [rev]; rewrite <- app_assoc; reflexivity|exact F| |constructor; assumption].
  cbn [rev]. rewrite <- app_assoc. exact S.
Qed.

(** ** Case *)
Section Fold.
Variable sf : N -> N.
Variable om : nat.
Hypothesis FO : folding sf om.

Lemma same_zone : forall y x, same_letter sf y x -> y = x \/ (0x41 <= y <= 0x1e943 /\ 0x41 <= x <= 0x1e943).
Proof.
  intros y x S. destruct (N.eq_dec y x) as [E|NE]; [left; exact E|]. right.
  assert (Z : forall a b, same_letter sf a b -> a <> b -> 0x41 <= a <= 0x1e943).
  { intros a b S' NE'. destruct (N.lt_ge_cases a 0x41) as [L|L].
    - exfalso. apply NE'. symmetry. eapply same_fixed; [|exact S']. apply (fo_low _ _ FO), L.
    - destruct (N.lt_ge_cases 0x1e943 a) as [G|G]; [|lia]. exfalso. apply NE'. symmetry. eapply same_fixed; [|exact S']. apply (fo_high _ _ FO), G. }
  split; [apply (Z y x S NE)|]. apply (Z x y); [apply (same_sym sf om FO), S|congruence].
Qed.
Lemma orbit_len : forall n r0 r, (length (orbit sf n r0 r) <= n)%nat.
Proof. induction n as [|n IH]; intros r0 r; cbn [orbit]; [cbn; lia|]. destruct (sf r =? r0); cbn [length]; [lia|]. specialize (IH r0 (sf r)). lia. Qed.
Lemma singles_ok : forall l R, Forall okr R -> Forall far l -> let R' := fold_left (fun R f => appendRange R f f) l R in
  Forall okr R' /\ (forall x, in_ranges R' x <-> in_ranges R x \/ In x l) /\ (length R' <= length R + length l)%nat.
Proof.
  induction l as [|a l IH]; intros R F L; cbv zeta; cbn [fold_left]; [split; [exact F|split; [cbn [In]; tauto|cbn [length]; lia]]|]. apply Forall_cons_iff in L. destruct L as (A & L).
  destruct (append_ok R a a F (far_one a A)) as (F1 & H1 & L1). destruct (IH _ F1 L) as (F2 & H2 & L2). split; [exact F2|]. split; [|cbn [length]; lia].
  intros x. rewrite H2, H1. cbn [In]. split; [intros [[X|X]|X]|intros [X|[X|X]]]; auto; [right; left; lia|left; right; lia].
Qed.
Definition variants_far (c : N) : Prop := forall x, same_letter sf c x -> far x.
Lemma folds_ok : forall r c, Forall okr r -> variants_far c -> Forall okr (append_folds sf om r c) /\
  (forall x, in_ranges (append_folds sf om r c) x <-> in_ranges r x \/ same_letter sf c x) /\ (length (append_folds sf om r c) <= length r + S om)%nat.
Proof.
  intros r c F V. unfold append_folds. rewrite append_orbit_fold. destruct (append_ok r c c F (far_one c (V c (same_refl sf c)))) as (F1 & H1 & L1).
  destruct (singles_ok (orbit sf om c c) _ F1) as (F2 & H2 & L2). { apply Forall_forall. intros x I. apply V. eapply orbit_same, I. }
  cbv zeta in *. split; [exact F2|]. split; [|pose proof (orbit_len om c c); lia]. intros x. rewrite H2, H1. split.
  - intros [[X|X]|X]; [left; exact X| |right; eapply orbit_same, X]. right. replace x with c by lia. apply same_refl.
  - intros [X|X]; [left; left; exact X|]. destruct (same_in_orbit sf om c x (fo_cycle _ _ FO c) X) as [->|I]; [left; right; lia|right; exact I].
Qed.
Lemma many_folds : forall cs r, Forall okr r -> Forall variants_far cs -> Forall okr (fold_left (append_folds sf om) cs r) /\
  (forall x, in_ranges (fold_left (append_folds sf om) cs r) x <-> in_ranges r x \/ exists c, In c cs /\ same_letter sf c x) /\
  (length (fold_left (append_folds sf om) cs r) <= length r + length cs * S om)%nat.
Proof.
  induction cs as [|c cs IH]; intros r F V; cbn [fold_left].
  - split; [exact F|]. split; [|cbn [length]; lia]. intros x. split; [auto|]. intros [X|(c & [] & _)]. exact X.
  - apply Forall_cons_iff in V. destruct V as (V1 & V). destruct (folds_ok r c F V1) as (F1 & H1 & L1). destruct (IH _ F1 V) as (F2 & H2 & L2).
    split; [exact F2|]. split; [|cbn [length]; lia]. intros x. rewrite H2, H1. split.
    + intros [[X|X]|(c' & I & X)]; [auto|right; exists c; split; [left; reflexivity|exact X]|right; exists c'; split; [right; exact I|exact X]].
    + intros [X|(c' & [<-|I] & X)]; [auto|left; right; exact X|right; eauto].
Qed.
Lemma folded_ok : forall r lo hi, Forall okr r -> lo <= hi -> (forall y, lo <= y -> y <= hi -> variants_far y) -> Forall okr (folded_range sf om r lo hi) /\
  (forall x, in_ranges (folded_range sf om r lo hi) x <-> in_ranges r x \/ exists y, (lo <= y <= hi) /\ same_letter sf y x) /\
  (length (folded_range sf om r lo hi) <= length r + N.to_nat (hi + 1 - lo) * S om)%nat.
Proof.
  intros r lo hi F LE V. unfold folded_range, min_fold, max_fold.
  assert (FAR : forall y, lo <= y -> y <= hi -> far y) by (intros y A B; apply (V y A B), same_refl).
  assert (PLAIN : (lo <= 0x41 /\ 0x1e943 <= hi) \/ hi < 0x41 \/ 0x1e943 < lo -> Forall okr (appendRange r lo hi) /\
    (forall x, in_ranges (appendRange r lo hi) x <-> in_ranges r x \/ exists y, (lo <= y <= hi) /\ same_letter sf y x) /\ (length (appendRange r lo hi) <= length r + N.to_nat (hi + 1 - lo) * S om)%nat).
  { intros Z. destruct (append_ok r lo hi F) as (F1 & H1 & L1); [apply far_two; auto; apply FAR; lia|]. split; [exact F1|]. split; [|nia].
    intros x. rewrite H1. split; [intros [X|X]; [auto|right; exists x; split; [lia|apply same_refl]]|]. intros [X|(y & Y & S)]; [auto|]. right. destruct (same_zone y x S) as [<-|W]; lia. }
  destruct ((lo <=? 0x41) && (0x1e943 <=? hi)) eqn:E1; [apply PLAIN; apply andb_true_iff in E1; rewrite !N.leb_le in E1; lia|].
  destruct ((hi <? 0x41) || (0x1e943 <? lo)) eqn:E2; [apply PLAIN; apply orb_true_iff in E2; rewrite !N.ltb_lt in E2; lia|].
  apply orb_false_iff in E2. rewrite !N.ltb_ge in E2. clear PLAIN.
  assert (S1 : exists r1 lo1, (if lo <? 0x41 then (appendRange r lo (0x41 - 1), 0x41) else (r, lo)) = (r1, lo1) /\ Forall okr r1 /\ lo <= lo1 <= hi /\
    (forall x, in_ranges r1 x <-> in_ranges r x \/ (lo <= x /\ x < lo1)) /\ (lo1 = lo \/ lo1 = 0x41) /\ (length r1 <= length r + N.to_nat (lo1 - lo) * S om)%nat).
  { destruct (N.ltb_spec lo 0x41) as [L|L].
    - destruct (append_ok r lo (0x41 - 1) F) as (F1 & H1 & L1); [apply far_two; [apply FAR; lia|apply FAR; lia|lia]|]. eexists _, _. split; [reflexivity|]. split; [exact F1|]. split; [lia|]. split; [|split; [auto|nia]].
      intros x. rewrite H1. split; (intros [X|X]; [left; exact X|right; lia]).
    - exists r, lo. split; [reflexivity|]. split; [exact F|]. split; [lia|]. split; [|split; [auto|lia]]. intros x. split; [auto|]. intros [X|X]; [exact X|lia]. }
  destruct S1 as (r1 & lo1 & -> & F1 & B1 & H1 & Z1 & L1).
  assert (S2 : exists r2 hi2, (if 0x1e943 <? hi then (appendRange r1 (0x1e943 + 1) hi, 0x1e943) else (r1, hi)) = (r2, hi2) /\ Forall okr r2 /\ lo1 <= hi2 <= hi /\
    (forall x, in_ranges r2 x <-> in_ranges r1 x \/ (hi2 < x /\ x <= hi)) /\ (hi2 = hi \/ hi2 = 0x1e943) /\ (length r2 <= length r1 + N.to_nat (hi - hi2) * S om)%nat).
  { destruct (N.ltb_spec 0x1e943 hi) as [L|L].
    - destruct (append_ok r1 (0x1e943 + 1) hi F1) as (F2 & H2 & L2); [apply far_two; [apply FAR; lia|apply FAR; lia|lia]|]. eexists _, _. split; [reflexivity|]. split; [exact F2|]. split; [lia|]. split; [|split; [auto|nia]].
      intros x. rewrite H2. split; (intros [X|X]; [left; exact X|right; lia]).
    - exists r1, hi. split; [reflexivity|]. split; [exact F1|]. split; [lia|]. split; [|split; [auto|lia]]. intros x. split; [auto|]. intros [X|X]; [exact X|lia]. }
  destruct S2 as (r2 & hi2 & -> & F2 & B2 & H2 & Z2 & L2).
  destruct (many_folds (runes_between lo1 hi2) r2 F2) as (F3 & H3 & L3). { apply Forall_forall. intros y I. apply runes_between_in in I. apply V; lia. }
  split; [exact F3|]. split; [|rewrite runes_between_len in L3; nia]. intros x. rewrite H3, H2, H1. split.
  - intros [[[X|X]|X]|(c & I & S)]; [auto| | |].
    + right. exists x. split; [lia|apply same_refl].
    + right. exists x. split; [lia|apply same_refl].
    + apply runes_between_in in I. right. exists c. split; [lia|exact S].
  - intros [X|(y & Y & S)]; [auto|]. destruct (N.lt_ge_cases y lo1) as [A|A]; [|destruct (N.lt_ge_cases hi2 y) as [B|B]].
    + left. left. right. destruct (same_zone y x S) as [<-|W]; lia.
    + left. right. destruct (same_zone y x S) as [<-|W]; lia.
    + right. exists y. split; [apply runes_between_in; lia|exact S].
Qed.

(** ** Members *)
Variable ic : bool.
Definition room (m : member) : nat := if ic then (N.to_nat (width m) * S om)%nat else 5%nat.
Lemma add_range_ok : forall r lo hi, Forall okr r -> lo <= hi -> (if ic then forall y, lo <= y -> y <= hi -> variants_far y else far lo /\ far hi) ->
  Forall okr (add_range sf om ic r lo hi) /\ (forall x, in_ranges (add_range sf om ic r lo hi) x <-> in_ranges r x \/ exists y, (lo <= y <= hi) /\ same sf ic y x) /\
  (length (add_range sf om ic r lo hi) <= length r + (if ic then N.to_nat (hi + 1 - lo) * S om else 1))%nat.
Proof.
  intros r lo hi F LE V. unfold add_range, same. destruct ic; [apply folded_ok; assumption|].
  destruct (append_ok r lo hi F) as (F1 & H1 & L1); [apply far_two; tauto|]. split; [exact F1|]. split; [|lia]. intros x. rewrite H1.
  split; (intros [X|X]; [left; exact X|right]); [exists x; split; [lia|reflexivity]|destruct X as (y & Y & ->); lia].
Qed.
Definition perl_ranges (k : kind) : list (N * N) :=
  match k with
  | KDigit => [(0x30, 0x39)] | KSpace => [(0x9, 0xa); (0xc, 0xd); (0x20, 0x20)] | KWord => [(0x30, 0x39); (0x41, 0x5a); (0x5f, 0x5f); (0x61, 0x7a)]
  | KAlnum => [(0x30, 0x39); (0x41, 0x5a); (0x61, 0x7a)] | KAlpha => [(0x41, 0x5a); (0x61, 0x7a)] | KAscii => [(0x0, 0x7f)] | KBlank => [(0x9, 0x9); (0x20, 0x20)]
  | KCntrl => [(0x0, 0x1f); (0x7f, 0x7f)] | KGraph => [(0x21, 0x7e)] | KLower => [(0x61, 0x7a)] | KPrint => [(0x20, 0x7e)]
  | KPunct => [(0x21, 0x2f); (0x3a, 0x40); (0x5b, 0x60); (0x7b, 0x7e)] | KWhite => [(0x9, 0xd); (0x20, 0x20)] | KUpper => [(0x41, 0x5a)] | KHex => [(0x30, 0x39); (0x41, 0x46); (0x61, 0x66)]
  end.
Lemma perl_known : forall c k neg, In (c, (k, neg)) kinds -> perl_group c = Some (perl_ranges k, neg) /\ position c = None /\ left_out c = false /\ c <> 81.
Proof. intros c k neg I. unfold kinds in I. cbn [In] in I. repeat (destruct I as [E|I]; [injection E as <- <- <-; repeat split; discriminate|]). destruct I. Qed.
Lemma perl_ok : forall k, Forall okr (perl_ranges k) /\ separated (perl_ranges k) /\ (forall x, in_ranges (perl_ranges k) x <-> of_kind k x) /\ (length (perl_ranges k) <= 4)%nat.
Proof.
  intros k. split; [|split; [|split]].
  - destruct k; unfold perl_ranges, okr, cut; repeat constructor; cbn [fst snd]; lia.
  - destruct k; cbn; lia.
  - intros x. destruct k; cbn [perl_ranges]; rewrite !in_ranges_cons, in_ranges_nil; cbn [fst snd of_kind In]; unfold word_byte, letter_or_digit; lia.
  - destruct k; cbn; lia.
Qed.
Lemma append_all : forall x r, Forall okr x -> Forall okr r -> Forall okr (add_class sf om false r x) /\
  (forall y, in_ranges (add_class sf om false r x) y <-> in_ranges r y \/ in_ranges x y) /\ (length (add_class sf om false r x) <= length r + length x)%nat.
Proof.
  unfold add_class. induction x as [|(lo, hi) x IH]; intros r FX F; cbn [fold_left].
  - split; [exact F|]. split; [intros y; rewrite (in_ranges_nil y); tauto|cbn [length]; lia].
  - apply Forall_cons_iff in FX. destruct FX as (O & FX). change (add_range sf om false r (fst (lo, hi)) (snd (lo, hi))) with (appendRange r lo hi). destruct (append_ok r lo hi F O) as (F1 & H1 & L1). destruct (IH _ FX F1) as (F2 & H2 & L2).
    split; [exact F2|]. split; [|cbn [length]; lia]. intros y. rewrite H2, H1, (in_ranges_cons (lo, hi)). cbn [fst snd]. tauto.
Qed.
Fixpoint widths (x : list (N * N)) : nat := match x with [] => 0%nat | lh :: x => (N.to_nat (snd lh + 1 - fst lh) + widths x)%nat end.
Lemma fold_all : forall x r, Forall proper x -> (forall y, in_ranges x y -> variants_far y) -> Forall okr r -> Forall okr (add_class sf om true r x) /\
  (forall z, in_ranges (add_class sf om true r x) z <-> in_ranges r z \/ exists y, in_ranges x y /\ same_letter sf y z) /\ (length (add_class sf om true r x) <= length r + widths x * S om)%nat.
Proof.
  unfold add_class. induction x as [|(lo, hi) x IH]; intros r FX V F; cbn [fold_left].
  - split; [exact F|]. split; [|cbn [widths]; lia]. intros z. split; [auto|]. intros [X|(y & Y & _)]; [exact X|]. apply in_ranges_nil in Y. destruct Y.
  - apply Forall_cons_iff in FX. destruct FX as (O & FX). change (add_range sf om true r (fst (lo, hi)) (snd (lo, hi))) with (folded_range sf om r lo hi). destruct (folded_ok r lo hi F O) as (F1 & H1 & L1). { intros y A B. apply V, in_ranges_cons. left. auto. }
    destruct (IH (folded_range sf om r lo hi) FX) as (F2 & H2 & L2); [intros y Y; apply V, in_ranges_cons; right; exact Y|exact F1|].
    split; [exact F2|]. split; [|cbn [widths fst snd]; lia]. intros z. rewrite H2, H1. split.
    + intros [[X|(y & Y & S)]|(y & Y & S)]; [auto| |]; right; exists y; (split; [|exact S]); apply in_ranges_cons; [left|right]; assumption.
    + intros [X|(y & Y & S)]; [auto|]. apply in_ranges_cons in Y. cbn [fst snd] in Y. destruct Y as [Y|Y]; [left; right; eauto|right; eauto].
Qed.
Lemma group_ok : forall k neg, (ic = true -> forall y, of_kind k y -> variants_far y) -> exists x, (forall r, add_group sf om ic r (perl_ranges k, neg) = add_class sf om false r x) /\
  Forall okr x /\ separated x /\ (forall z, z <= 0x10FFFF -> (in_ranges x z <-> stands_for sf ic (MKind k neg) z)) /\ (length x <= room (MKind k neg))%nat.
Proof.
  intros k neg V. destruct (perl_ok k) as (P1 & P2 & P3 & P4).
  assert (X : exists x, (forall r, add_group sf om ic r (perl_ranges k, neg) = add_class sf om false r (if neg then gaps 0 x else x)) /\ Forall okr x /\ separated x /\
    (forall z, in_ranges x z <-> exists y, of_kind k y /\ same sf ic y z) /\ (S (length x) <= room (MKind k neg))%nat).
  { unfold room, same. destruct ic.
    - destruct (fold_all (perl_ranges k) [] (okr_proper _ P1)) as (F1 & F2 & F3); [intros y Y; apply (V eq_refl), P3, Y|constructor|].
      destruct (clean_all _ F1) as (C1 & C2 & C3 & C4). exists (cleanClass (add_class sf om true [] (perl_ranges k))). split; [intros r; cbn [add_group]; destruct neg; reflexivity|].
      split; [exact C1|]. split; [exact C2|]. split.
      + intros z. rewrite C3, F2, in_ranges_nil. split; [intros [[]|(y & Y & S)]; exists y; split; [apply P3, Y|exact S]|intros (y & Y & S); right; exists y; split; [apply P3, Y|exact S]].
      + assert (W : (S (widths (perl_ranges k)) <= N.to_nat (width (MKind k neg)))%nat) by (destruct k; vm_compute; lia). cbn [length] in *. nia.
    - exists (perl_ranges k). split; [intros r; cbn [add_group]; destruct neg; reflexivity|]. split; [exact P1|]. split; [exact P2|]. split; [|lia].
      intros z. rewrite P3. split; [intros Z; exists z; auto|intros (y & Y & ->); exact Y]. }
  destruct X as (x & E & X1 & X2 & X3 & X4). destruct neg.
  - exists (gaps 0 x). split; [exact E|]. destruct (gaps_all x 0 X1 X2) as (G1 & G2 & G3 & G4 & _); [destruct x; [exact I|lia]|left; lia|]. split; [exact G1|]. split; [exact G2|]. split; [|lia].
    intros z Z. rewrite G3, X3. cbn [stands_for made_of]. split; [tauto|]. intros N. split; [lia|]. split; [exact Z|exact N].
  - exists x. split; [exact E|]. split; [exact X1|]. split; [exact X2|]. split; [|lia]. intros z _. rewrite X3. reflexivity.
Qed.

(** What a member does to the class. *)
Definition member_ok (m : member) : Prop :=
  if ic then forall r, made_of m r -> variants_far r else match m with MRange lo hi => far lo /\ far hi | _ => True end.
Definition added (m : member) (r r' : list (N * N)) : Prop :=
  Forall okr r' /\ (forall z, z <= 0x10FFFF -> (in_ranges r' z <-> in_ranges r z \/ stands_for sf ic m z)) /\ (length r' <= length r + room m)%nat.
Lemma added_range : forall lo hi r, member_ok (MRange lo hi) -> lo <= hi -> Forall okr r -> added (MRange lo hi) r (add_range sf om ic r lo hi).
Proof.
  intros lo hi r M L F. destruct (add_range_ok r lo hi F L) as (A & B & C). { unfold member_ok in M. destruct ic; [intros y Y1 Y2; apply M; split; assumption|exact M]. }
  split; [exact A|]. split; [intros z _; rewrite B; reflexivity|]. unfold room. cbn [width]. destruct ic; lia.
Qed.
Lemma added_kind : forall k neg r, member_ok (MKind k neg) -> Forall okr r -> added (MKind k neg) r (add_group sf om ic r (perl_ranges k, neg)).
Proof.
  intros k neg r M F. destruct (group_ok k neg) as (x & E & X1 & _ & X3 & X4). { intros EI y Y. unfold member_ok in M. rewrite EI in M. apply M. exact Y. }
  rewrite E. destruct (append_all x r X1 F) as (A & B & C). split; [exact A|]. split; [intros z Z; rewrite B, (X3 z Z); reflexivity|lia].
Qed.

(** ** Reading a class *)
Lemma class_char_nonempty : forall r s, class_char r s -> exists c s', s = c :: s' /\ c <> 93 /\ c <> 45 /\ c <> 94 /\ c <> 91.
Proof.
  intros r s C. inversion C as [r' bs U NM|r' L NL|c r' I|r' s' NU]; subst; try (exists 92; eexists; split; [reflexivity|]; repeat split; discriminate).
  destruct s as [|b bs]; [inversion U|]. exists b, bs. split; [reflexivity|]. destruct (N.lt_ge_cases r 0x80) as [L|G].
  - assert (b = r) by (inversion U; subst; try reflexivity; lia). subst b. unfold class_metachars in NM. cbn [In] in NM. repeat split; intros ->; apply NM; auto 6.
  - pose proof (Forall_inv (high_bytes r _ U G)) as H. cbn in H. repeat split; lia.
Qed.
Lemma escape_read : forall r t, r < 0x80 -> ~ letter_or_digit r -> parseEscape (r :: t) = Parsed (r, t) /\ perl_group r = None /\ left_out r = false.
Proof.
  intros r t L NL. assert (A : alnum r = false) by (unfold alnum; unfold letter_or_digit in NL; apply orb_false_iff; split; [apply orb_false_iff; split|]; apply andb_false_iff; rewrite !N.leb_gt; lia).
  split; [apply escape_plain; assumption|]. destruct (not_alnum r A) as (_ & _ & G & LO & _). auto.
Qed.
(** Numbers. *)
Lemma hex_read : forall c v, hex_digit c v -> hex_val c = Some v /\ v < 16 /\ c < 0x80 /\ c <> 125 /\ c <> 123.
Proof.
  intros c v H. unfold hex_digit in H. split; [|lia]. unfold hex_val.
  destruct (N.leb_spec 48 c), (N.leb_spec c 57), (N.leb_spec 97 c), (N.leb_spec c 102), (N.leb_spec 65 c), (N.leb_spec c 70); cbn [andb]; try (f_equal; lia); exfalso; lia.
Qed.
Lemma grows : forall vs r, r <= fold_left (fun r v => 16 * r + v) vs r.
Proof. induction vs as [|v vs IH]; intros r; cbn [fold_left]; [lia|]. specialize (IH (16 * r + v)). lia. Qed.
Lemma braces_read : forall s vs, Forall2 hex_digit s vs -> forall fuel r some t, (length s < fuel)%nat -> fold_left (fun r v => 16 * r + v) vs r <= 0x10FFFF -> some = true \/ s <> [] ->
  hex_digits fuel (s ++ 125 :: t) r some = Parsed (fold_left (fun r v => 16 * r + v) vs r, t).
Proof.
  induction 1 as [|c v s vs H _ IH]; intros fuel r some t L M NE; (destruct fuel as [|fuel]; [lia|]).
  - cbn [app hex_digits]. rewrite next_ascii by reflexivity. cbn [andthen N.eqb Pos.eqb fold_left]. destruct NE as [->|NE]; [reflexivity|congruence].
  - cbn [app]. cbn [hex_digits]. destruct (hex_read c v H) as (E & V & LC & N1 & _). rewrite (next_ascii c _ LC). cbn [andthen]. rewrite (proj2 (N.eqb_neq _ _) N1), E. cbn [fold_left] in *.
    pose proof (grows vs (16 * r + v)). replace (r * 16 + v) with (16 * r + v) by lia. replace (max_rune <? 16 * r + v) with false by (symmetry; apply N.ltb_ge; unfold max_rune; lia).
    apply IH; [cbn [length] in L; lia|exact M|left; reflexivity].
Qed.
Lemma number_read : forall r s, number r s -> (forall t, parseEscape (s ++ t) = Parsed (r, t)) /\ scalar r /\
  exists c s', s = c :: s' /\ position c = None /\ perl_group c = None /\ left_out c = false /\ c <> 81.
Proof.
  intros r s H. destruct H as [a b x y A B|s vs r F NE E SC|a b c x y z (A & ->) (B & ->) (C & ->)].
  - destruct (hex_read a x A) as (EA & LA & CA & _ & NA). destruct (hex_read b y B) as (EB & LB & CB & _). split; [|split; [unfold scalar; lia|exists 120, [a; b]; repeat split; discriminate]].
    intros t. cbn [app parseEscape]. rewrite next_ascii by reflexivity. cbn [andthen control N.eqb Pos.eqb orb N.leb N.compare Pos.compare Pos.compare_cont andb].
    rewrite (next_ascii a _ CA). cbn [andthen]. rewrite (proj2 (N.eqb_neq _ _) NA), (next_ascii b _ CB). cbn [andthen]. rewrite EA, EB. f_equal. f_equal. lia.
  - split; [|split; [exact SC|eexists 120, _; split; [reflexivity|repeat split; discriminate]]]. intros t. rewrite <- !app_assoc. cbn [app parseEscape]. rewrite next_ascii by reflexivity.
    cbn [andthen control N.eqb Pos.eqb orb N.leb N.compare Pos.compare Pos.compare_cont andb]. rewrite next_ascii by reflexivity. cbn [andthen N.eqb Pos.eqb].
    rewrite (braces_read s vs F); [rewrite E; reflexivity|rewrite app_length; cbn [length]; lia|rewrite <- E; unfold scalar in SC; lia|right; exact NE].
  - assert (X : control a = None /\ position a = None /\ perl_group a = None /\ left_out a = false /\ a <> 81).
    { unfold control, position, perl_group, left_out. cbn [existsb]. repeat match goal with |- context [a =? ?k] => destruct (N.eqb_spec a k); [exfalso; lia|] end. repeat split; auto. lia. }
    destruct X as (X1 & X2 & X3 & X4 & X5). split; [|split; [unfold scalar; lia|exists a, [b; c]; repeat split; assumption]].
    assert (OB : (48 <=? b) && (b <=? 55) = true) by (apply andb_true_iff; rewrite !N.leb_le; lia). assert (OC : (48 <=? c) && (c <=? 55) = true) by (apply andb_true_iff; rewrite !N.leb_le; lia).
    intros t. cbn [app parseEscape]. rewrite (next_ascii a) by lia. cbn [andthen]. rewrite X1.
    assert (OA : (a =? 48) || ((49 <=? a) && (a <=? 55) && octal (b :: c :: t)) = true).
    { cbn [octal]. rewrite OB. destruct (N.eqb_spec a 48); [reflexivity|]. cbn [orb]. rewrite (proj2 (N.leb_le 49 a)) by lia. rewrite (proj2 (N.leb_le a 55)) by lia. reflexivity. }
    rewrite OA. cbn [octal_digits octal]. rewrite OB. cbn [octal]. rewrite OC. f_equal. f_equal. lia.
Qed.
Lemma class_char_read : forall r s t, class_char r s -> parseClassChar (s ++ t) = Parsed (r, t) /\ perl_escape (s ++ t) = None /\ unicode_escape (s ++ t) = false.
Proof.
  assert (LO : forall c t, left_out c = false -> unicode_escape (92 :: c :: t) = false).
  { intros c t L. unfold left_out in L. cbn [existsb unicode_escape N.eqb Pos.eqb andb] in *. apply orb_false_iff in L. destruct L as (L1 & L). apply orb_false_iff in L. destruct L as (L2 & _). rewrite L1, L2. reflexivity. }
  intros r s t C. inversion C as [r' bs U NM|r' L NL|c r' I|r' s' NU]; subst.
  - destruct s as [|b bs]; [inversion U|]. assert (NB : (b =? 92) = false).
    { apply N.eqb_neq. intros ->. destruct (N.lt_ge_cases r 0x80) as [L|G].
      - assert (92 = r) by (inversion U; subst; try reflexivity; lia). subst r. apply NM. left. reflexivity.
      - pose proof (Forall_inv (high_bytes r _ U G)) as H. cbn in H. lia. }
    split; [|split].
    + change ((b :: bs) ++ t) with (b :: (bs ++ t)). cbn [parseClassChar]. rewrite NB. change (b :: bs ++ t) with ((b :: bs) ++ t). apply next_utf8, U.
    + cbn [app perl_escape]. destruct (bs ++ t); [reflexivity|]. rewrite NB. reflexivity.
    + cbn [app unicode_escape]. destruct (bs ++ t); [reflexivity|]. rewrite NB. reflexivity.
  - destruct (escape_read r t L NL) as (A & B & D). cbn [app parseClassChar perl_escape N.eqb Pos.eqb]. split; [exact A|]. split; [exact B|]. apply LO, D.
  - cbn [app parseClassChar perl_escape N.eqb Pos.eqb]. unfold controls in I. cbn [In] in I.
    repeat (destruct I as [E|I]; [injection E as <- <-; split; [cbn [parseEscape]; rewrite next_ascii by reflexivity; reflexivity|split; reflexivity]|]). destruct I.
  - destruct (number_read _ _ NU) as (R & _ & c & s2 & -> & _ & G & L & _). specialize (R t). cbn [app parseClassChar perl_escape N.eqb Pos.eqb] in *. split; [exact R|]. split; [exact G|apply LO, L].
Qed.
Lemma not_named : forall t c, c <> 91 -> parseNamedClass (c :: t) = None.
Proof. intros t c N. unfold parseNamedClass. cbn [GoStr.has_prefix]. destruct (N.eqb_spec 91 c); [congruence|reflexivity]. Qed.
Lemma named_read : forall n k (neg : bool) t, In (n, k) names -> parseNamedClass ([91; 58] ++ (if neg then [94] else []) ++ n ++ [58; 93] ++ t) = Some (Some ((perl_ranges k, neg), t)).
Proof.
  intros n k neg t I. unfold names in I. cbn [In] in I. repeat (destruct I as [E|I]; [injection E as <- <-; destruct neg; destruct t; reflexivity|]). destruct I.
Qed.
(** Whether a range follows. *)
Definition follows (t : str) : bool := GoStr.has_prefix t [45] && Nat.leb 2 (length t) && negb (GoStr.has_prefix (skipn 1 t) [93]).
Lemma loop_end : forall fuel t r, class_loop sf om (S fuel) ic (93 :: t) false r = Parsed (r, t).
Proof. intros fuel t r. cbn [class_loop]. replace (GoStr.has_prefix (93 :: t) [93] && negb false) with true; [reflexivity|]. destruct t; reflexivity. Qed.
Lemma prefix_char : forall c d t, c <> d -> GoStr.has_prefix (c :: t) [d] = false.
Proof. intros c d t NE. cbn [GoStr.has_prefix]. destruct (N.eqb_spec d c) as [->|]; [congruence|reflexivity]. Qed.
Lemma loop_member : forall m s, class_member m s -> member_ok m -> forall fuel t first r, Forall okr r -> follows t = false -> exists r', added m r r' /\
  class_loop sf om (S fuel) ic (s ++ t) first r = class_loop sf om fuel ic t false r'.
Proof.
  intros m s C OK fuel t first r F FT. destruct C as [x s CC|lo hi s s' C1 C2 LE|c k neg I|n k neg I].
  - exists (add_range sf om ic r x x). split; [apply added_range; [exact OK|lia|exact F]|]. destruct (class_char_nonempty _ _ CC) as (b & s' & E & N1 & N2 & N3 & N4).
    destruct (class_char_read x s t CC) as (R & P & UE).
    assert (H93 : GoStr.has_prefix (s ++ t) [93] = false) by (rewrite E; cbn [app]; apply prefix_char, N1).
    assert (H91 : parseNamedClass (s ++ t) = None) by (rewrite E; apply not_named, N4).
    cbn [class_loop]. rewrite P, R, H93, H91, UE.
    cbn [andb andthen]. unfold follows in FT. rewrite FT. reflexivity.
  - exists (add_range sf om ic r lo hi). split; [apply added_range; [exact OK|exact LE|exact F]|]. destruct (class_char_nonempty _ _ C1) as (b & s1 & E & N1 & N2 & N3 & N4).
    destruct (class_char_nonempty _ _ C2) as (b2 & s2 & E2 & M1 & _). rewrite <- app_assoc. cbn [app].
    destruct (class_char_read lo s (45 :: s' ++ t) C1) as (R & P & UE). destruct (class_char_read hi s' t C2) as (R2 & _).
    assert (H93 : GoStr.has_prefix (s ++ 45 :: s' ++ t) [93] = false) by (rewrite E; cbn [app]; apply prefix_char, N1).
    assert (H91 : parseNamedClass (s ++ 45 :: s' ++ t) = None) by (rewrite E; apply not_named, N4).
    assert (HF : follows (45 :: s' ++ t) = true). { unfold follows. cbn [skipn]. rewrite E2. cbn [app length Nat.leb]. rewrite (prefix_char b2 93) by exact M1. reflexivity. }
    cbn [class_loop]. rewrite P, R, H93, H91, UE. cbn [andb andthen]. unfold follows in HF. rewrite HF. cbn [skipn]. rewrite R2. cbn [andthen].
    replace (hi <? lo) with false by (symmetry; apply N.ltb_ge; exact LE). reflexivity.
  - exists (add_group sf om ic r (perl_ranges k, neg)). split; [apply added_kind; assumption|]. destruct (perl_known c k neg I) as (E & _ & _).
    assert (UE : unicode_escape (92 :: c :: t) = false) by (unfold kinds in I; cbn [In] in I; repeat (destruct I as [EI|I]; [injection EI as <- _ _; reflexivity|]); destruct I).
    cbn [app class_loop perl_escape N.eqb Pos.eqb]. rewrite not_named by discriminate. rewrite UE, E. rewrite prefix_char by discriminate. reflexivity.
  - exists (add_group sf om ic r (perl_ranges k, neg)). split; [apply added_kind; assumption|].
    rewrite <- !app_assoc. cbn [class_loop]. rewrite (named_read n k neg t I). cbn [app]. rewrite prefix_char by discriminate. reflexivity.
Qed.
Lemma member_start : forall m s, class_member m s -> exists c s', s = c :: s' /\ c <> 45 /\ c <> 94.
Proof.
  intros m s C. destruct C as [x s CC|lo hi s s' C1 C2 LE|c k neg I|n k neg I].
  - destruct (class_char_nonempty _ _ CC) as (b & s' & E & N1 & N2 & N3 & _). eauto 6.
  - destruct (class_char_nonempty _ _ C1) as (b & s1 & E & N1 & N2 & N3 & _). subst s. cbn [app]. eauto 6.
  - eexists 92, _. split; [reflexivity|]. split; discriminate.
  - eexists 91, _. split; [reflexivity|]. split; discriminate.
Qed.
Lemma members_start : forall ms s, class_members ms s -> exists c s', s = c :: s' /\ c <> 45 /\ c <> 94.
Proof.
  intros ms s C. destruct C as [m s C|m s C|m ms s t C _]; destruct (member_start m s C) as (c & s' & -> & A & B); cbn [app]; eauto 6.
Qed.
Definition all_added (ms : list member) (r r' : list (N * N)) : Prop :=
  Forall okr r' /\ (forall z, z <= 0x10FFFF -> (in_ranges r' z <-> in_ranges r z \/ exists m, In m ms /\ stands_for sf ic m z)) /\ (length r' <= length r + fold_right Nat.add 0 (map room ms))%nat.
Lemma all_one : forall m r r', added m r r' -> all_added [m] r r'.
Proof.
  intros m r r' (A & B & C). split; [exact A|]. split; [|cbn [map fold_right]; lia]. intros z Z. rewrite (B z Z). split; (intros [X|X]; [left; exact X|right]); [exists m; split; [left; reflexivity|exact X]|].
  destruct X as (m' & [<-|[]] & X). exact X.
Qed.
Lemma all_more : forall m ms r r1 r2, added m r r1 -> all_added ms r1 r2 -> all_added (m :: ms) r r2.
Proof.
  intros m ms r r1 r2 (A & B & C) (A' & B' & C'). split; [exact A'|]. split; [|cbn [map fold_right]; lia]. intros z Z. rewrite (B' z Z), (B z Z). split.
  - intros [[X|X]|(m' & I & X)]; [auto|right; exists m; split; [left; reflexivity|exact X]|right; exists m'; split; [right; exact I|exact X]].
  - intros [X|(m' & [<-|I] & X)]; [auto|auto|right; eauto].
Qed.
Lemma loop_members : forall ms s, class_members ms s -> Forall member_ok ms -> forall fuel t first r, (length (s ++ 93%N :: t) <= fuel)%nat -> Forall okr r -> exists r', all_added ms r r' /\
  class_loop sf om fuel ic (s ++ 93 :: t) first r = Parsed (r', t).
Proof.
  assert (NF : forall t, follows (93 :: t) = false) by (intros t; unfold follows; rewrite prefix_char by discriminate; reflexivity).
  induction 1 as [m s C|m s C|m ms s t0 C CS IH]; intros OK fuel t first r L F; rewrite app_length in L; cbn [length] in L; destruct fuel as [|fuel]; try lia;
    apply Forall_cons_iff in OK; destruct OK as (OK1 & OK); destruct (member_start m s C) as (c0 & s0 & E0 & _).
  - destruct (loop_member m s C OK1 fuel (93 :: t) first r F (NF t)) as (r' & A & E). rewrite E. exists r'. split; [apply all_one, A|]. destruct fuel as [|fuel]; [subst s; cbn [length] in L; lia|]. apply loop_end.
  - rewrite <- app_assoc. cbn [app]. rewrite app_length in L. cbn [length] in L.
    destruct (loop_member m s C OK1 fuel (45 :: 93 :: t) first r F) as (r1 & A1 & E1); [unfold follows; cbn [GoStr.has_prefix skipn]; destruct t; reflexivity|]. rewrite E1.
    destruct fuel as [|fuel]; [lia|]. destruct fuel as [|fuel]; [subst s; cbn [length] in L; lia|].
    exists (add_range sf om ic r1 45 45). split; [eapply all_more; [exact A1|apply all_one, added_range; [apply (Forall_inv OK)|lia|apply A1]]|].
    cbn [class_loop]. rewrite not_named by discriminate. cbn [unicode_escape GoStr.has_prefix N.eqb Pos.eqb andb perl_escape parseClassChar]. rewrite next_ascii by reflexivity. cbn [andthen]. rewrite prefix_char by discriminate. cbn [andb]. apply loop_end.
  - rewrite <- app_assoc. rewrite app_length in L. destruct (members_start _ _ CS) as (c & s' & E & N1 & N2).
    destruct (loop_member m s C OK1 fuel (t0 ++ 93 :: t) first r F) as (r1 & A1 & E1). { subst t0. unfold follows. cbn [app]. rewrite prefix_char by exact N1. reflexivity. }
    rewrite E1. destruct (IH OK fuel t false r1) as (r2 & A2 & E2); [rewrite app_length; subst s; cbn [length] in *; lia|apply A1|]. exists r2. split; [eapply all_more; eassumption|exact E2].
Qed.
End Fold.
