(** For every expression there is a program of rune instructions that matches the same
    lines: what the theorems about compiled expressions assume of syntax.Compile can be
    had. (This is not a model of syntax.Compile; for that see Model/GoRegexp.v.) *)
From Verif Require Import Model.Base Model.Utf8 Model.Syntax Model.Matcher Model.Utf Spec.Utf8Spec Spec.RegexSpec Spec.MatchSpec
  Spec.RuneProgSpec Spec.ExprSpec Spec.ParsedSpec Proofs.ExprLines Proofs.AnalyzeSound.
From Coq Require Import Relations.
Local Open Scope N_scope.

(** ** A smaller language *)
Inductive core :=
| KFail | KEps | KAssert (z : zop) | KStep (f : N -> xinst) | KSeq (a b : core) | KAlt (a b : core) | KStar (a : core).

Section Fold.
Variable sf : N -> N.

Fixpoint kmatch (k : core) (pre w post : str) : Prop :=
  match k with
  | KFail => False
  | KEps => w = []
  | KAssert z => w = [] /\ assertion z pre post
  | KStep f => accepts sf utf8 (f 0) w
  | KSeq a b => exists u v, w = u ++ v /\ kmatch a pre u (v ++ post) /\ kmatch b (pre ++ u) v post
  | KAlt a b => kmatch a pre w post \/ kmatch b pre w post
  | KStar a => exists n, times (kmatch a) n pre w post
  end.

Fixpoint kpow (c : core) (n : nat) (k : core) : core := match n with O => k | S n' => KSeq c (kpow c n' k) end.
Fixpoint kopt (c : core) (n : nat) : core := match n with O => KEps | S n' => KAlt KEps (KSeq c (kopt c n')) end.

Definition lit_step (fold : bool) (r : N) : core := KStep (XRune (negb fold) [r] fold).

Fixpoint core_of (re : regexp) : core :=
  match re with
  | RNoMatch => KFail
  | RZero z => KAssert z
  | RLiteral fold rs => fold_right (fun r k => KSeq (lit_step fold r) k) KEps rs
  | RAnyNotNL => KStep XAnyNotNL
  | RAny => KStep XAny
  | RClass rs => KStep (XRune false rs false)
  | RCapture r => core_of r
  | RStar r => KStar (core_of r)
  | RPlus r => KSeq (core_of r) (KStar (core_of r))
  | RQuest r => KAlt (core_of r) KEps
  | RRepeat min None r => kpow (core_of r) min (KStar (core_of r))
  | RRepeat min (Some max) r => if Nat.leb min max then kpow (core_of r) min (kopt (core_of r) (max - min)) else KFail
  | RConcat l => fold_right (fun r k => KSeq (core_of r) k) KEps l
  | RAlternate l => fold_right (fun r k => KAlt (core_of r) k) KFail l
  end.

Lemma times_ext : forall (P Q : str -> str -> str -> Prop), (forall pre w post, P pre w post <-> Q pre w post) ->
  forall n pre w post, times P n pre w post <-> times Q n pre w post.
Proof.
  intros P Q H. induction n as [|n IH]; intros pre w post; cbn [times]; [reflexivity|].
  split; intros (u & v & E & A & B); exists u, v; (split; [exact E|]); (split; [apply H, A|apply IH, B]).
Qed.
Lemma kpow_match : forall c k n pre w post, kmatch (kpow c n k) pre w post <->
  exists u v, w = u ++ v /\ times (kmatch c) n pre u (v ++ post) /\ kmatch k (pre ++ u) v post.
Proof.
  intros c k. induction n as [|n IH]; intros pre w post; cbn [kpow kmatch times].
  - split.
    + intros M. exists [], w. rewrite app_nil_r. auto.
    + intros (u & v & -> & -> & M). rewrite app_nil_r in M. exact M.
  - split.
    + intros (u & v & -> & A & B). apply IH in B. destruct B as (u' & v' & -> & B & C). exists (u ++ u'), v'.
      split; [apply app_assoc|]. split; [|rewrite app_assoc; exact C]. exists u, u'. split; [reflexivity|].
      split; [|exact B]. rewrite app_assoc in *. rewrite <- app_assoc in A. rewrite app_assoc in A. exact A.
    + intros (u & v & -> & (a & b & -> & A & B) & C). exists a, (b ++ v). split; [rewrite app_assoc; reflexivity|].
      split; [rewrite <- app_assoc; exact A|]. apply IH. exists b, v. split; [reflexivity|]. split; [exact B|]. rewrite <- app_assoc. exact C.
Qed.
Lemma kopt_match : forall c n pre w post, kmatch (kopt c n) pre w post <-> exists k, (k <= n)%nat /\ times (kmatch c) k pre w post.
Proof.
  intros c. induction n as [|n IH]; intros pre w post; cbn [kopt kmatch].
  - split; [intros ->; exists 0%nat; split; [lia|reflexivity]|]. intros (k & L & M). assert (k = 0%nat) as -> by lia. exact M.
  - split.
    + intros [->|(u & v & -> & A & B)]; [exists 0%nat; split; [lia|reflexivity]|]. apply IH in B. destruct B as (k & L & B).
      exists (S k). split; [lia|]. exists u, v. auto.
    + intros ([|k] & L & M); [left; exact M|right]. destruct M as (u & v & -> & A & B). exists u, v. split; [reflexivity|].
      split; [exact A|]. apply IH. exists k. split; [lia|exact B].
Qed.
Lemma times_add : forall P a b pre w post, times P (a + b) pre w post <->
  exists u v, w = u ++ v /\ times P a pre u (v ++ post) /\ times P b (pre ++ u) v post.
Proof.
  intros P. induction a as [|a IH]; intros b pre w post; cbn [Nat.add times].
  - split; [intros M; exists [], w; rewrite app_nil_r; auto|]. intros (u & v & -> & -> & M). rewrite app_nil_r in M. exact M.
  - split.
    + intros (u & v & -> & A & B). apply IH in B. destruct B as (u' & v' & -> & B & C). exists (u ++ u'), v'.
      split; [apply app_assoc|]. split; [|rewrite app_assoc; exact C]. exists u, u'. split; [reflexivity|]. split; [|exact B].
      rewrite <- app_assoc in A. exact A.
    + intros (u & v & -> & (x & y & -> & A & B) & C). exists x, (y ++ v). split; [rewrite app_assoc; reflexivity|].
      split; [rewrite <- app_assoc; exact A|]. apply IH. exists y, v. split; [reflexivity|]. split; [exact B|]. rewrite <- app_assoc. exact C.
Qed.

Lemma core_of_ok : forall re pre w post, kmatch (core_of re) pre w post <-> rmatch sf re pre w post.
Proof.
  induction re using regexp_ind'; intros pre w post; try reflexivity.
  - cbn [core_of rmatch]. revert pre w post. induction rs as [|r rs IH]; intros pre w post; cbn [fold_right spells kmatch]; [reflexivity|]. split.
    + intros (u & v & -> & A & B). apply IH in B. unfold lit_step in A. destruct f; cbn [negb kmatch accepts in_class] in A.
      * destruct A as (r0 & r' & -> & A & U). exists r', u, v. auto.
      * destruct A as (r0 & -> & U). exists r, u, v. auto.
    + intros (r' & u & v & -> & U & S & R). exists u, v. split; [reflexivity|]. split; [|apply IH, S].
      unfold lit_step. destruct f; cbn [negb kmatch accepts in_class]; [exists r, r'; auto|subst r'; exists r; auto].
  - cbn [core_of kmatch accepts rmatch]. split; intros (r & A & B); exists r; auto.
  - cbn [core_of kmatch accepts rmatch]. split; intros (r & A & B); exists r; auto.
  - apply IHre.
  - cbn [core_of kmatch rmatch]. split; intros (k & M); exists k; revert M; apply times_ext; intros; rewrite IHre; reflexivity.
  - cbn [core_of kmatch rmatch]. split.
    + intros (u & v & -> & A & n & B). exists n. exists u, v. split; [reflexivity|]. split; [apply IHre, A|].
      revert B. apply times_ext. intros. rewrite IHre. reflexivity.
    + intros (n & u & v & -> & A & B). exists u, v. split; [reflexivity|]. split; [apply IHre, A|]. exists n.
      revert B. apply times_ext. intros. rewrite IHre. reflexivity.
  - cbn [core_of kmatch rmatch]. rewrite IHre. tauto.
  - assert (forall n p u q, times (kmatch (core_of re)) n p u q <-> times (rmatch sf re) n p u q) as T by (apply times_ext; apply IHre).
    cbn [rmatch]. destruct b as [m|]; cbn [core_of].
    + destruct (Nat.leb_spec a m) as [L|L].
      * rewrite kpow_match. split.
        -- intros (u & v & -> & A & B). apply kopt_match in B. destruct B as (k & Lk & B). exists (a + k)%nat. split; [|lia].
           apply times_add. exists u, v. split; [reflexivity|]. split; apply T; assumption.
        -- intros (k & M & L1 & L2). replace k with (a + (k - a))%nat in M by lia. apply times_add in M.
           destruct M as (u & v & -> & A & B). exists u, v. split; [reflexivity|]. split; [apply T, A|].
           apply kopt_match. exists (k - a)%nat. split; [lia|apply T, B].
      * split; [intros []|]. intros (k & _ & L1 & L2). lia.
    + rewrite kpow_match. split.
      * intros (u & v & -> & A & k & B). exists (a + k)%nat. split; [|split; [lia|exact I]].
        apply times_add. exists u, v. split; [reflexivity|]. split; apply T; assumption.
      * intros (k & M & L1 & _). replace k with (a + (k - a))%nat in M by lia. apply times_add in M.
        destruct M as (u & v & -> & A & B). exists u, v. split; [reflexivity|]. split; [apply T, A|]. exists (k - a)%nat. apply T, B.
  - rewrite rmatch_cat. cbn [core_of]. revert pre w post. induction H as [|r rs Hr _ IH]; intros pre w post; cbn [fold_right kmatch cat]; [reflexivity|].
    split; intros (u & v & E & A & B); exists u, v; (split; [exact E|]); (split; [apply Hr, A|apply IH, B]).
  - rewrite rmatch_alt. cbn [core_of]. induction H as [|r rs Hr _ IH]; cbn [fold_right kmatch]; [split; [intros []|intros X; inversion X]|].
    rewrite Exists_cons, Hr, IH. reflexivity.
Qed.

(** ** Code *)
Definition zbits (z : zop) : N :=
  match z with ZEmpty => 0 | ZBeginLine => 1 | ZEndLine => 2 | ZBeginText => 4 | ZEndText => 8 | ZWord => 16 | ZNoWord => 32 end.

Fixpoint size (k : core) : N :=
  match k with
  | KSeq a b => size a + size b
  | KAlt a b => 1 + size a + size b
  | KStar a => 1 + size a
  | _ => 1
  end.
(** The code of [k] when placed at [at], continuing at [next]. *)
Fixpoint code (k : core) (at_ next : N) : list xinst :=
  match k with
  | KFail => [XB IFail]
  | KEps => [XB (INop next)]
  | KAssert z => [XB (IEmpty (zbits z) next)]
  | KStep f => [f next]
  | KSeq a b => code a at_ (at_ + size a) ++ code b (at_ + size a) next
  | KAlt a b => XB (IAlt (at_ + 1) (at_ + 1 + size a)) :: code a (at_ + 1) next ++ code b (at_ + 1 + size a) next
  | KStar a => XB (IAlt (at_ + 1) next) :: code a (at_ + 1) at_
  end.
Definition thompson (re : regexp) : xprog :=
  let k := core_of re in mkX (code k 0 (size k) ++ [XB IMatch]) 0.

Lemma code_length : forall k at_ next, N.of_nat (length (code k at_ next)) = size k.
Proof.
  induction k; intros at_ next; cbn [code size]; try reflexivity.
  - rewrite app_length, Nat2N.inj_add, IHk1, IHk2. reflexivity.
  - cbn [length]. rewrite app_length, Nat2N.inj_succ, Nat2N.inj_add, IHk1, IHk2. lia.
  - cbn [length]. rewrite Nat2N.inj_succ, IHk. lia.
Qed.
Lemma size_pos : forall k, 1 <= size k.
Proof. induction k; cbn [size]; lia. Qed.

(** Steps of the smaller language come from rune instructions. *)
Definition rune_step (f : N -> xinst) : Prop :=
  (forall o, rune_out (f o) = Some o /\ xtargets (f o) = [o]) /\ (forall o w, accepts sf utf8 (f o) w <-> accepts sf utf8 (f 0) w).
Fixpoint steps_ok (k : core) : Prop :=
  match k with
  | KStep f => rune_step f
  | KSeq a b | KAlt a b => steps_ok a /\ steps_ok b
  | KStar a => steps_ok a
  | _ => True
  end.

Section Run.
Variable P : xprog.
Variable line : list N.
Variable bot eot : bool.
Notation stp := (xstep sf utf8 P line bot eot).
Notation B := (if bot then [] else [10]).
Notation E := (if eot then [] else [10]).

(** The part of the line from [i] to [j] matches. *)
Definition KM (k : core) (i j : nat) : Prop :=
  exists u w v, line = u ++ w ++ v /\ i = length u /\ j = (length u + length w)%nat /\ kmatch k (B ++ u) w (v ++ E).

Lemma cut : forall (i : nat), (i <= length line)%nat -> exists u v, line = u ++ v /\ i = length u.
Proof. intros i L. exists (firstn i line), (skipn i line). split; [symmetry; apply firstn_skipn|]. rewrite firstn_length. lia. Qed.
Lemma KM_le : forall k i j, KM k i j -> (i <= j <= length line)%nat.
Proof. intros k i j (u & w & v & -> & -> & -> & _). rewrite !app_length. lia. Qed.

Lemma KM_eps : forall i j, KM KEps i j <-> i = j /\ (i <= length line)%nat.
Proof.
  intros i j. split.
  - intros (u & w & v & -> & -> & -> & ->). rewrite !app_length. cbn [length]. lia.
  - intros (<- & L). destruct (cut i L) as (u & v & -> & ->). exists u, [], v. cbn [kmatch length app]. rewrite Nat.add_0_r. auto.
Qed.
Lemma same_cut : forall (u v u' v' : list N), u ++ v = u' ++ v' -> length u = length u' -> u = u' /\ v = v'.
Proof.
  induction u as [|c u IH]; intros v u' v' H L; destruct u' as [|c' u']; try discriminate; [split; [reflexivity|exact H]|].
  injection H as -> H. injection L as L. destruct (IH _ _ _ H L) as (-> & ->). auto.
Qed.
Lemma KM_seq : forall a b i j, KM (KSeq a b) i j <-> exists m, KM a i m /\ KM b m j.
Proof.
  intros a b i j. split.
  - intros (u & w & v & EL & -> & -> & x & y & -> & A & C). exists (length u + length x)%nat. split.
    + exists u, x, (y ++ v). split; [rewrite EL, <- app_assoc; reflexivity|]. split; [reflexivity|]. split; [reflexivity|].
      rewrite <- app_assoc. exact A.
    + exists (u ++ x), y, v. split; [rewrite EL, <- !app_assoc; reflexivity|]. split; [rewrite app_length; reflexivity|].
      split; [rewrite !app_length; lia|]. rewrite app_assoc. exact C.
  - intros (m & (u & w & v & EL & -> & -> & A) & (u' & w' & v' & EL' & EM & -> & C)).
    rewrite app_assoc in EL. rewrite EL in EL'. destruct (same_cut (u ++ w) v u' (w' ++ v') EL') as (<- & ->); [rewrite app_length; exact EM|].
    exists u, (w ++ w'), v'. split; [rewrite EL, <- !app_assoc; reflexivity|]. split; [reflexivity|]. split; [rewrite !app_length; lia|].
    exists w, w'. split; [reflexivity|]. split; [rewrite <- app_assoc in A; exact A|]. rewrite <- app_assoc. exact C.
Qed.
Lemma KM_alt : forall a b i j, KM (KAlt a b) i j <-> KM a i j \/ KM b i j.
Proof.
  intros a b i j. split.
  - intros (u & w & v & EL & Ei & Ej & [M|M]); [left|right]; exists u, w, v; auto.
  - intros [(u & w & v & EL & Ei & Ej & M)|(u & w & v & EL & Ei & Ej & M)]; exists u, w, v; cbn [kmatch]; auto.
Qed.
Lemma KM_star_nil : forall a i, (i <= length line)%nat -> KM (KStar a) i i.
Proof.
  intros a i L. destruct (cut i L) as (u & v & EL & ->). exists u, [], v. cbn [app length]. rewrite Nat.add_0_r.
  split; [exact EL|]. split; [reflexivity|]. split; [reflexivity|]. exists 0%nat. reflexivity.
Qed.
Lemma KM_star_seq : forall a i j, KM (KSeq a (KStar a)) i j -> KM (KStar a) i j.
Proof.
  intros a i j (u & w & v & EL & Ei & Ej & x & y & -> & A & n & C). exists u, (x ++ y), v. split; [exact EL|]. split; [exact Ei|].
  split; [exact Ej|]. exists (S n). exists x, y. auto.
Qed.
Lemma KM_star_cons : forall a i m j, KM a i m -> KM (KStar a) m j -> KM (KStar a) i j.
Proof. intros a i m j A C. apply KM_star_seq, KM_seq. exists m. auto. Qed.
(* peel off the repetitions *)
Lemma KM_star_elim : forall a (R : nat -> nat -> Prop), (forall i, (i <= length line)%nat -> R i i) ->
  (forall i m j, KM a i m -> R m j -> R i j) -> forall i j, KM (KStar a) i j -> R i j.
Proof.
  intros a R R0 R1 i j (u & w & v & EL & -> & -> & n & M). revert u w v EL M. induction n as [|n IH]; intros u w v EL M; cbn [times] in M.
  - subst w. cbn [length]. rewrite Nat.add_0_r. apply R0. rewrite EL, app_length. lia.
  - destruct M as (x & y & -> & A & C). apply (R1 _ (length u + length x)%nat).
    + exists u, x, (y ++ v). split; [rewrite EL, <- app_assoc; reflexivity|]. split; [reflexivity|]. split; [reflexivity|].
      rewrite <- app_assoc. exact A.
    + replace (length u + length (x ++ y))%nat with (length (u ++ x) + length y)%nat by (rewrite !app_length; lia).
      rewrite <- app_length. apply (IH (u ++ x) y v); [rewrite EL, <- !app_assoc; reflexivity|]. rewrite app_assoc. exact C.
Qed.

(* assertions *)
Lemma before_at : forall u c, before (u ++ [c]) = Some c.
Proof. intros u c. unfold before. rewrite rev_app_distr. reflexivity. Qed.
Lemma assertion_holds : forall u v z, line = u ++ v -> ~ In 10 line ->
  (assertion z (B ++ u) (v ++ E) <-> forall n, N.testbit (zbits z) n = true -> MatchSpec.holds line bot eot (length u) n).
Proof.
  intros u v z EL NL.
  assert (forall k (Q : Prop), (Q <-> MatchSpec.holds line bot eot (length u) k) -> (Q <-> forall n, N.testbit (2^k) n = true -> MatchSpec.holds line bot eot (length u) n)) as BIT.
  { intros k Q H. split.
    - intros q n T. apply N.eqb_eq in T || idtac. rewrite N.pow2_bits_eqb in T. apply N.eqb_eq in T. subst n. apply H, q.
    - intros q. apply H, q. rewrite N.pow2_bits_eqb. apply N.eqb_refl. }
  assert (word_before line (length u) <-> ends_word (B ++ u)) as WB.
  { unfold word_before, ends_word. split.
    - intros (j & c & Ej & Nj & W). destruct u as [|d u _] using rev_ind; [discriminate|]. exists (B ++ u), c.
      rewrite app_length in Ej. cbn [length] in Ej. assert (j = length u) as -> by lia.
      rewrite EL, <- app_assoc, nth_error_app2, Nat.sub_diag in Nj by lia. cbn in Nj. injection Nj as ->. split; [apply app_assoc|exact W].
    - intros (p & c & Ep & W). destruct u as [|d u _] using rev_ind.
      + exfalso. rewrite app_nil_r in Ep. destruct bot; [destruct p; discriminate|]. destruct p as [|x [|]]; try discriminate.
        injection Ep as <-. unfold word_byte in W. lia.
      + rewrite app_assoc in Ep. apply app_inj_tail in Ep. destruct Ep as (_ & ->). exists (length u), c.
        rewrite app_length. cbn [length]. split; [lia|]. split; [|exact W]. rewrite EL, <- app_assoc, nth_error_app2, Nat.sub_diag by lia. reflexivity. }
  assert (word_after line (length u) <-> starts_word (v ++ E)) as WA.
  { unfold word_after, starts_word. rewrite EL, nth_error_app2, Nat.sub_diag by lia. split.
    - intros (c & Nc & W). destruct v as [|d v]; [discriminate|]. injection Nc as ->. exists c, (v ++ E). auto.
    - intros (c & p & Ep & W). destruct v as [|d v].
      + exfalso. cbn [app] in Ep. destruct eot; [discriminate|]. injection Ep as <- _. unfold word_byte in W. lia.
      + injection Ep as -> _. exists c. auto. }
  assert (before (B ++ u) = match u with [] => if bot then None else Some 10 | _ => before u end) as BU.
  { destruct u as [|c u _] using rev_ind; [destruct bot; reflexivity|]. rewrite app_assoc, !before_at. destruct u; reflexivity. }
  assert (after (v ++ E) = match v with [] => if eot then None else Some 10 | _ => after v end) as AV.
  { destruct v; [destruct eot; reflexivity|reflexivity]. }
  assert (forall c u', u = u' ++ [c] -> c <> 10) as UC.
  { intros c u' -> ->. apply NL. rewrite EL, !in_app_iff. cbn. auto. }
  assert (forall c v', v = c :: v' -> c <> 10) as VC.
  { intros c v' -> ->. apply NL. rewrite EL, !in_app_iff. cbn. auto. }
  assert (length u = length line <-> v = []) as LV.
  { rewrite EL, app_length. split; [intros H; apply length_zero_iff_nil; lia|intros ->; cbn [length]; lia]. }
  destruct z; cbn [zbits assertion].
  - split; [|auto]. intros _ n T. rewrite N.bits_0 in T. discriminate.
  - apply (BIT 0). cbn [MatchSpec.holds]. rewrite before_nil, before_some, BU. destruct u as [|c u _] using rev_ind.
    + destruct bot; cbn [length]; tauto.
    + destruct (u ++ [c]) eqn:X; [destruct u; discriminate|]. rewrite <- X, before_at, app_length. cbn [length]. specialize (UC c u (eq_sym X)).
      split; [intros [H|H]; [discriminate|congruence]|lia].
  - apply (BIT 1). cbn [MatchSpec.holds]. rewrite after_nil, after_some, AV. rewrite LV. destruct v as [|c v].
    + destruct eot; tauto.
    + cbn [after hd_error]. specialize (VC c v eq_refl). split; [intros [H|H]; [discriminate|congruence]|discriminate].
  - apply (BIT 2). cbn [MatchSpec.holds]. rewrite before_nil, BU. destruct u as [|c u _] using rev_ind.
    + cbn [length]. destruct bot; split; intros; try discriminate; try tauto. destruct H; discriminate.
    + destruct (u ++ [c]) eqn:X; [destruct u; discriminate|]. rewrite <- X, before_at, app_length. cbn [length]. split; [discriminate|lia].
  - apply (BIT 3). cbn [MatchSpec.holds]. rewrite after_nil, AV, LV. destruct v as [|c v].
    + destruct eot; split; intros; try discriminate; try tauto. destruct H; discriminate.
    + cbn [after hd_error]. split; [discriminate|intros (H & _); discriminate].
  - apply (BIT 4). cbn [MatchSpec.holds]. rewrite WB, WA. reflexivity.
  - apply (BIT 5). cbn [MatchSpec.holds]. rewrite WB, WA. reflexivity.
Qed.

Hypothesis NL : ~ In 10 line.

Definition placed (c : list xinst) (at_ : N) : Prop := forall n x, nth_error c n = Some x -> xinstr P (at_ + N.of_nat n) x.
Lemma placed_app : forall a b at_, placed (a ++ b) at_ -> placed a at_ /\ placed b (at_ + N.of_nat (length a)).
Proof.
  intros a b at_ H. split; intros n x E.
  - apply H. rewrite nth_error_app1; [exact E|]. apply nth_error_Some. congruence.
  - rewrite <- N.add_assoc, <- Nat2N.inj_add. apply H. rewrite nth_error_app2 by lia. replace (length a + n - length a)%nat with n by lia. exact E.
Qed.
Lemma placed_cons : forall x b at_, placed (x :: b) at_ -> xinstr P at_ x /\ placed b (at_ + 1).
Proof.
  intros x b at_ H. split; [specialize (H 0%nat x eq_refl); rewrite N.add_0_r in H; exact H|].
  intros n y E. rewrite <- N.add_assoc. replace (1 + N.of_nat n) with (N.of_nat (S n)) by lia. apply H. exact E.
Qed.

Definition runs := clos_refl_trans_1n _ stp.
Lemma runs_trans : forall a b c, runs a b -> runs b c -> runs a c.
Proof. intros a b c R1 R2. induction R1 as [|x y z S R IH]; [exact R2|]. eapply Relation_Operators.rt1n_trans; [exact S|apply IH, R2]. Qed.
Lemma runs_step : forall a b c, stp a b -> runs b c -> runs a c.
Proof. intros a b c S R. eapply Relation_Operators.rt1n_trans; eauto. Qed.

Lemma forward : forall k at_ next i j, steps_ok k -> placed (code k at_ next) at_ -> KM k i j -> runs (at_, i) (next, j).
Proof.
  induction k; intros at_ next i j SO PL M; cbn [code] in PL.
  - destruct M as (u & w & v & _ & _ & _ & []).
  - apply placed_cons in PL. destruct PL as (PL & _). apply KM_eps in M. destruct M as (<- & _).
    eapply runs_step; [eapply xstep_nop, PL|apply rt1n_refl].
  - apply placed_cons in PL. destruct PL as (PL & _). destruct M as (u & w & v & EL & -> & -> & -> & A). cbn [app length] in *. rewrite Nat.add_0_r.
    eapply runs_step; [|apply rt1n_refl]. eapply xstep_assert; [exact PL|]. apply (assertion_holds u v z EL NL), A.
  - apply placed_cons in PL. destruct PL as (PL & _). destruct M as (u & w & v & EL & -> & -> & A). destruct SO as (SO & SA).
    eapply runs_step; [|apply rt1n_refl]. eapply xstep_rune; [exact PL|apply SO|apply SA, A|exact EL|reflexivity|reflexivity].
  - apply placed_app in PL. rewrite code_length in PL. destruct PL as (P1 & P2), SO as (S1 & S2). apply KM_seq in M. destruct M as (m & M1 & M2).
    eapply runs_trans; [eapply IHk1; eauto|eapply IHk2; eauto].
  - apply placed_cons in PL. destruct PL as (P0 & PL). apply placed_app in PL. rewrite code_length in PL. destruct PL as (P1 & P2), SO as (S1 & S2).
    apply KM_alt in M. destruct M as [M|M].
    + eapply runs_step; [eapply xstep_alt1, P0|eapply IHk1; eauto].
    + eapply runs_step; [eapply xstep_alt2, P0|eapply IHk2; eauto].
  - apply placed_cons in PL. destruct PL as (P0 & PL). revert M. apply (KM_star_elim k (fun i j => runs (at_, i) (next, j))).
    + intros x _. eapply runs_step; [eapply xstep_alt2, P0|apply rt1n_refl].
    + intros x m y M R. eapply runs_step; [eapply xstep_alt1, P0|]. eapply runs_trans; [eapply IHk; eauto|exact R].
Qed.

(** Runs with their number of steps. *)
Inductive nruns : nat -> N * nat -> N * nat -> Prop :=
| nr_refl : forall s, nruns 0 s s
| nr_step : forall n s t u, stp s t -> nruns n t u -> nruns (S n) s u.
Lemma runs_nruns : forall s t, runs s t -> exists n, nruns n s t.
Proof. intros s t R. induction R as [|x y z ST R (n & IH)]; [exists 0%nat; constructor|]. exists (S n). econstructor; eauto. Qed.

Definition outside (k : core) (at_ pc : N) : Prop := pc < at_ \/ at_ + size k <= pc.
Lemma xinstr_fun : forall pc x y, xinstr P pc x -> xinstr P pc y -> x = y.
Proof. unfold xinstr. congruence. Qed.

Lemma backward : forall k at_ next, steps_ok k -> placed (code k at_ next) at_ -> outside k at_ next ->
  forall n i t, (i <= length line)%nat -> nruns n (at_, i) t -> outside k at_ (fst t) ->
  exists m j, (m < n)%nat /\ KM k i j /\ nruns m (next, j) t.
Proof.
  induction k; intros at_ next SO PL ON n i t Li R OT; cbn [code] in PL.
  - apply placed_cons in PL. destruct PL as (PL & _). exfalso. inversion R as [s|n0 s u t' S R0]; subst; [destruct OT as [O|O]; cbn [fst size] in O; lia|].
    inversion S; subst; match goal with H : xinstr P at_ ?y |- _ => pose proof (xinstr_fun _ _ _ PL H) as X end; try discriminate. subst. discriminate.
  - apply placed_cons in PL. destruct PL as (PL & _). inversion R as [s|n0 s u t' S R0]; subst; [destruct OT as [O|O]; cbn [fst size] in O; lia|].
    exists n0, i. split; [lia|]. split; [apply KM_eps; auto|].
    inversion S; subst; match goal with H : xinstr P at_ ?y |- _ => pose proof (xinstr_fun _ _ _ PL H) as X end; try discriminate; [|subst; discriminate].
    injection X as ->. exact R0.
  - apply placed_cons in PL. destruct PL as (PL & _). inversion R as [s|n0 s u t' S R0]; subst; [destruct OT as [O|O]; cbn [fst size] in O; lia|].
    inversion S; subst; match goal with H : xinstr P at_ ?y |- _ => pose proof (xinstr_fun _ _ _ PL H) as X end; try discriminate; [|subst; discriminate].
    injection X as <- <-. exists n0, i. split; [lia|]. split; [|exact R0]. destruct (cut i Li) as (x & y & EL & ->).
    exists x, [], y. cbn [app length]. rewrite Nat.add_0_r. split; [exact EL|]. split; [reflexivity|]. split; [reflexivity|]. split; [reflexivity|].
    apply (assertion_holds x y z EL NL). assumption.
  - apply placed_cons in PL. destruct PL as (PL & _). destruct SO as (SO & SA). inversion R as [s|n0 s u t' S R0]; subst; [destruct OT as [O|O]; cbn [fst size] in O; lia|].
    inversion S; subst; match goal with H : xinstr P at_ ?y |- _ => pose proof (xinstr_fun _ _ _ PL H) as X end;
      try (exfalso; specialize (SO next); rewrite X in SO; destruct SO; discriminate).
    subst. destruct (SO next) as (RO & _). assert (o = next) as -> by congruence.
    exists n0, (length u0 + length w)%nat. split; [lia|]. split; [|exact R0]. exists u0, w, v. split; [assumption|]. split; [reflexivity|].
    split; [reflexivity|]. cbn [kmatch]. apply (SA next). assumption.
  - apply placed_app in PL. rewrite code_length in PL. destruct PL as (P1 & P2), SO as (S1 & S2).
    pose proof (size_pos k1) as Z1. pose proof (size_pos k2) as Z2. unfold outside in *. cbn [size] in *.
    destruct (IHk1 at_ (at_ + size k1) S1 P1 ltac:(right; lia) n i t Li R ltac:(lia)) as (m1 & j1 & L1 & M1 & R1).
    destruct (IHk2 (at_ + size k1) next S2 P2 ltac:(lia) m1 j1 t (proj2 (KM_le _ _ _ M1)) R1 ltac:(lia)) as (m2 & j2 & L2 & M2 & R2).
    exists m2, j2. split; [lia|]. split; [apply KM_seq; exists j1; auto|exact R2].
  - apply placed_cons in PL. destruct PL as (P0 & PL). apply placed_app in PL. rewrite code_length in PL. destruct PL as (P1 & P2), SO as (S1 & S2).
    pose proof (size_pos k1) as Z1. pose proof (size_pos k2) as Z2. unfold outside in *. cbn [size] in *.
    inversion R as [s|n0 s u t' S R0]; subst; [cbn [fst] in OT; lia|].
    inversion S; subst; match goal with H : xinstr P at_ ?y |- _ => pose proof (xinstr_fun _ _ _ P0 H) as X end; try discriminate; [| |subst; discriminate].
    + injection X as <- <-. destruct (IHk1 (at_ + 1) next S1 P1 ltac:(lia) n0 i t Li R0 ltac:(lia)) as (m & j & L & M & R1).
      exists m, j. split; [lia|]. split; [apply KM_alt; auto|exact R1].
    + injection X as <- <-. destruct (IHk2 (at_ + 1 + size k1) next S2 P2 ltac:(lia) n0 i t Li R0 ltac:(lia)) as (m & j & L & M & R1).
      exists m, j. split; [lia|]. split; [apply KM_alt; auto|exact R1].
  - apply placed_cons in PL. destruct PL as (P0 & PL). pose proof (size_pos k) as Z. unfold outside in *. cbn [size] in *.
    revert i Li R. induction n as [n IHn] using (well_founded_induction Wf_nat.lt_wf). intros i Li R.
    inversion R as [s|n0 s u t' S R0]; subst; [cbn [fst] in OT; lia|].
    inversion S; subst; match goal with H : xinstr P at_ ?y |- _ => pose proof (xinstr_fun _ _ _ P0 H) as X end; try discriminate; [| |subst; discriminate].
    + injection X as <- <-. destruct (IHk (at_ + 1) at_ SO PL ltac:(lia) n0 i t Li R0 ltac:(lia)) as (m & j & L & M & R1).
      destruct (IHn m ltac:(lia) j (proj2 (KM_le _ _ _ M)) R1) as (m' & j' & L' & M' & R').
      exists m', j'. split; [lia|]. split; [eapply KM_star_cons; eauto|exact R'].
    + injection X as <- <-. exists n0, i. split; [lia|]. split; [apply KM_star_nil, Li|exact R0].
Qed.
End Run.
End Fold.

Section Top.
Variable sf : N -> N.
Variable om : nat.

Lemma runes_ok_all : forall l, (fix all (l : list regexp) : Prop := match l with [] => True | r :: l' => runes_ok sf om r /\ all l' end) l -> Forall (runes_ok sf om) l.
Proof. induction l as [|r l IH]; intros H; constructor; [apply H|apply IH, H]. Qed.

Fixpoint steps_wf (k : core) : Prop :=
  match k with
  | KStep f => rune_step sf f /\ forall o, wf_rune sf om (f o)
  | KSeq a b | KAlt a b => steps_wf a /\ steps_wf b
  | KStar a => steps_wf a
  | _ => True
  end.
Lemma steps_wf_ok : forall k, steps_wf k -> steps_ok sf k.
Proof. induction k; cbn [steps_wf steps_ok]; intuition. Qed.
Lemma wf_rune_out : forall one rs fold o o', wf_rune sf om (XRune one rs fold o) -> wf_rune sf om (XRune one rs fold o').
Proof. intros one rs fold o o' H. destruct one, fold; exact H. Qed.
Lemma rune_step_rune : forall one rs fold, rune_step sf (XRune one rs fold).
Proof. intros one rs fold. split; [intros o; split; reflexivity|]. intros o w. destruct fold; reflexivity. Qed.

Lemma core_steps : forall re, runes_ok sf om re -> steps_wf (core_of re).
Proof.
  induction re using regexp_ind'; intros R; cbn [core_of]; try exact I; try (apply IHre, R).
  - cbn [runes_ok] in R. induction R as [|r rs Hr _ IH]; cbn [fold_right steps_wf]; [exact I|]. split; [|exact IH].
    split; [apply rune_step_rune|]. intros o. apply (wf_rune_out _ _ _ 0 o), Hr.
  - split; [|intros o; exact I]. split; [intros o; split; reflexivity|reflexivity].
  - split; [|intros o; exact I]. split; [intros o; split; reflexivity|reflexivity].
  - split; [apply rune_step_rune|]. intros o. apply (wf_rune_out _ _ _ 0 o), R.
  - split; apply IHre, R.
  - split; [apply IHre, R|exact I].
  - specialize (IHre R). set (c := core_of re) in *. clearbody c.
    assert (forall k n, steps_wf k -> steps_wf (kpow c n k)) as KP by (intros k n K; induction n; cbn [kpow steps_wf]; auto).
    destruct b as [m|]; [|apply KP; exact IHre]. destruct (Nat.leb a m); [|exact I]. apply KP.
    generalize (m - a)%nat. intros n. induction n; cbn [kopt steps_wf]; auto.
  - cbn [runes_ok] in R. apply runes_ok_all in R. induction H as [|r rs Hr _ IH]; cbn [fold_right steps_wf]; [exact I|].
    apply Forall_cons_iff in R. destruct R as (R1 & R2). split; [apply Hr, R1|apply IH, R2].
  - cbn [runes_ok] in R. apply runes_ok_all in R. induction H as [|r rs Hr _ IH]; cbn [fold_right steps_wf]; [exact I|].
    apply Forall_cons_iff in R. destruct R as (R1 & R2). split; [apply Hr, R1|apply IH, R2].
Qed.

Lemma code_wf : forall k at_ next, steps_wf k -> Forall (wf_rune sf om) (code k at_ next) /\
  Forall (fun i => i <> XB IMatch /\ Forall (fun t => (at_ <= t /\ t < at_ + size k) \/ t = next) (xtargets i)) (code k at_ next).
Proof.
  induction k; intros at_ next SW; cbn [code size].
  - split; (constructor; [|constructor]); [exact I|]. split; [discriminate|constructor].
  - split; (constructor; [|constructor]); [exact I|]. split; [discriminate|]. cbn [xtargets targets]. auto.
  - split; (constructor; [|constructor]); [exact I|]. split; [discriminate|]. cbn [xtargets targets]. auto.
  - destruct SW as ((ST & _) & SW). destruct (ST next) as (RO & TG). split; (constructor; [|constructor]); [apply SW|].
    split; [intros E; rewrite E in RO; discriminate|]. rewrite TG. auto.
  - destruct SW as (S1 & S2). destruct (IHk1 at_ (at_ + size k1) S1) as (A1 & B1). destruct (IHk2 (at_ + size k1) next S2) as (A2 & B2).
    pose proof (size_pos k1). pose proof (size_pos k2).
    split; apply Forall_app; [auto|]. split; [eapply Forall_impl; [|exact B1]|eapply Forall_impl; [|exact B2]]; cbn beta; intros i (N1 & F); (split; [exact N1|]);
      (eapply Forall_impl; [|exact F]); cbn beta; lia.
  - destruct SW as (S1 & S2). destruct (IHk1 (at_ + 1) next S1) as (A1 & B1). destruct (IHk2 (at_ + 1 + size k1) next S2) as (A2 & B2).
    pose proof (size_pos k1). pose proof (size_pos k2).
    split; constructor; [exact I|apply Forall_app; auto| |apply Forall_app].
    + split; [discriminate|]. cbn [xtargets targets]. repeat constructor; lia.
    + split; [eapply Forall_impl; [|exact B1]|eapply Forall_impl; [|exact B2]]; cbn beta; intros i (N1 & F); (split; [exact N1|]);
      (eapply Forall_impl; [|exact F]); cbn beta; lia.
  - destruct (IHk (at_ + 1) at_ SW) as (A1 & B1). pose proof (size_pos k). split; constructor; [exact I|exact A1| |].
    + split; [discriminate|]. cbn [xtargets targets]. constructor; [left; lia|]. constructor; [right; reflexivity|constructor].
    + eapply Forall_impl; [|exact B1]. cbn beta. intros i (N1 & F). split; [exact N1|]. eapply Forall_impl; [|exact F]. cbn beta. lia.
Qed.

Theorem thompson_wf : forall re, runes_ok sf om re -> wf_xprog sf om (thompson re).
Proof.
  intros re R. pose proof (core_steps re R) as SW. unfold thompson. set (k := core_of re) in *. clearbody k.
  destruct (code_wf k 0 (size k) SW) as (A & B). pose proof (code_length k 0 (size k)) as L.
  unfold wf_xprog. cbn [x_inst x_start]. rewrite app_length, Nat2N.inj_add, L. cbn [length].
  split; [apply Forall_app; split; [exact A|constructor; [exact I|constructor]]|]. split; [|lia].
  apply Forall_app. split; [|constructor; [constructor|constructor]].
  eapply Forall_impl; [|exact B]. cbn beta. intros i (_ & F). eapply Forall_impl; [|exact F]. cbn beta. lia.
Qed.

Theorem thompson_faithful : forall re, runes_ok sf om re -> faithful sf re (thompson re).
Proof.
  intros re R bot eot line NL. pose proof (core_steps re R) as SW. pose proof (steps_wf_ok _ SW) as SO.
  assert (placed (thompson re) (code (core_of re) 0 (size (core_of re))) 0) as PL.
  { intros n x E. unfold xinstr, thompson. cbn [x_inst]. rewrite N.add_0_l, Nat2N.id, nth_error_app1; [exact E|]. apply nth_error_Some. congruence. }
  pose proof (code_length (core_of re) 0 (size (core_of re))) as L. destruct (code_wf (core_of re) 0 (size (core_of re)) SW) as (_ & NM).
  split.
  - intros (k0 & pc & j & Lk & RT & M). apply clos_rt_rt1n in RT. cbn [thompson x_start] in RT. apply runs_nruns in RT. destruct RT as (n & RT).
    assert (pc = size (core_of re)) as ->.
    { unfold xinstr, thompson in M. cbn [x_inst] in M. destruct (N.lt_ge_cases pc (size (core_of re))) as [X|X].
      - exfalso. rewrite nth_error_app1 in M by lia. apply nth_error_In in M. rewrite Forall_forall in NM. apply NM in M. destruct M; congruence.
      - rewrite nth_error_app2 in M by lia. destruct (N.to_nat pc - length (code (core_of re) 0 (size (core_of re))))%nat as [|[|d]] eqn:D; try discriminate. lia. }
    destruct (backward sf (thompson re) line bot eot NL (core_of re) 0 (size (core_of re)) SO PL ltac:(right; lia) n k0 _ Lk RT ltac:(right; cbn [fst]; lia))
      as (m & j' & _ & (u & w & v & EL & _ & _ & KM') & _).
    exists u, w, v. split; [exact EL|]. apply core_of_ok, KM'.
  - intros (u & w & v & EL & M). apply core_of_ok in M.
    exists (length u), (size (core_of re)), (length u + length w)%nat. split; [rewrite EL, app_length; lia|]. split.
    + apply clos_rt1n_rt. apply (forward sf (thompson re) line bot eot NL (core_of re) 0 (size (core_of re))); [exact SO|exact PL|].
      exists u, w, v. auto.
    + unfold xinstr, thompson. cbn [x_inst]. rewrite nth_error_app2 by lia. replace (N.to_nat (size (core_of re)) - _)%nat with 0%nat by lia. reflexivity.
Qed.
End Top.
