(** Simplify (Model/GoRegexp.v) keeps what the expression matches, and with syntax.Compile
    makes programs as expected. *)
From Verif Require Import Model.Base Model.Utf8 Model.Syntax Model.Matcher Model.Utf Model.GoRegexp Spec.Utf8Spec Spec.RegexSpec Spec.MatchSpec
  Spec.RuneProgSpec Spec.ExprSpec Spec.ParsedSpec Proofs.ExprLines Proofs.AnalyzeSound Proofs.Thompson Proofs.FragProofs Proofs.GoCompileProofs.
From Coq Require Import Relations.
Local Open Scope N_scope.

Section Top.
Variable sf : N -> N.
Variable om : nat.
Notation lang_of g := (rmatch sf (erase g)).

(** ** Compile *)
Theorem Compile_ok : forall g, simple g -> runes_ok sf om (erase g) ->
  exists P, Compile sf g = Some P /\ wf_xprog sf om P /\ faithful sf (erase g) P.
Proof.
  intros g SI RO. destruct (compile_ok sf om g SI RO [XB IFail] ltac:(cbn; lia)) as (p & f & E & LE & PF & L & [EN C ND HO SE IN]).
  cbn [length] in *. unfold Compile. rewrite E. cbn [bind]. set (m := N.of_nat (length p)).
  pose proof (hole_in_ok _ _ _ HO) as HK. pose proof (holes_nonzero _ _ _ (Nat.lt_0_succ 0) HO) as Z.
  unfold patch. rewrite (patch_good p (p ++ [XB IMatch]) _ _ L m C ND HK Z (firstn_extend _ _)) by (rewrite length_last; lia). cbn [bind].
  rewrite fill_app by exact HK. eexists. split; [reflexivity|]. set (P := mkX (fill p L m ++ [XB IMatch]) (f_i f)).
  assert (length (fill p L m) = length p) as LF by apply fill_length.
  assert (forall n y, nth_error (fill p L m ++ [XB IMatch]) n = Some y -> y = XB IFail \/ (inst_ok sf om 1 (length p) m y) \/ (n = length p /\ y = XB IMatch)) as CASES.
  { intros n y Y. destruct (nth_last _ _ _ _ Y) as [(Ln & X)|(-> & ->)]; [|right; right; rewrite LF; auto].
    rewrite nth_fill in X. destruct (nth_error p n) as [x|] eqn:PX; [|discriminate]. cbn [option_map] in X. injection X as <-.
    destruct n as [|n]; [|right; left; apply (IN m (S n) x ltac:(lia) PX)]. left.
    rewrite fill1_none by (apply (no_hole_below p 1); [exact HO|lia]). destruct p as [|x' p']; [discriminate|]. cbn in PF, PX. congruence. }
  assert (xinstr P m (XB IMatch)) as XM by (unfold xinstr, P; cbn [x_inst]; replace (N.to_nat m) with (length (fill p L m)) by (unfold m at 2; lia); apply nth_extend).
  assert (agrees P p L m 1) as AG.
  { intros n x Ln X. unfold xinstr, P. cbn [x_inst]. rewrite Nat2N.id, nth_error_app1 by (rewrite LF; apply nth_error_Some; congruence).
    rewrite nth_fill, X. reflexivity. }
  split.
  - split; [|split].
    + apply Forall_forall. intros y I. apply In_nth_error in I. destruct I as (n & Y). destruct (CASES n y Y) as [->|[(W & _)|(_ & ->)]]; [exact I|exact W|exact I].
    + apply Forall_forall. intros y I. apply In_nth_error in I. destruct I as (n & Y). unfold P at 1. cbn [x_inst]. rewrite length_last, LF.
      destruct (CASES n y Y) as [->|[(_ & _ & T)|(_ & ->)]]; [constructor| |constructor]. eapply Forall_impl; [|exact T]. cbn beta. intros t. unfold m. lia.
    + cbn [x_start P x_inst]. unfold P. cbn [x_start x_inst]. rewrite length_last, LF. lia.
  - intros bot eot line NL. destruct (SE m P line bot eot NL AG) as (FW & BW). split.
    + intros (k0 & pc & j & Lk & RT & M). apply clos_rt_rt1n in RT. apply runs_nruns in RT. destruct RT as (n & RT).
      assert (pc = m) as ->.
      { unfold xinstr, P in M. cbn [x_inst] in M. destruct (CASES _ _ M) as [X|[(_ & X & _)|(X & _)]]; [discriminate|congruence|unfold m; lia]. }
      destruct (BW n k0 (m, j) Lk RT) as (n' & j' & _ & (u & w & v & EL & _ & _ & A) & _); [right; cbn [fst]; unfold m; lia|].
      exists u, w, v. auto.
    + intros (u & w & v & EL & A). exists (length u), m, (length u + length w)%nat. split; [rewrite EL, app_length; lia|]. split; [|exact XM].
      apply clos_rt1n_rt. apply FW. exists u, w, v. auto.
Qed.

(** ** Simplify *)
Definition l_upto (M : lang) (n : nat) : lang := fun pre w post => exists k, (k <= n)%nat /\ times M k pre w post.
Lemma times_S : forall M k, same (times M (S k)) (l_seq M (times M k)).
Proof. intros M k pre w post. reflexivity. Qed.
Lemma times_plus : forall M a b, same (times M (a + b)) (l_seq (times M a) (times M b)).
Proof. intros M a b pre w post. apply times_add. Qed.
Lemma times_one : forall M, same (times M 1) M.
Proof. intros M. eapply same_trans; [apply times_S|]. apply seq_eps_r. Qed.
Lemma times_eps : forall k, same (times l_eps k) l_eps.
Proof.
  induction k as [|k IH]; [apply same_refl|]. eapply same_trans; [apply times_S|]. eapply same_trans; [apply seq_same; [apply same_refl|apply IH]|]. apply seq_eps_l.
Qed.
Lemma star_eps : same (l_star l_eps) l_eps.
Proof. intros pre w post. split; [intros (k & T); apply (proj1 (times_eps _ _ _ _)) in T; exact T|]. intros E. exists 0%nat. exact E. Qed.
Lemma plus_eps : same (l_plus l_eps) l_eps.
Proof. intros pre w post. split; [intros (k & T); apply (proj1 (times_eps _ _ _ _)) in T; exact T|]. intros E. exists 0%nat. apply times_eps. exact E. Qed.
Lemma times_of_star : forall M k pre w post, times (l_star M) k pre w post -> l_star M pre w post.
Proof.
  intros M. induction k as [|k IH]; intros pre w post T.
  - exists 0%nat. exact T.
  - destruct T as (u & v & -> & (a & A) & B). destruct (IH _ _ _ B) as (b & B'). exists (a + b)%nat. apply times_add. exists u, v. auto.
Qed.
Lemma star_star : forall M, same (l_star (l_star M)) (l_star M).
Proof. intros M pre w post. split; [intros (k & T); apply (times_of_star M k), T|]. intros T. exists 1%nat. apply times_one. exact T. Qed.
Lemma times_of_plus : forall M k pre w post, times (l_plus M) (S k) pre w post -> l_plus M pre w post.
Proof.
  intros M. induction k as [|k IH]; intros pre w post T.
  - apply (proj1 (times_one _ _ _ _)) in T. exact T.
  - destruct T as (u & v & -> & (a & A) & B). destruct (IH _ _ _ B) as (b & B'). exists (a + S b)%nat.
    change (S (a + S b)) with (S a + S b)%nat. apply times_add. exists u, v. auto.
Qed.
Lemma plus_plus : forall M, same (l_plus (l_plus M)) (l_plus M).
Proof. intros M pre w post. split; [intros (k & T); apply (times_of_plus M k), T|]. intros T. exists 0%nat. apply times_one. exact T. Qed.
Lemma opt_opt : forall M, same (l_opt (l_opt M)) (l_opt M).
Proof. intros M pre w post. unfold l_opt. tauto. Qed.
Lemma opt_eps : same (l_opt l_eps) l_eps.
Proof. intros pre w post. unfold l_opt, l_eps. tauto. Qed.
Lemma empty_eps : same (lang_of (GZero ZEmpty)) l_eps.
Proof. intros pre w post. cbn [erase rmatch assertion]. unfold l_eps. tauto. Qed.

Lemma simplify1_same : forall op ng g, same (lang_of (simplify1 op ng g)) (lang_of (repeated op ng g)).
Proof.
  assert (forall op ng, same (lang_of (GZero ZEmpty)) (lang_of (repeated op ng (GZero ZEmpty)))) as EM.
  { intros op ng. eapply same_trans; [apply empty_eps|]. apply same_sym. destruct op.
    - eapply same_trans; [apply (star_same _ _ empty_eps)|apply star_eps].
    - eapply same_trans; [apply (plus_same _ _ empty_eps)|apply plus_eps].
    - eapply same_trans; [apply (opt_same _ _ empty_eps)|apply opt_eps]. }
  intros op ng g. destruct g as [|z|fold rs| | |rs|n r|ng' r|ng' r|ng' r|ng' a b r|l|l]; try exact (same_refl _).
  - destruct z; [exact (EM op ng)|apply same_refl..].
  - destruct op; try exact (same_refl _). cbn [simplify1]. destruct (Bool.eqb ng ng'); [|apply same_refl]. apply same_sym, star_star.
  - destruct op; try exact (same_refl _). cbn [simplify1]. destruct (Bool.eqb ng ng'); [|apply same_refl]. apply same_sym, plus_plus.
  - destruct op; try exact (same_refl _). cbn [simplify1]. destruct (Bool.eqb ng ng'); [|apply same_refl]. apply same_sym, opt_opt.
Qed.
Lemma upto_S : forall M n, same (l_opt (l_seq M (l_upto M n))) (l_upto M (S n)).
Proof.
  intros M n pre w post. split.
  - intros [->|(u & v & -> & A & k & L & T)]; [exists 0%nat; split; [lia|reflexivity]|]. exists (S k). split; [lia|]. exists u, v. auto.
  - intros ([|k] & L & T); [left; exact T|]. right. destruct T as (u & v & -> & A & T). exists u, v. split; [reflexivity|]. split; [exact A|]. exists k. split; [lia|exact T].
Qed.
Lemma upto_1 : forall M, same (l_opt M) (l_upto M 1).
Proof.
  intros M pre w post. split.
  - intros [->|A]; [exists 0%nat; split; [lia|reflexivity]|]. exists 1%nat. split; [lia|]. apply times_one. exact A.
  - intros ([|[|k]] & L & T); [left; exact T|right; apply (proj1 (times_one _ _ _ _)) in T; exact T|lia].
Qed.
Lemma pair_same : forall a b, same (lang_of (GConcat [a; b])) (l_seq (lang_of a) (lang_of b)).
Proof. intros a b. apply seq_same; [apply same_refl|apply seq_eps_r]. Qed.
Lemma suffix_same : forall n ng sub suffix k, same (lang_of suffix) (l_upto (lang_of sub) k) ->
  same (lang_of (suffix_loop n ng sub suffix)) (l_upto (lang_of sub) (n + k)).
Proof.
  induction n as [|n IH]; intros ng sub suffix k SU; [exact SU|]. cbn [suffix_loop]. replace (S n + k)%nat with (n + S k)%nat by lia. apply IH.
  eapply same_trans; [apply simplify1_same|]. eapply same_trans; [|apply upto_S].
  apply (opt_same (lang_of (GConcat [sub; suffix]))). eapply same_trans; [apply pair_same|]. apply seq_same; [apply same_refl|exact SU].
Qed.
Lemma repeat_same : forall n g l, same (lang_of (GConcat (repeat g n ++ l))) (l_seq (times (lang_of g) n) (lang_of (GConcat l))).
Proof.
  induction n as [|n IH]; intros g l; cbn [repeat app].
  - apply same_sym, seq_eps_l.
  - eapply same_trans; [apply (concat_cons sf)|]. eapply same_trans; [apply seq_same; [apply same_refl|apply IH]|].
    apply same_sym. eapply same_trans; [apply seq_same; [apply times_S|apply same_refl]|]. apply seq_assoc.
Qed.
Lemma repeat_last : forall n g g', same (lang_of (GConcat (repeat g n ++ [g']))) (l_seq (times (lang_of g) n) (lang_of g')).
Proof. intros n g g'. eapply same_trans; [apply repeat_same|]. apply seq_same; [apply same_refl|]. apply seq_eps_r. Qed.

Lemma upto_same : forall M M', same M M' -> forall n, same (l_upto M n) (l_upto M' n).
Proof. intros M M' H n pre w post. split; intros (k & L & T); exists k; (split; [exact L|]); apply (times_same M M' H), T. Qed.

Lemma parsed_all : forall l, (fix all (l : list gre) : Prop := match l with [] => True | g :: l => parsed g /\ all l end) l <-> Forall parsed l.
Proof.
  induction l as [|g l IH]; [split; [constructor|exact (fun _ => I)]|]. split.
  - intros (H & T). constructor; [exact H|apply IH, T].
  - intros F. apply Forall_cons_iff in F. split; [apply F|apply IH, F].
Qed.

(** The bounded repetitions. *)
Lemma repeat_upto : forall M a b, (a <= b)%nat -> same (fun pre w post => exists k, times M k pre w post /\ (a <= k)%nat /\ (k <= b)%nat) (l_seq (times M a) (l_upto M (b - a))).
Proof.
  intros M a b L pre w post. split.
  - intros (k & T & L1 & L2). replace k with (a + (k - a))%nat in T by lia. apply times_add in T. destruct T as (u & v & -> & T1 & T2).
    exists u, v. split; [reflexivity|]. split; [exact T1|]. exists (k - a)%nat. split; [lia|exact T2].
  - intros (u & v & -> & T1 & k & L1 & T2). exists (a + k)%nat. split; [apply times_add; exists u, v; auto|lia].
Qed.
Lemma upto_0 : forall M, same (l_upto M 0) l_eps.
Proof.
  intros M pre w post. split; [intros (k & L & T); assert (k = 0%nat) as -> by lia; exact T|]. intros E. exists 0%nat. split; [lia|exact E].
Qed.
Lemma Simplify_bounded : forall ng a b g, (a <= b)%nat -> same (lang_of (Simplify g)) (lang_of g) ->
  same (lang_of (Simplify (GRepeat ng a (Some b) g))) (lang_of (GRepeat ng a (Some b) g)).
Proof.
  intros ng a b g LE IHg. apply same_sym. eapply same_trans; [apply (repeat_upto (lang_of g) a b LE)|]. cbn [Simplify]. set (s := Simplify g) in *.
  eapply same_trans; [apply seq_same; [apply times_same, same_sym, IHg|apply upto_same, same_sym, IHg]|].
  destruct (Nat.eqb a 0 && Nat.eqb b 0)%bool eqn:Z0.
  { apply andb_true_iff in Z0. destruct Z0 as (A & B). apply Nat.eqb_eq in A, B. subst a b. eapply same_trans; [apply seq_eps_l|].
    eapply same_trans; [apply upto_0|]. apply same_sym, empty_eps. }
  destruct (Nat.eqb a 1 && Nat.eqb b 1)%bool eqn:Z1.
  { apply andb_true_iff in Z1. destruct Z1 as (A & B). apply Nat.eqb_eq in A, B. subst a b. eapply same_trans; [apply seq_same; [apply times_one|apply upto_0]|]. apply seq_eps_r. }
  destruct (Nat.ltb_spec a b) as [LT|LT].
  - assert (same (l_upto (lang_of s) (b - a)) (lang_of (suffix_loop (b - a - 1) ng s (simplify1 OQuest ng s)))) as SU.
    { apply same_sym. replace (b - a)%nat with (b - a - 1 + 1)%nat at 2 by lia. apply suffix_same. eapply same_trans; [apply (simplify1_same OQuest)|apply upto_1]. }
    destruct (Nat.eqb_spec a 0) as [A|A].
    + subst a. eapply same_trans; [apply seq_eps_l|exact SU].
    + eapply same_trans; [apply seq_same; [apply same_refl|exact SU]|]. apply same_sym, repeat_last.
  - assert (a = b) as -> by lia. destruct (Nat.ltb_spec 0 b) as [LA|LA].
    + rewrite Nat.sub_diag. rewrite <- (app_nil_r (repeat s b)). eapply same_trans; [|apply same_sym, repeat_same]. apply seq_same; [apply same_refl|apply upto_0].
    + assert (b = 0%nat) as -> by lia. discriminate.
Qed.

Theorem Simplify_same : forall g, parsed g -> same (lang_of (Simplify g)) (lang_of g).
Proof.
  induction g using gre_ind'; intros PA; try exact (same_refl _).
  - exact (IHg PA).
  - eapply same_trans; [apply (simplify1_same OStar)|]. apply (star_same _ _ (IHg PA)).
  - eapply same_trans; [apply (simplify1_same OPlus)|]. apply (plus_same _ _ (IHg PA)).
  - eapply same_trans; [apply (simplify1_same OQuest)|]. apply (opt_same _ _ (IHg PA)).
  - cbn [parsed] in PA. destruct PA as (LE & PA). specialize (IHg PA). destruct b as [b|]; [apply Simplify_bounded; assumption|].
    set (s := Simplify g) in *. cbn [Simplify]. fold s. destruct a as [|[|a]].
    + eapply same_trans; [apply (simplify1_same OStar)|]. eapply same_trans; [apply (star_same _ _ IHg)|].
      intros pre w post. cbn [erase rmatch]. split; intros (k & T); exists k; [split; [exact T|split; [lia|exact I]]|apply T].
    + eapply same_trans; [apply (simplify1_same OPlus)|]. eapply same_trans; [apply (plus_same _ _ IHg)|].
      intros pre w post. cbn [erase rmatch]. split; [intros (k & T); exists (S k); split; [exact T|split; [lia|exact I]]|].
      intros ([|k] & T & L & _); [lia|]. exists k. exact T.
    + cbn [Nat.sub]. eapply same_trans; [apply repeat_last|].
      eapply same_trans; [apply seq_same; [apply times_same, IHg|eapply same_trans; [apply (simplify1_same OPlus)|apply (plus_same _ _ IHg)]]|].
      intros pre w post. cbn [erase rmatch]. split.
      * intros (u & v & -> & T1 & k & T2). exists (S a + S k)%nat. split; [apply times_add; exists u, v; auto|split; [lia|exact I]].
      * intros (k & T & L & _). replace k with (S a + S (k - S (S a)))%nat in T by lia. apply times_add in T. destruct T as (u & v & -> & T1 & T2).
        exists u, v. split; [reflexivity|]. split; [exact T1|]. exists (k - S (S a))%nat. exact T2.
  - cbn [parsed] in PA. apply (proj1 (parsed_all _)) in PA. cbn [Simplify]. induction H as [|g l Hg _ IH]; [apply same_refl|]. apply Forall_cons_iff in PA. destruct PA as (P1 & PA).
    cbn [map]. eapply same_trans; [apply (concat_cons sf)|].
    eapply same_trans; [|apply same_sym, (concat_cons sf)]. apply seq_same; [apply Hg, P1|apply IH, PA].
  - cbn [parsed] in PA. destruct PA as (_ & PA). apply (proj1 (parsed_all _)) in PA. cbn [Simplify]. induction H as [|g l Hg _ IH]; [apply same_refl|].
    apply Forall_cons_iff in PA. destruct PA as (P1 & PA). cbn [map]. eapply same_trans; [apply (alternate_cons sf)|].
    eapply same_trans; [|apply same_sym, (alternate_cons sf)]. apply alt_same; [apply Hg, P1|apply IH, PA].
Qed.

(** What Simplify returns can be compiled. *)
Definition ready (g : gre) : Prop := simple g /\ runes_ok sf om (erase g).
Lemma ready_concat : forall l, Forall ready l -> ready (GConcat l).
Proof.
  intros l F. split.
  - cbn [simple]. apply simple_all. eapply Forall_impl; [|exact F]. intros g (H & _). exact H.
  - cbn [erase runes_ok]. induction F as [|g l (_ & H) _ IH]; [exact I|]. split; [exact H|exact IH].
Qed.
Lemma ready_alternate : forall l, l <> [] -> Forall ready l -> ready (GAlternate l).
Proof.
  intros l NE F. destruct (ready_concat l F) as (A & B). split; [split; [exact NE|exact A]|exact B].
Qed.
Lemma ready_repeated : forall op ng g, ready g -> ready (repeated op ng g).
Proof. intros [] ng g (A & B); split; assumption. Qed.
Lemma ready_simplify1 : forall op ng g, ready g -> ready (simplify1 op ng g).
Proof.
  intros op ng g R. pose proof (ready_repeated op ng g R) as R'. destruct g as [|z|fold rs| | |rs|n r|ng' r|ng' r|ng' r|ng' a b r|l|l]; try exact R'.
  - destruct z; [exact R|exact R'..].
  - destruct op; try exact R'. cbn [simplify1]. destruct (Bool.eqb ng ng'); assumption.
  - destruct op; try exact R'. cbn [simplify1]. destruct (Bool.eqb ng ng'); assumption.
  - destruct op; try exact R'. cbn [simplify1]. destruct (Bool.eqb ng ng'); assumption.
Qed.
Lemma ready_suffix : forall n ng sub suffix, ready sub -> ready suffix -> ready (suffix_loop n ng sub suffix).
Proof.
  induction n as [|n IH]; intros ng sub suffix R R'; [exact R'|]. cbn [suffix_loop]. apply IH; [exact R|]. apply ready_simplify1, ready_concat.
  constructor; [exact R|]. constructor; [exact R'|constructor].
Qed.
Lemma ready_repeat : forall n g, ready g -> Forall ready (repeat g n).
Proof. intros n g R. apply Forall_forall. intros x I. apply repeat_spec in I. subst x. exact R. Qed.
Theorem Simplify_ready : forall g, parsed g -> runes_ok sf om (erase g) -> ready (Simplify g).
Proof.
  induction g using gre_ind'; intros PA RO; try (split; [exact PA|exact RO]; fail).
  - destruct (IHg PA RO) as (A & B). split; [exact A|exact B].
  - apply (ready_simplify1 OStar), IHg; assumption.
  - apply (ready_simplify1 OPlus), IHg; assumption.
  - apply (ready_simplify1 OQuest), IHg; assumption.
  - cbn [parsed] in PA. destruct PA as (LE & PA). cbn [erase runes_ok] in RO. specialize (IHg PA RO). cbn [Simplify]. set (s := Simplify g) in *.
    destruct b as [b|].
    + destruct (Nat.eqb a 0 && Nat.eqb b 0)%bool eqn:Z0; [split; exact I|]. destruct (Nat.eqb a 1 && Nat.eqb b 1)%bool; [exact IHg|].
      destruct (Nat.ltb_spec a b) as [LT|LT].
      * assert (ready (suffix_loop (b - a - 1) ng s (simplify1 OQuest ng s))) as RS by (apply ready_suffix; [exact IHg|apply ready_simplify1, IHg]).
        destruct (Nat.eqb a 0); [exact RS|]. apply ready_concat, Forall_app. split; [apply ready_repeat, IHg|constructor; [exact RS|constructor]].
      * destruct (Nat.ltb_spec 0 a) as [LA|LA]; [apply ready_concat, ready_repeat, IHg|].
        assert (a = 0%nat) as -> by lia. assert (b = 0%nat) as -> by lia. discriminate.
    + destruct a as [|[|a]]; [apply ready_simplify1, IHg|apply ready_simplify1, IHg|].
      apply ready_concat, Forall_app. split; [apply ready_repeat, IHg|constructor; [apply ready_simplify1, IHg|constructor]].
  - cbn [parsed] in PA. apply (proj1 (parsed_all _)) in PA. cbn [erase runes_ok] in RO. apply runes_ok_all in RO. cbn [Simplify]. apply ready_concat.
    induction H as [|g l Hg _ IH]; [constructor|]. apply Forall_cons_iff in PA, RO. destruct PA as (P1 & PA), RO as (R1 & RO). cbn [map]. constructor; [apply Hg; assumption|apply IH; assumption].
  - cbn [parsed] in PA. destruct PA as (NE & PA). apply (proj1 (parsed_all _)) in PA. cbn [erase runes_ok] in RO. apply runes_ok_all in RO. cbn [Simplify].
    apply ready_alternate; [intros E; apply map_eq_nil in E; exact (NE E)|]. clear NE.
    induction H as [|g l Hg _ IH]; [constructor|]. apply Forall_cons_iff in PA, RO. destruct PA as (P1 & PA), RO as (R1 & RO). cbn [map]. constructor; [apply Hg; assumption|apply IH; assumption].
Qed.

(** regexp.go:34-44 *)
Theorem compiled_program : forall g, parsed g -> runes_ok sf om (erase g) ->
  exists P, Compile sf (Simplify g) = Some P /\ wf_xprog sf om P /\ faithful sf (erase g) P.
Proof.
  intros g PA RO. destruct (Simplify_ready g PA RO) as (SI & RO'). destruct (Compile_ok (Simplify g) SI RO') as (P & E & W & F).
  exists P. split; [exact E|]. split; [exact W|]. intros bot eot line NL. rewrite (F bot eot line NL). unfold in_line.
  split; intros (u & w & v & EL & A); exists u, w, v; (split; [exact EL|]); apply (Simplify_same g PA); exact A.
Qed.
End Top.
