(** Fragments of rune programs and what they match. *)
From Verif Require Import Model.Base Model.Utf8 Model.Syntax Model.Matcher Model.Utf Spec.Utf8Spec Spec.RegexSpec Spec.MatchSpec
  Spec.RuneProgSpec Spec.ExprSpec Spec.ParsedSpec Proofs.ExprLines Proofs.AnalyzeSound Proofs.Thompson.
From Coq Require Import Relations.
Local Open Scope N_scope.

Definition lang : Type := str -> str -> str -> Prop.
Definition same (M M' : lang) : Prop := forall pre w post, M pre w post <-> M' pre w post.
Definition l_seq (M M' : lang) : lang := fun pre w post =>
  exists u v, w = u ++ v /\ M pre u (v ++ post) /\ M' (pre ++ u) v post.
Definition l_alt (M M' : lang) : lang := fun pre w post => M pre w post \/ M' pre w post.
Definition l_star (M : lang) : lang := fun pre w post => exists k, times M k pre w post.
Definition l_plus (M : lang) : lang := fun pre w post => exists k, times M (S k) pre w post.
Definition l_eps : lang := fun pre w post => w = [].
Definition l_opt (M : lang) : lang := fun pre w post => w = [] \/ M pre w post.

Lemma times_same : forall M M', same M M' -> forall k, same (times M k) (times M' k).
Proof. intros M M' H k pre w post. apply times_ext, H. Qed.
Lemma same_refl : forall M, same M M.
Proof. intros M pre w post. reflexivity. Qed.
Lemma same_sym : forall M M', same M M' -> same M' M.
Proof. intros M M' H pre w post. symmetry. apply H. Qed.
Lemma same_trans : forall M M' M'', same M M' -> same M' M'' -> same M M''.
Proof. intros M M' M'' H H' pre w post. rewrite (H pre w post). apply H'. Qed.
Lemma seq_same : forall M1 M1' M2 M2', same M1 M1' -> same M2 M2' -> same (l_seq M1 M2) (l_seq M1' M2').
Proof.
  intros M1 M1' M2 M2' H1 H2 pre w post. split; intros (u & v & E & A & B); exists u, v; (split; [exact E|]); (split; [apply H1, A|apply H2, B]).
Qed.
Lemma alt_same : forall M1 M1' M2 M2', same M1 M1' -> same M2 M2' -> same (l_alt M1 M2) (l_alt M1' M2').
Proof. intros M1 M1' M2 M2' H1 H2 pre w post. unfold l_alt. rewrite (H1 pre w post), (H2 pre w post). reflexivity. Qed.
Lemma opt_same : forall M M', same M M' -> same (l_opt M) (l_opt M').
Proof. intros M M' H pre w post. unfold l_opt. rewrite (H pre w post). reflexivity. Qed.
Lemma star_same : forall M M', same M M' -> same (l_star M) (l_star M').
Proof. intros M M' H pre w post. split; intros (k & T); exists k; apply (times_same M M' H), T. Qed.
Lemma plus_same : forall M M', same M M' -> same (l_plus M) (l_plus M').
Proof. intros M M' H pre w post. split; intros (k & T); exists k; apply (times_same M M' H), T. Qed.
Lemma star_opt_plus : forall M, same (l_star M) (l_opt (l_plus M)).
Proof.
  intros M pre w post. split.
  - intros ([|k] & T); [left; exact T|right; exists k; exact T].
  - intros [->|(k & T)]; [exists 0%nat; reflexivity|exists (S k); exact T].
Qed.
Lemma seq_eps_l : forall M, same (l_seq l_eps M) M.
Proof.
  intros M pre w post. split; [intros (u & v & -> & -> & B); rewrite app_nil_r in B; exact B|].
  intros B. exists [], w. rewrite app_nil_r. split; [reflexivity|]. split; [reflexivity|exact B].
Qed.
Lemma seq_eps_r : forall M, same (l_seq M l_eps) M.
Proof.
  intros M pre w post. split; [intros (u & v & -> & B & ->); rewrite app_nil_r; exact B|].
  intros B. exists w, []. rewrite app_nil_r. split; [reflexivity|]. split; [exact B|reflexivity].
Qed.
Lemma seq_assoc : forall A B C, same (l_seq (l_seq A B) C) (l_seq A (l_seq B C)).
Proof.
  intros A B C pre w post. split.
  - intros (u & v & -> & (x & y & -> & HA & HB) & HC). exists x, (y ++ v). split; [rewrite app_assoc; reflexivity|].
    split; [rewrite <- app_assoc; exact HA|]. exists y, v. split; [reflexivity|]. split; [exact HB|]. rewrite <- app_assoc. exact HC.
  - intros (x & z & -> & HA & y & v & -> & HB & HC). exists (x ++ y), v. split; [rewrite app_assoc; reflexivity|].
    split; [|rewrite app_assoc; exact HC]. exists x, y. split; [reflexivity|]. split; [rewrite <- app_assoc in HA; exact HA|exact HB].
Qed.

Section Run.
Variable sf : N -> N.
Variable P : xprog.
Variable line : list N.
Variable bot eot : bool.
Notation B := (if bot then [] else [10]).
Notation E := (if eot then [] else [10]).
Notation runs := (runs sf P line bot eot).
Notation nruns := (nruns sf P line bot eot).

Definition LM (M : lang) (i j : nat) : Prop :=
  exists u w v, line = u ++ w ++ v /\ i = length u /\ j = (length u + length w)%nat /\ M (B ++ u) w (v ++ E).
Lemma LM_le : forall M i j, LM M i j -> (i <= j <= length line)%nat.
Proof. intros M i j (u & w & v & -> & -> & -> & _). rewrite !app_length. lia. Qed.
Lemma LM_same : forall M M' i j, same M M' -> LM M i j -> LM M' i j.
Proof. intros M M' i j H (u & w & v & EL & Ei & Ej & A). exists u, w, v. split; [exact EL|]. split; [exact Ei|]. split; [exact Ej|apply H, A]. Qed.
Lemma LM_eps : forall i j, LM l_eps i j <-> i = j /\ (i <= length line)%nat.
Proof.
  intros i j. split.
  - intros (u & w & v & -> & -> & -> & ->). rewrite !app_length. cbn [length]. lia.
  - intros (<- & L). destruct (cut line i L) as (u & v & EL & ->). exists u, [], v. cbn [length app]. rewrite Nat.add_0_r.
    split; [exact EL|]. split; [reflexivity|]. split; reflexivity.
Qed.
Lemma LM_seq : forall M M' i j, LM (l_seq M M') i j <-> exists m, LM M i m /\ LM M' m j.
Proof.
  intros M M' i j. split.
  - intros (u & w & v & EL & -> & -> & x & y & -> & A & C). exists (length u + length x)%nat. split.
    + exists u, x, (y ++ v). split; [rewrite EL, <- app_assoc; reflexivity|]. split; [reflexivity|]. split; [reflexivity|].
      rewrite <- app_assoc. exact A.
    + exists (u ++ x), y, v. split; [rewrite EL, <- !app_assoc; reflexivity|]. split; [rewrite app_length; reflexivity|].
      split; [rewrite !app_length; lia|]. rewrite app_assoc. exact C.
  - intros (m & (u & w & v & EL & -> & -> & A) & (u' & w' & v' & EL' & EM & -> & C)).
    rewrite app_assoc in EL. rewrite EL in EL'. destruct (same_cut (u ++ w) v u' (w' ++ v') EL') as (<- & ->); [rewrite app_length; exact EM|].
    exists u, (w ++ w'), v'. split; [rewrite EL, <- !app_assoc; reflexivity|]. split; [reflexivity|]. split; [rewrite !app_length; lia|].
    exists w, w'. split; [reflexivity|]. split; [rewrite <- app_assoc in A; exact A|]. rewrite <- app_assoc. exact C.
Qed.
Lemma LM_alt : forall M M' i j, LM (l_alt M M') i j <-> LM M i j \/ LM M' i j.
Proof.
  intros M M' i j. split.
  - intros (u & w & v & EL & Ei & Ej & [A|A]); [left|right]; exists u, w, v; auto.
  - intros [(u & w & v & EL & Ei & Ej & A)|(u & w & v & EL & Ei & Ej & A)]; exists u, w, v; (split; [exact EL|]); (split; [exact Ei|]); (split; [exact Ej|]); [left|right]; exact A.
Qed.
Lemma LM_opt : forall M i j, LM (l_opt M) i j <-> (i = j /\ (i <= length line)%nat) \/ LM M i j.
Proof. intros M i j. rewrite <- LM_eps. apply (LM_alt l_eps M). Qed.
(* one or more *)
Lemma plus_once : forall M, same (l_plus M) (l_alt M (l_seq M (l_plus M))).
Proof.
  intros M pre w post. split.
  - intros ([|k] & u & v & -> & A & T).
    + cbn [times] in T. subst v. left. rewrite app_nil_r in *. exact A.
    + right. exists u, v. split; [reflexivity|]. split; [exact A|]. exists k. exact T.
  - intros [A|(u & v & -> & A & k & T)].
    + exists 0%nat, w, []. rewrite app_nil_r. split; [reflexivity|]. split; [exact A|reflexivity].
    + exists (S k), u, v. auto.
Qed.
Lemma LM_plus_one : forall M i j, LM M i j -> LM (l_plus M) i j.
Proof. intros M i j A. apply (LM_same _ _ _ _ (same_sym _ _ (plus_once M))), LM_alt. left. exact A. Qed.
Lemma LM_plus_cons : forall M i m j, LM M i m -> LM (l_plus M) m j -> LM (l_plus M) i j.
Proof. intros M i m j A C. apply (LM_same _ _ _ _ (same_sym _ _ (plus_once M))), LM_alt. right. apply LM_seq. exists m. auto. Qed.
Lemma LM_plus_elim : forall M (R : nat -> nat -> Prop), (forall i j, LM M i j -> R i j) ->
  (forall i m j, LM M i m -> R m j -> R i j) -> forall i j, LM (l_plus M) i j -> R i j.
Proof.
  intros M R R0 R1 i j (u & w & v & EL & -> & -> & n & T). revert u w v EL T. induction n as [|n IH]; intros u w v EL T; destruct T as (x & y & -> & A & C).
  - cbn [times] in C. subst y. apply R0. exists u, x, v. rewrite app_nil_r in *. auto.
  - apply (R1 _ (length u + length x)%nat).
    + exists u, x, (y ++ v). split; [rewrite EL, <- app_assoc; reflexivity|]. split; [reflexivity|]. split; [reflexivity|].
      rewrite <- app_assoc. exact A.
    + replace (length u + length (x ++ y))%nat with (length (u ++ x) + length y)%nat by (rewrite !app_length; lia).
      rewrite <- app_length. apply (IH (u ++ x) y v); [rewrite EL, <- !app_assoc; reflexivity|]. rewrite app_assoc. exact C.
Qed.

(** The instructions from [lo] to [hi], entered at [e], match [M] and go on at [nx]. *)
Definition out (lo hi pc : N) : Prop := pc < lo \/ hi <= pc.
Definition sem (lo hi e nx : N) (M : lang) : Prop :=
  (forall i j, LM M i j -> runs (e, i) (nx, j)) /\
  (forall n i t, (i <= length line)%nat -> nruns n (e, i) t -> out lo hi (fst t) ->
     exists m j, (m < n)%nat /\ LM M i j /\ nruns m (nx, j) t).

Lemma sem_same : forall lo hi e nx M M', same M M' -> sem lo hi e nx M -> sem lo hi e nx M'.
Proof.
  intros lo hi e nx M M' H (F & G). split.
  - intros i j A. apply F. apply (LM_same M' M); [apply same_sym, H|exact A].
  - intros n i t L R O. destruct (G n i t L R O) as (m & j & Lm & A & R'). exists m, j. split; [exact Lm|]. split; [apply (LM_same M M' _ _ H A)|exact R'].
Qed.
Lemma sem_seq : forall lo mid hi e1 e2 nx M1 M2, lo <= mid -> mid <= hi ->
  sem lo mid e1 e2 M1 -> sem mid hi e2 nx M2 -> sem lo hi e1 nx (l_seq M1 M2).
Proof.
  intros lo mid hi e1 e2 nx M1 M2 L1 L2 (F1 & G1) (F2 & G2). split.
  - intros i j A. apply LM_seq in A. destruct A as (m & A1 & A2). eapply runs_trans; [apply F1, A1|apply F2, A2].
  - intros n i t Li R O. unfold out in *. destruct (G1 n i t Li R ltac:(unfold out; lia)) as (m1 & j1 & Lm1 & A1 & R1).
    destruct (G2 m1 j1 t (proj2 (LM_le _ _ _ A1)) R1 ltac:(unfold out; lia)) as (m2 & j2 & Lm2 & A2 & R2).
    exists m2, j2. split; [lia|]. split; [apply LM_seq; exists j1; auto|exact R2].
Qed.
Lemma at_alt : forall h a b i n t, xinstr P h (XB (IAlt a b)) -> nruns n (h, i) t -> fst t <> h ->
  exists n', n = S n' /\ (nruns n' (a, i) t \/ nruns n' (b, i) t).
Proof.
  intros h a b i n t X R D. inversion R as [s|n0 s u t' S R0]; subst; [exfalso; apply D; reflexivity|]. exists n0. split; [reflexivity|].
  inversion S; subst; match goal with H : xinstr P h ?y |- _ => pose proof (xinstr_fun _ _ _ _ X H) as Y end; try discriminate; [| |subst; discriminate].
  - injection Y as <- <-. left. exact R0.
  - injection Y as <- <-. right. exact R0.
Qed.
Lemma sem_alt : forall lo mid h e1 e2 nx M1 M2, lo <= mid -> mid <= h -> xinstr P h (XB (IAlt e1 e2)) ->
  sem lo mid e1 nx M1 -> sem mid h e2 nx M2 -> sem lo (h + 1) h nx (l_alt M1 M2).
Proof.
  intros lo mid h e1 e2 nx M1 M2 L1 L2 X (F1 & G1) (F2 & G2). split.
  - intros i j A. apply LM_alt in A. destruct A as [A|A].
    + eapply runs_step; [eapply xstep_alt1, X|apply F1, A].
    + eapply runs_step; [eapply xstep_alt2, X|apply F2, A].
  - intros n i t Li R O. unfold out in *. destruct (at_alt h e1 e2 i n t X R ltac:(lia)) as (n' & -> & [R'|R']).
    + destruct (G1 n' i t Li R' ltac:(unfold out; lia)) as (m & j & Lm & A & R1). exists m, j. split; [lia|]. split; [apply LM_alt; auto|exact R1].
    + destruct (G2 n' i t Li R' ltac:(unfold out; lia)) as (m & j & Lm & A & R1). exists m, j. split; [lia|]. split; [apply LM_alt; auto|exact R1].
Qed.
(** Either branch may come first. *)
Definition forks (h a b : N) : Prop := xinstr P h (XB (IAlt a b)) \/ xinstr P h (XB (IAlt b a)).
Lemma forks_left : forall h a b i j t, forks h a b -> runs (a, i) (t, j) -> runs (h, i) (t, j).
Proof. intros h a b i j t [X|X] R; (eapply runs_step; [|exact R]); [eapply xstep_alt1, X|eapply xstep_alt2, X]. Qed.
Lemma forks_right : forall h a b i j t, forks h a b -> runs (b, i) (t, j) -> runs (h, i) (t, j).
Proof. intros h a b i j t [X|X] R; (eapply runs_step; [|exact R]); [eapply xstep_alt2, X|eapply xstep_alt1, X]. Qed.
Lemma at_fork : forall h a b i n t, forks h a b -> nruns n (h, i) t -> fst t <> h ->
  exists n', n = S n' /\ (nruns n' (a, i) t \/ nruns n' (b, i) t).
Proof. intros h a b i n t [X|X] R D; destruct (at_alt _ _ _ _ _ _ X R D) as (n' & -> & [R'|R']); exists n'; auto. Qed.
Lemma sem_quest : forall lo h e nx M, lo <= h -> forks h e nx -> sem lo h e nx M -> sem lo (h + 1) h nx (l_opt M).
Proof.
  intros lo h e nx M L X (F & G). split.
  - intros i j A. apply LM_opt in A. destruct A as [(<- & _)|A].
    + eapply forks_right; [exact X|]. apply rt1n_refl.
    + eapply forks_left; [exact X|]. apply F, A.
  - intros n i t Li R O. unfold out in *. destruct (at_fork h e nx i n t X R ltac:(lia)) as (n' & -> & [R'|R']).
    + destruct (G n' i t Li R' ltac:(unfold out; lia)) as (m & j & Lm & A & R1). exists m, j. split; [lia|]. split; [apply LM_opt; auto|exact R1].
    + exists n', i. split; [lia|]. split; [apply LM_opt; auto|exact R'].
Qed.
Lemma sem_plus : forall lo h e nx M, lo <= h -> forks h e nx -> sem lo h e h M -> sem lo (h + 1) e nx (l_plus M).
Proof.
  intros lo h e nx M L X (F & G). split.
  - apply (LM_plus_elim M (fun i j => runs (e, i) (nx, j))).
    + intros i j A. eapply runs_trans; [apply F, A|]. eapply forks_right; [exact X|]. apply rt1n_refl.
    + intros i m j A R. eapply runs_trans; [apply F, A|]. eapply forks_left; [exact X|]. exact R.
  - intros n. induction n as [n IHn] using (well_founded_induction Wf_nat.lt_wf). intros i t Li R O. unfold out in *.
    destruct (G n i t Li R ltac:(unfold out; lia)) as (m & j & Lm & A & R1).
    destruct (at_fork h e nx j m t X R1 ltac:(lia)) as (n' & -> & [R'|R']).
    + destruct (IHn n' ltac:(lia) j t (proj2 (LM_le _ _ _ A)) R' O) as (m' & j' & Lm' & A' & R2).
      exists m', j'. split; [lia|]. split; [eapply LM_plus_cons; eauto|exact R2].
    + exists n', j. split; [lia|]. split; [apply LM_plus_one, A|exact R'].
Qed.
Lemma sem_star : forall lo h e nx M, lo <= h -> forks h e nx -> sem lo h e h M -> sem lo (h + 1) h nx (l_star M).
Proof.
  intros lo h e nx M L X S. pose proof (sem_plus lo h e nx M L X S) as (F & G).
  apply (sem_same _ _ _ _ _ _ (same_sym _ _ (star_opt_plus M))). split.
  - intros i j A. apply LM_opt in A. destruct A as [(<- & _)|A].
    + eapply forks_right; [exact X|]. apply rt1n_refl.
    + eapply forks_left; [exact X|]. apply F, A.
  - intros n i t Li R O. unfold out in *. destruct (at_fork h e nx i n t X R ltac:(lia)) as (n' & -> & [R'|R']).
    + destruct (G n' i t Li R' ltac:(unfold out; lia)) as (m & j & Lm & A & R1). exists m, j. split; [lia|]. split; [apply LM_opt; auto|exact R1].
    + exists n', i. split; [lia|]. split; [apply LM_opt; auto|exact R'].
Qed.

(** Single instructions. *)
Lemma sem_nop : forall h nx, xinstr P h (XB (INop nx)) -> sem h (h + 1) h nx l_eps.
Proof.
  intros h nx X. split.
  - intros i j A. apply LM_eps in A. destruct A as (<- & _). eapply runs_step; [eapply xstep_nop, X|apply rt1n_refl].
  - intros n i t Li R O. unfold out in O. inversion R as [s|n0 s u t' S R0]; subst; [cbn [fst] in O; lia|].
    exists n0, i. split; [lia|]. split; [apply LM_eps; auto|].
    inversion S; subst; match goal with H : xinstr P h ?y |- _ => pose proof (xinstr_fun _ _ _ _ X H) as Y end; try discriminate; [|subst; discriminate].
    injection Y as ->. exact R0.
Qed.
Hypothesis NL : ~ In 10 line.
Lemma sem_assert : forall h z nx, xinstr P h (XB (IEmpty (zbits z) nx)) ->
  sem h (h + 1) h nx (fun pre w post => w = [] /\ assertion z pre post).
Proof.
  intros h z nx X. split.
  - intros i j (u & w & v & EL & -> & -> & -> & A). cbn [app length] in *. rewrite Nat.add_0_r.
    eapply runs_step; [|apply rt1n_refl]. eapply xstep_assert; [exact X|]. apply (assertion_holds line bot eot u v z EL NL), A.
  - intros n i t Li R O. unfold out in O. inversion R as [s|n0 s u t' S R0]; subst; [cbn [fst] in O; lia|].
    inversion S; subst; match goal with H : xinstr P h ?y |- _ => pose proof (xinstr_fun _ _ _ _ X H) as Y end; try discriminate; [|subst; discriminate].
    injection Y as <- <-. exists n0, i. split; [lia|]. split; [|exact R0]. destruct (cut line i Li) as (x & y & EL & ->).
    exists x, [], y. cbn [app length]. rewrite Nat.add_0_r. split; [exact EL|]. split; [reflexivity|]. split; [reflexivity|]. split; [reflexivity|].
    apply (assertion_holds line bot eot x y z EL NL). assumption.
Qed.
Lemma sem_step : forall h x nx M, xinstr P h x -> rune_out x = Some nx -> (forall pre w post, M pre w post <-> accepts sf utf8 x w) ->
  sem h (h + 1) h nx M.
Proof.
  intros h x nx M X RO AC. split.
  - intros i j (u & w & v & EL & -> & -> & A). eapply runs_step; [|apply rt1n_refl].
    eapply xstep_rune; [exact X|exact RO|apply AC in A; exact A|exact EL|reflexivity|reflexivity].
  - intros n i t Li R O. unfold out in O. inversion R as [s|n0 s u t' S R0]; subst; [cbn [fst] in O; lia|].
    inversion S; subst; match goal with H : xinstr P h ?y |- _ => pose proof (xinstr_fun _ _ _ _ X H) as Y end;
      try (exfalso; rewrite Y in RO; discriminate).
    subst. match goal with H : rune_out _ = Some ?o |- _ => assert (o = nx) as -> by congruence end.
    exists n0, (length u0 + length w)%nat. split; [lia|]. split; [|exact R0]. exists u0, w, v. split; [assumption|]. split; [reflexivity|].
    split; [reflexivity|]. apply AC. assumption.
Qed.
End Run.
