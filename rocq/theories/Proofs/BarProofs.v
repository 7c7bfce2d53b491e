(** The search bar. *)
From Verif Require Import Model.Base Model.PageState Model.PageAddress Model.PageForm Model.PageSelect Model.PageBar
  Spec.Names Spec.ApiSpec Spec.FormSpec Spec.BarSpec Proofs.StrLemmas Proofs.FormProofs Proofs.AddressProofs Proofs.SelectProofs.
From Coq Require Import Lia.
Local Open Scope N_scope.

(** * Lists *)
Lemma chosen_in : forall l r, In r (selected_in l) <-> In (r, true) l.
Proof.
  intros l r. unfold selected_in. rewrite in_map_iff. split.
  - intros ((r' & b) & <- & I). apply filter_In in I. destruct I as (I & B). cbn [snd fst] in *. subst b. exact I.
  - intros I. exists (r, true). split; [reflexivity|]. apply filter_In. auto.
Qed.
Lemma selected_incl : forall l, incl (selected_in l) (map fst l).
Proof. intros l r I. apply chosen_in in I. apply in_map_iff. exists (r, true). auto. Qed.
Lemma selected_nodup : forall l, NoDup (map fst l) -> NoDup (selected_in l).
Proof.
  induction l as [|(r & b) l IH]; intros ND; [constructor|]. cbn [map fst] in ND. inversion ND; subst. unfold selected_in. cbn [filter snd].
  destruct b; [|apply IH; assumption]. cbn [map fst]. constructor; [|apply IH; assumption].
  intros I. apply H1. apply (selected_incl l). exact I.
Qed.
Lemma selected_all : forall l, length (selected_in l) = length (map fst l) -> forall r b, In (r, b) l -> b = true.
Proof.
  assert (LE : forall l, (length (selected_in l) <= length (map fst l))%nat).
  { unfold selected_in. intros l. rewrite !map_length. induction l as [|(r & []) l IH]; cbn [filter snd length]; lia. }
  induction l as [|(r & b) l IH]; intros E r' b' I; [contradiction|]. unfold selected_in in E. cbn [filter snd] in E. destruct b.
  - cbn [map fst length] in E. cbn [In] in I. destruct I as [I|I]; [congruence|]. apply (IH ltac:(unfold selected_in; congruence) r' b' I).
  - exfalso. specialize (LE l). unfold selected_in in LE. cbn [map fst length] in E. lia.
Qed.

Lemma join_commas : forall l, comma_list l (join l).
Proof.
  intros [|r l]; [constructor|]. revert r. induction l as [|r' l IH]; intros r; [constructor|].
  change (join (r :: r' :: l)) with (r ++ 44 :: join (r' :: l)). constructor. apply IH.
Qed.

(** * What a search asks for *)
Lemma params_of : forall s p, bar_params s = Some p -> exists all, br_known s = Some all /\
  get_param p (text "repos") = Some (selected_repos all (br_value s)) /\
  get_param p (text "q") = Some (trim (br_q s)) /\ get_param p (text "files") = Some (trim (br_files s)) /\
  get_param p (text "excludeFiles") = Some (trim (br_exclude s)) /\ get_param p (text "i") = Some (box (br_i s)) /\
  get_param p (text "literal") = Some (box (br_literal s)).
Proof.
  intros s p H. unfold bar_params in H. destruct (br_known s) as [all|]; [|discriminate]. cbn [bind] in H. injection H as <-.
  exists all. split; [reflexivity|]. repeat split; reflexivity.
Qed.

Section Run.
Variables (p0 : params) (all : list str).
Hypothesis ND : NoDup all.
Hypothesis ORD : Forall (fun r => ~ In r inherited) all.

(** The list holds nothing, or the repositories. *)
Definition listed (s : bar) : Prop := (br_known s = None /\ br_list s = []) \/ (br_known s = Some all /\ map fst (br_list s) = all).
Lemma focus_q_same : forall s, br_list (focus_q s) = br_list s /\ br_value (focus_q s) = br_value s /\ br_marks (focus_q s) = br_marks s /\ br_known (focus_q s) = br_known s /\
  br_q (focus_q s) = br_q s /\ br_files (focus_q s) = br_files s /\ br_exclude (focus_q s) = br_exclude s /\ br_i (focus_q s) = br_i s /\ br_literal (focus_q s) = br_literal s.
Proof. intros s. unfold focus_q, queryGotFocus. destruct (br_focus s); try destruct (hasAdvancedValues _); repeat split. Qed.

Lemma marks_fst : forall marks s, map fst (br_list (take_marks marks s)) = map fst (br_list s).
Proof. intros marks s. unfold take_marks. cbn [br_list set_list]. rewrite map_map. reflexivity. Qed.

(** Every deed but three leaves the list, and what React knows of it, alone. *)
Definition list_same (s s' : bar) : Prop := br_list s' = br_list s /\ br_value s' = br_value s /\ br_marks s' = br_marks s /\ br_known s' = br_known s.
Definition fields_same (s s' : bar) : Prop :=
  br_q s' = br_q s /\ br_files s' = br_files s /\ br_exclude s' = br_exclude s /\ br_i s' = br_i s /\ br_literal s' = br_literal s.
Lemma hide_same : forall s, list_same s (hideAdvanced s) /\ fields_same s (hideAdvanced s).
Proof. intros s. destruct (focus_q_same (set_open false s)) as (A & B & C & D & E). split; [unfold list_same; auto|exact E]. Qed.
Lemma focus_q_kept : forall s, list_same s (focus_q s) /\ fields_same s (focus_q s).
Proof. intros s. destruct (focus_q_same s) as (A & B & C & D & E). split; [unfold list_same; auto|exact E]. Qed.
Lemma kept_refl : forall s, list_same s s /\ fields_same s s.
Proof. intros s. split; repeat split. Qed.
Lemma kept_trans : forall s s' s'', list_same s s' /\ fields_same s s' -> list_same s' s'' /\ fields_same s' s'' -> list_same s s'' /\ fields_same s s''.
Proof. unfold list_same, fields_same. intros s s' s''. intuition congruence. Qed.
Lemma focus_kept : forall f s, let s' := match f with InQ => focus_q s | InFiles => focus_files s | InExclude => focus_exclude s | Elsewhere => set_focus Elsewhere s end in
  list_same s s' /\ fields_same s s'.
Proof.
  intros [] s; cbv zeta; [apply focus_q_kept|unfold focus_files|unfold focus_exclude|]; try (destruct (br_focus s)); repeat split.
Qed.
Lemma set_params_list : forall p s s', setParams p s = Some s' -> list_same s s' /\ br_open s' = br_open s /\ br_focus s' = br_focus s.
Proof.
  intros p s s' H. unfold setParams in H. destruct (get_param p n_q); [|discriminate]. cbn [bind] in H. destruct (get_param p n_i); [|discriminate]. cbn [bind] in H.
  destruct (get_param p n_literal); [|discriminate]. cbn [bind] in H. destruct (get_param p n_files); [|discriminate]. cbn [bind] in H.
  destruct (get_param p n_exclude); [|discriminate]. cbn [bind] in H. injection H as <-. repeat split.
Qed.
Definition list_deed (e : deed) : Prop := match e with Choose _ | Loaded | Answered => True | _ => False end.
Lemma step_list : forall s e s' r, bar_step p0 all s e s' r -> list_deed e \/ list_same s s'.
Proof.
  intros s e s' r ST. destruct ST; try (left; exact I); right; try (repeat split; fail).
  - apply (focus_kept f s).
  - destruct (br_focus s) eqn:F; try apply kept_refl. apply (focus_kept InFiles s).
  - destruct (br_focus s); [apply hide_same| | |apply kept_refl];
    (destruct (isAdvancedEmpty s); [apply (kept_trans s (hideAdvanced s)); [apply hide_same|apply focus_q_kept]|apply focus_q_kept]).
  - apply hide_same.
  - apply (set_params_list p s s' H).
Qed.
Lemma step_fields : forall s e s' r, bar_step p0 all s e s' r -> edits e \/ fields_same s s'.
Proof.
  intros s e s' r ST. destruct ST; try (left; exact I); right; try (repeat split; fail).
  - apply (focus_kept f s).
  - destruct (br_focus s) eqn:F; try apply kept_refl. apply (focus_kept InFiles s).
  - destruct (br_focus s); [apply hide_same| | |apply kept_refl];
    (destruct (isAdvancedEmpty s); [apply (kept_trans s (hideAdvanced s)); [apply hide_same|apply focus_q_kept]|apply focus_q_kept]).
  - apply hide_same.
Qed.

Lemma start_list : forall s, bar_start p0 = Some s -> br_list s = [] /\ br_value s = [] /\ br_marks s = [] /\ br_known s = None.
Proof.
  intros s H. unfold bar_start in H. destruct (setParams p0 _) as [s0|] eqn:E; [|discriminate]. cbn [bind] in H. injection H as <-.
  apply set_params_list in E. destruct E as ((A & B & C & D) & _). cbn [br_list br_value br_marks br_known] in A, B, C, D.
  destruct (focus_q_same (if hasAdvancedValues s0 then showAdvanced s0 else s0)) as (A' & B' & C' & D' & _).
  rewrite A', B', C', D'. destruct (hasAdvancedValues s0); auto.
Qed.

(** Marks are none, or those of the address. *)
Definition marked (s : bar) : Prop := br_marks s = [] \/ address_repos p0 = Some (br_marks s).
Lemma run_listed : forall es s, bar_run p0 all es s -> listed s /\ marked s.
Proof.
  intros es s R. induction R as [s H|es s e s' r R IH ST].
  - destruct (start_list s H) as (A & B & C & D). split; [left; auto|left; exact C].
  - destruct IH as (L & M). destruct (step_list s e s' r ST) as [LD|(A & B & C & D)].
    + inversion ST; subst; cbn [list_deed] in LD; try contradiction.
      * split; [|exact M]. destruct L as [(K & E)|(K & E)]; [|right; split; [exact K|cbn [br_list set_list]; congruence]].
        exfalso. rewrite E in H. destruct l; [congruence|discriminate].
      * split; [|exact M]. right. split; [reflexivity|]. unfold load_repos. cbn [br_list set_list]. rewrite map_map. apply map_id.
      * split; [|right; exact H]. destruct L as [(K & E)|(K & E)]; [left|right].
        -- split; [exact K|]. unfold take_marks. cbn [br_list set_list]. rewrite E. reflexivity.
        -- split; [exact K|]. rewrite marks_fst. exact E.
    + unfold listed, marked. rewrite A, C, D. split; assumption.
Qed.

(** * What is sent is what is shown *)
Definition in_step (s : bar) : Prop := br_value s = selected_in (br_list s).
Lemma in_step_asks : forall es s p, bar_run p0 all es s -> in_step s -> bar_params s = Some p -> as_listed s p.
Proof.
  intros es s p R V B. destruct (run_listed es s R) as (L & _). destruct (params_of s p B) as (known & K & P & _).
  destruct L as [(K' & _)|(K' & LF)]; [congruence|]. assert (known = all) by congruence. subst known. clear K'.
  rewrite V in P. unfold selected_repos in P. cbv zeta in P.
  assert (FS : Forall (fun r => ~ In r inherited) (selected_in (br_list s))).
  { apply Forall_forall. intros r I. apply selected_incl in I. rewrite LF in I. exact (proj1 (Forall_forall _ _) ORD r I). }
  destruct (valid_in all (selected_in (br_list s)) [] FS) as (N1 & I1). fold (ValidRepos all (selected_in (br_list s))) in *.
  assert (SAME : forall r, In r (ValidRepos all (selected_in (br_list s))) <-> chosen s r).
  { intros r. rewrite I1. unfold chosen. rewrite <- chosen_in. cbn [In]. split; [tauto|]. intros I. split; [exact I|]. split; [|tauto].
    rewrite <- LF. apply selected_incl. exact I. }
  destruct (Nat.eqb (length (ValidRepos all (selected_in (br_list s)))) (RepoCount all)) eqn:EQ.
  - exists [], (join []). split; [exact P|]. split; [apply join_commas|]. split; [constructor|]. right. split; [reflexivity|].
    apply Nat.eqb_eq in EQ. unfold RepoCount in EQ.
    assert (LEN : length (selected_in (br_list s)) = length (map fst (br_list s))).
    { rewrite LF. assert (NS : NoDup (selected_in (br_list s))) by (apply selected_nodup; rewrite LF; exact ND).
      assert (S1 : incl (ValidRepos all (selected_in (br_list s))) (selected_in (br_list s))) by (intros r I; apply chosen_in, SAME; exact I).
      assert (S2 : incl (selected_in (br_list s)) all) by (rewrite <- LF; apply selected_incl).
      pose proof (NoDup_incl_length N1 S1). pose proof (NoDup_incl_length NS S2). lia. }
    exact (selected_all (br_list s) LEN).
  - exists (ValidRepos all (selected_in (br_list s))), (join (ValidRepos all (selected_in (br_list s)))). split; [exact P|].
    split; [apply join_commas|]. split; [exact N1|]. left. exact SAME.
Qed.

(** If the address names none of the repositories, the page never selects one. *)
Definition unnamed : Prop := forall marks r, address_repos p0 = Some marks -> In r all -> ~ In r marks.
Lemma given_none : forall marks r, In r all -> (marks = [] \/ address_repos p0 = Some marks) -> unnamed -> given marks r = false.
Proof.
  intros marks r I M U. unfold given. destruct (truthy marks r) eqn:T; [|reflexivity]. apply truthy_in in T. exfalso. destruct T as [T|T].
  - destruct M as [->|M]; [contradiction|]. exact (U marks r M I T).
  - exact (proj1 (Forall_forall _ _) ORD r I T).
Qed.
Lemma map_same : forall {A} (f : A -> A) l, (forall x, In x l -> f x = x) -> map f l = l.
Proof. intros A f l H. induction l as [|x l IH]; [reflexivity|]. cbn [map]. f_equal; [apply H; left; reflexivity|]. apply IH. intros y I. apply H. right. exact I. Qed.
Lemma marks_nothing : forall s marks, listed s -> marked s -> unnamed -> address_repos p0 = Some marks -> br_list (take_marks marks s) = br_list s.
Proof.
  intros s marks L M U A. unfold take_marks. cbn [br_list set_list]. apply map_same. intros (r & b) I. cbn [fst snd].
  destruct L as [(_ & E)|(_ & E)]; [rewrite E in I; contradiction|].
  assert (IA : In r all) by (rewrite <- E; apply in_map_iff; exists (r, b); auto).
  rewrite (given_none (br_marks s) r IA M U), (given_none marks r IA (or_intror A) U). reflexivity.
Qed.
Lemma load_none : forall s, marked s -> unnamed -> selected_in (br_list (load_repos all s)) = [].
Proof.
  intros s M U. unfold load_repos. cbn [br_list set_list].
  assert (X : forall l, incl l all -> selected_in (map (fun r => (r, given (br_marks s) r)) l) = []).
  { induction l as [|r l IH]; intros S1; [reflexivity|]. unfold selected_in. cbn [map filter snd].
    rewrite (given_none (br_marks s) r (S1 r (or_introl eq_refl)) M U). apply IH. intros x I. apply S1. right. exact I. }
  apply X. apply incl_refl.
Qed.
Theorem unnamed_in_step : forall es s, unnamed -> bar_run p0 all es s -> in_step s.
Proof.
  intros es s U R. induction R as [s H|es s e s' r R IH ST].
  - destruct (start_list s H) as (A & B & _). unfold in_step. rewrite A, B. reflexivity.
  - destruct (run_listed es s R) as (L & M). destruct (step_list s e s' r ST) as [LD|(A & B & _)]; [|unfold in_step; rewrite A, B; exact IH].
    inversion ST; subst; cbn [list_deed] in LD; try contradiction; unfold in_step.
    + reflexivity.
    + rewrite (load_none s M U). cbn [load_repos br_value set_list]. destruct L as [(K & E)|(K & E)]; [|congruence]. unfold in_step in IH. rewrite IH, E. reflexivity.
    + rewrite (marks_nothing s marks L M U H). cbn [take_marks br_value set_list]. exact IH.
Qed.

(** Once the user has chosen after an answer. *)
Lemma marks_again : forall s marks, br_marks s = marks -> br_list (take_marks marks s) = br_list s.
Proof.
  intros s marks E. unfold take_marks. cbn [br_list set_list]. apply map_same. intros (r & b) I. cbn [fst snd]. rewrite E, Bool.eqb_reflx. reflexivity.
Qed.
Theorem touched_in_step : forall es1 l es2 s, In Answered es1 -> bar_run p0 all (es1 ++ Choose l :: es2) s -> in_step s.
Proof.
  intros es1 l es2 s IA R.
  assert (AN : forall es s, bar_run p0 all es s -> In Answered es -> address_repos p0 = Some (br_marks s)).
  { clear. intros es s R. induction R as [s H|es s e s' r R IH ST]; intros I; [contradiction|].
    apply in_app_or in I. destruct (step_list s e s' r ST) as [LD|(_ & _ & C & _)].
    - inversion ST; subst; cbn [list_deed] in LD; try contradiction.
      + destruct I as [I|[I|[]]]; [exact (IH I)|discriminate].
      + destruct I as [I|[I|[]]]; [exact (IH I)|discriminate].
      + exact H.
    - destruct I as [I|[I|[]]]; [rewrite C; exact (IH I)|]. subst e. inversion ST; subst. exact H. }
  assert (G : forall es s, bar_run p0 all es s -> forall es2, es = es1 ++ Choose l :: es2 -> in_step s /\ br_known s <> None).
  { clear R s es2. intros es s R. induction R as [s H|es s e s' r R IH ST]; intros es2 E; [destruct es1; discriminate|].
    destruct (run_listed es s R) as (L & M).
    destruct (rev es2) as [|x y] eqn:RV.
    - assert (es2 = []) by (rewrite <- (rev_involutive es2), RV; reflexivity). subst es2. apply app_inj_tail in E. destruct E as (E1 & E2). subst e.
      inversion ST; subst. split; [reflexivity|]. destruct L as [(K & LE)|(K & _)]; [|cbn [set_list br_known]; congruence].
      exfalso. match goal with H : map fst l = _ |- _ => rewrite LE in H; destruct l; [congruence|discriminate] end.
    - assert (E2 : es2 = rev y ++ [x]) by (rewrite <- (rev_involutive es2), RV; reflexivity). subst es2.
      rewrite app_comm_cons, app_assoc in E. apply app_inj_tail in E. destruct E as (E1 & E2). subst x. destruct (IH (rev y) E1) as (S1 & K1).
      destruct (step_list s e s' r ST) as [LD|(A & B & C & D)]; [|unfold in_step; rewrite A, B, D; split; assumption].
      inversion ST; subst; cbn [list_deed] in LD; try contradiction.
      + split; [reflexivity|exact K1].
      + split; [|exact K1]. unfold in_step. rewrite (marks_again s marks).
        * exact S1.
        * assert (IA' : In Answered (es1 ++ Choose l :: rev y)) by (apply in_or_app; left; exact IA).
          pose proof (AN _ _ R IA'). congruence. }
  exact (proj1 (G _ _ R es2 eq_refl)).
Qed.
End Run.

(** * The fields and the address *)
Lemma one_line_neat : forall t, ~ In 10 t -> ~ In 13 t -> one_line t = t.
Proof.
  intros t A B. unfold one_line. induction t as [|c t IH]; [reflexivity|]. cbn [filter].
  assert (C : (c =? 10) || (c =? 13) = false).
  { apply Bool.orb_false_iff. split; apply N.eqb_neq; intros ->; [apply A|apply B]; left; reflexivity. }
  rewrite C. cbn [negb]. f_equal. apply IH; intros I; [apply A|apply B]; right; exact I.
Qed.
Lemma one_line_white : forall t, Forall FormSpec.white t -> Forall FormSpec.white (one_line t).
Proof. intros t F. apply Forall_forall. intros c I. apply filter_In in I. exact (proj1 (Forall_forall _ _) F c (proj1 I)). Qed.
Lemma set_params_fields : forall p s s', setParams p s = Some s' -> exists q i l f x,
  get_param p n_q = Some q /\ get_param p n_i = Some i /\ get_param p n_literal = Some l /\ get_param p n_files = Some f /\ get_param p n_exclude = Some x /\
  s' = set_fields (one_line q) (one_line f) (one_line x) (ParamValueToBool i) (ParamValueToBool l) s.
Proof.
  intros p s s' H. unfold setParams in H. destruct (get_param p n_q) as [q|] eqn:E1; [|discriminate]. cbn [bind] in H.
  destruct (get_param p n_i) as [i|] eqn:E2; [|discriminate]. cbn [bind] in H.
  destruct (get_param p n_literal) as [l|] eqn:E3; [|discriminate]. cbn [bind] in H. destruct (get_param p n_files) as [f|] eqn:E4; [|discriminate]. cbn [bind] in H.
  destruct (get_param p n_exclude) as [x|] eqn:E5; [|discriminate]. cbn [bind] in H. injection H as <-. exists q, i, l, f, x. auto 7.
Qed.
(** The fields are as an address says. *)
Definition shows (p : params) (s : bar) : Prop := exists q i l f x,
  get_param p n_q = Some q /\ get_param p n_i = Some i /\ get_param p n_literal = Some l /\ get_param p n_files = Some f /\ get_param p n_exclude = Some x /\
  br_q s = one_line q /\ br_files s = one_line f /\ br_exclude s = one_line x /\ br_i s = ParamValueToBool i /\ br_literal s = ParamValueToBool l.
Lemma shows_same : forall p s s', shows p s -> fields_same s s' -> shows p s'.
Proof.
  intros p s s' (q & i & l & f & x & A) (E1 & E2 & E3 & E4 & E5). exists q, i, l, f, x. rewrite E1, E2, E3, E4, E5. exact A.
Qed.
Lemma start_shows : forall p0 s, bar_start p0 = Some s -> shows p0 s.
Proof.
  intros p0 s H. unfold bar_start in H. destruct (setParams p0 _) as [s0|] eqn:E; [|discriminate]. cbn [bind] in H. injection H as <-.
  apply set_params_fields in E. destruct E as (q & i & l & f & x & A & B & C & D & F & ->).
  apply (shows_same p0 (set_fields (one_line q) (one_line f) (one_line x) (ParamValueToBool i) (ParamValueToBool l) (mkBar [] [] [] false false [] [] [] None false Elsewhere))).
  - exists q, i, l, f, x. auto 11.
  - destruct (hasAdvancedValues _).
    + exact (proj2 (focus_q_kept (showAdvanced _))).
    + exact (proj2 (focus_q_kept _)).
Qed.
Lemma run_split : forall p0 all es1 es2 s, bar_run p0 all (es1 ++ es2) s -> exists s1, bar_run p0 all es1 s1 /\
  forall P : bar -> Prop, P s1 -> (forall x e y r, In e es2 -> bar_step p0 all x e y r -> P x -> P y) -> P s.
Proof.
  intros p0 all es1 es2. induction es2 as [|e es2 IH] using rev_ind; intros s R.
  - rewrite app_nil_r in R. exists s. split; [exact R|]. auto.
  - rewrite app_assoc in R. inversion R as [? ? EE|es s0 e0 s1 r R0 ST EE].
    + destruct es1; [destruct es2|]; discriminate.
    + apply app_inj_tail in EE. destruct EE as (EE1 & EE2). subst. destruct (IH s0 R0) as (s1 & R1 & K). exists s1. split; [exact R1|].
      intros P H0 H1. apply (H1 s0 e s r); [apply in_or_app; right; left; reflexivity|exact ST|]. apply (K P H0).
      intros x e' y r' I. apply H1. apply in_or_app. left. exact I.
Qed.
Lemma kept_shows : forall p0 all p es2, Forall (fun e => ~ edits e) es2 -> forall es1 s, bar_run p0 all (es1 ++ es2) s ->
  (forall s1, bar_run p0 all es1 s1 -> shows p s1) -> shows p s.
Proof.
  intros p0 all p es2 F es1 s R H. destruct (run_split p0 all es1 es2 s R) as (s1 & R1 & K). apply K; [exact (H s1 R1)|].
  intros x e y r I ST S1. destruct (step_fields p0 all x e y r ST) as [E|E]; [|exact (shows_same p x y S1 E)].
  exfalso. exact (proj1 (Forall_forall _ _) F e I E).
Qed.
Lemma yes_on : forall b, yes (box b) <-> b = true.
Proof.
  intros b. rewrite <- yes_box. destruct b; vm_compute; intuition discriminate.
Qed.
Theorem kept : forall p0 all es s p out, (exists es2, Forall (fun e => ~ edits e) es2 /\ ((p = p0 /\ es = es2) \/ exists es1, es = es1 ++ Back p :: es2)) ->
  bar_run p0 all es s -> bar_params s = Some out ->
  (forall k v, In k [text "q"; text "files"; text "excludeFiles"] -> get_param p k = Some v -> neat v -> get_param out k = Some v) /\
  (forall k v, In k [text "i"; text "literal"] -> get_param p k = Some v -> exists w, get_param out k = Some w /\ (yes w <-> yes v)).
Proof.
  intros p0 all es s p out (es2 & F & W) R B.
  assert (SH : shows p s).
  { destruct W as [(-> & ->)|(es1 & ->)].
    - apply (kept_shows p0 all p0 es2 F [] s R). intros s1 R1. inversion R1 as [? H EE|es s0 e0 s2 r R0 ST EE].
      + exact (start_shows p0 s1 H).
      + destruct es; discriminate.
    - change (Back p :: es2) with ([Back p] ++ es2) in R. rewrite app_assoc in R. apply (kept_shows p0 all p es2 F (es1 ++ [Back p]) s R).
      intros s1 R1. inversion R1 as [? H EE|es s0 e0 s2 r R0 ST EE]; [destruct es1; discriminate|]. apply app_inj_tail in EE. destruct EE as (_ & ->).
      inversion ST; subst. match goal with H : setParams p s0 = Some s1 |- _ => apply set_params_fields in H; destruct H as (q & i & l & f & x & A1 & A2 & A3 & A4 & A5 & ->) end.
      exists q, i, l, f, x. auto 11. }
  destruct SH as (q & i & l & f & x & A1 & A2 & A3 & A4 & A5 & Q & FI & EX & BI & BL).
  destruct (params_of s out B) as (al & _ & _ & PQ & PF & PX & PI & PL).
  assert (T : forall v, neat v -> trim (one_line v) = v) by (intros v (N1 & N2 & W1); rewrite (one_line_neat v N1 N2); apply trim_within; exact W1).
  split.
  - intros k v I G NT. cbn [In] in I. destruct I as [<-|[<-|[<-|[]]]].
    + change (text "q") with n_q in G. rewrite A1 in G. injection G as <-. rewrite PQ, Q, (T q NT). reflexivity.
    + change (text "files") with n_files in G. rewrite A4 in G. injection G as <-. rewrite PF, FI, (T f NT). reflexivity.
    + change (text "excludeFiles") with n_exclude in G. rewrite A5 in G. injection G as <-. rewrite PX, EX, (T x NT). reflexivity.
  - intros k v I G. cbn [In] in I. destruct I as [<-|[<-|[]]].
    + change (text "i") with n_i in G. rewrite A2 in G. injection G as <-. exists (box (br_i s)). split; [exact PI|]. rewrite yes_on, BI. apply yes_box.
    + change (text "literal") with n_literal in G. rewrite A3 in G. injection G as <-. exists (box (br_literal s)). split; [exact PL|]. rewrite yes_on, BL. apply yes_box.
Qed.

Theorem fields_sent : forall s out, bar_params s = Some out ->
  (exists t, get_param out (text "q") = Some t /\ within (br_q s) t) /\ (exists t, get_param out (text "files") = Some t /\ within (br_files s) t) /\
  (exists t, get_param out (text "excludeFiles") = Some t /\ within (br_exclude s) t) /\
  (exists w, get_param out (text "i") = Some w /\ (yes w <-> br_i s = true)) /\ (exists w, get_param out (text "literal") = Some w /\ (yes w <-> br_literal s = true)).
Proof.
  intros s out B. destruct (params_of s out B) as (al & _ & _ & PQ & PF & PX & PI & PL).
  split; [eexists; split; [exact PQ|apply trim_ok]|]. split; [eexists; split; [exact PF|apply trim_ok]|]. split; [eexists; split; [exact PX|apply trim_ok]|].
  split; eexists; (split; [eassumption|apply yes_on]).
Qed.

(** What one deed changes. *)
Theorem written : forall p0 all s e s' r p p', bar_step p0 all s e s' r -> (forall p, e <> Back p) -> bar_params s = Some p -> bar_params s' = Some p' ->
  (forall k t, writes e k t -> neat t -> get_param p' k = Some t) /\
  (forall k w, ticks e k -> get_param p k = Some w -> exists w', get_param p' k = Some w' /\ (yes w' <-> ~ yes w)) /\
  (forall k, In k [text "q"; text "files"; text "excludeFiles"; text "i"; text "literal"] -> ~ ticks e k -> (forall t, ~ writes e k t) -> get_param p' k = get_param p k).
Proof.
  intros p0 all s e s' r p p' ST NB B B'.
  destruct (params_of s p B) as (al & _ & _ & PQ & PF & PX & PI & PL). destruct (params_of s' p' B') as (al' & _ & _ & PQ' & PF' & PX' & PI' & PL').
  assert (T : forall v, neat v -> trim (one_line v) = v) by (intros v (N1 & N2 & W1); rewrite (one_line_neat v N1 N2); apply trim_within; exact W1).
  assert (FL : forall b w, Some (box b) = Some w -> exists w', Some (box (negb b)) = Some w' /\ (yes w' <-> ~ yes w)).
  { intros b w E. injection E as <-. exists (box (negb b)). split; [reflexivity|]. rewrite !yes_on. destruct b; cbn [negb]; intuition discriminate. }
  assert (D : edits e \/ ~ edits e) by (destruct e; cbn [edits]; tauto). destruct D as [ED|NE].
  - inversion ST; subst; cbn [edits] in ED; try contradiction; cbn [set_fields br_q br_files br_exclude br_i br_literal] in *; cbn [writes ticks];
      try (exfalso; eapply NB; reflexivity);
      (split; [intros k v W NT; try contradiction; destruct W as (-> & ->);
               first [exact (eq_trans PQ' (f_equal Some (T _ NT)))|exact (eq_trans PF' (f_equal Some (T _ NT)))|exact (eq_trans PX' (f_equal Some (T _ NT)))]|]);
      (split; [intros k w TK G; try contradiction; subst k;
               first [change (text "i") with n_i in *; rewrite PI in G; rewrite PI'; exact (FL _ _ G)|change (text "literal") with n_literal in *; rewrite PL in G; rewrite PL'; exact (FL _ _ G)]|]);
      intros k I NT NW; cbn [In] in I; destruct I as [<-|[<-|[<-|[<-|[<-|[]]]]]];
      first [exact (eq_trans PQ' (eq_sym PQ))|exact (eq_trans PF' (eq_sym PF))|exact (eq_trans PX' (eq_sym PX))|exact (eq_trans PI' (eq_sym PI))|exact (eq_trans PL' (eq_sym PL))
            |exfalso; apply NT; reflexivity|exfalso; eapply NW; split; reflexivity].
  - destruct (step_fields p0 all s e s' r ST) as [ED|(E1 & E2 & E3 & E4 & E5)]; [contradiction|]. split; [|split].
    + intros k v W _. exfalso. destruct e; cbn [writes edits] in *; tauto.
    + intros k w W _. exfalso. destruct e; cbn [ticks edits] in *; tauto.
    + intros k I _ _. rewrite E1 in PQ'. rewrite E2 in PF'. rewrite E3 in PX'. rewrite E4 in PI'. rewrite E5 in PL'. cbn [In] in I.
      destruct I as [<-|[<-|[<-|[<-|[<-|[]]]]]];
        first [exact (eq_trans PQ' (eq_sym PQ))|exact (eq_trans PF' (eq_sym PF))|exact (eq_trans PX' (eq_sym PX))|exact (eq_trans PI' (eq_sym PI))|exact (eq_trans PL' (eq_sym PL))].
Qed.

(** * The advanced part *)
Lemma trim_empty : forall t, is_empty (trim t) = true <-> Forall FormSpec.white t.
Proof.
  intros t. split.
  - intros E. destruct (trim_ok t) as (a & b & ET & A & B & _). destruct (trim t) as [|c r]; [|discriminate]. rewrite ET. cbn [app].
    apply Forall_app. auto.
  - intros F. rewrite (trim_within t []); [reflexivity|]. exists t, []. rewrite !app_nil_r. repeat split; auto; intros c r E; destruct r; discriminate.
Qed.
Lemma value_empty : forall l, ~ In [] (map fst l) -> is_empty (select_value l) = true <-> (forall r, ~ In (r, true) l).
Proof.
  intros l NE. unfold select_value. split.
  - intros E r I. apply chosen_in in I. destruct (selected_in l) as [|x y] eqn:S1; [contradiction|]. destruct x; [|discriminate].
    apply NE, (selected_incl l). rewrite S1. left. reflexivity.
  - intros H. destruct (selected_in l) as [|x y] eqn:S1; [reflexivity|]. exfalso. apply (H x). apply chosen_in. rewrite S1. left. reflexivity.
Qed.
Lemma advanced_none : forall s, ~ In [] (map fst (br_list s)) -> hasAdvancedValues s = false <-> no_filter s.
Proof.
  intros s NE. unfold hasAdvancedValues, no_filter, chosen. rewrite !Bool.orb_false_iff, !Bool.negb_false_iff, !trim_empty, (value_empty _ NE). tauto.
Qed.
Lemma empty_ok : forall s, isAdvancedEmpty s = true <-> Forall FormSpec.white (br_files s) /\ Forall FormSpec.white (br_exclude s).
Proof. intros s. unfold isAdvancedEmpty. rewrite Bool.andb_true_iff, !trim_empty. tauto. Qed.

Definition seen_inv (s : bar) : Prop := (br_open s = false -> no_filter s) /\ (br_focus s = InFiles \/ br_focus s = InExclude -> br_open s = true).
Lemma no_filter_same : forall s s', list_same s s' -> fields_same s s' -> no_filter s -> no_filter s'.
Proof.
  intros s s' (A & _) (_ & B & C & D & E) NF. unfold no_filter, chosen in *. rewrite A, B, C, D, E. exact NF.
Qed.
Lemma no_filter_kept : forall s s', list_same s s' /\ fields_same s s' -> no_filter s -> no_filter s'.
Proof. intros s s' (A & B). apply no_filter_same; assumption. Qed.

Lemma focus_q_focus : forall s, br_focus (focus_q s) = InQ.
Proof. intros s. unfold focus_q, queryGotFocus. destruct (br_focus s) eqn:F; try exact F; destruct (hasAdvancedValues _); reflexivity. Qed.
Lemma focus_q_inv : forall s, ~ In [] (map fst (br_list s)) -> (br_open s = false -> no_filter s) -> seen_inv (focus_q s).
Proof.
  intros s NE H. split; [|rewrite focus_q_focus; intros [X|X]; discriminate]. intros O. apply (no_filter_kept s _ (focus_q_kept s)).
  unfold focus_q in O. destruct (br_focus s); [exact (H O)| | |]; unfold queryGotFocus in O;
  (destruct (hasAdvancedValues (set_focus InQ s)) eqn:A; [exact (H O)|]); apply advanced_none in A; exact A || exact NE.
Qed.
Lemma named_start : forall p0 s, bar_start p0 = Some s -> seen_inv s /\ br_list s = [].
Proof.
  intros p0 s H. pose proof (start_list p0 s H) as (L & _). split; [|exact L]. unfold bar_start in H.
  destruct (setParams p0 _) as [s0|] eqn:E; [|discriminate]. cbn [bind] in H. injection H as <-. apply set_params_list in E. destruct E as ((A & _) & _).
  cbn [br_list] in A. apply focus_q_inv.
  - destruct (hasAdvancedValues s0); cbn [showAdvanced set_open br_list]; rewrite A; intros [].
  - destruct (hasAdvancedValues s0) eqn:HA; [discriminate|]. intros _. apply advanced_none in HA; [exact HA|rewrite A; intros []].
Qed.

Lemma considered_run : forall p0 all s, considerate_run p0 all s -> exists es, bar_run p0 all es s.
Proof.
  intros p0 all s R. induction R as [s H|s e s' r R (es & IH) C ST]; [exists []; constructor; exact H|]. exists (es ++ [e]). exact (br_step p0 all es s e s' r IH ST).
Qed.
Theorem seen_ok : forall p0 all s, Forall (fun r => ~ In r inherited) all -> ~ In [] all -> unnamed p0 all ->
  considerate_run p0 all s -> seen_inv s.
Proof.
  intros p0 all s ORD NE U R. induction R as [s H|s e s' r R IH C ST].
  - exact (proj1 (named_start p0 s H)).
  - destruct (considered_run p0 all s R) as (es & BR). destruct (run_listed p0 all es s BR) as (L & M).
    assert (NL : ~ In [] (map fst (br_list s))) by (destruct L as [(_ & E)|(_ & E)]; rewrite E; [intros []|exact NE]).
    destruct IH as (O & FO). inversion ST; subst; cbn [considerate] in C.
    + split; [exact O|exact FO].
    + assert (OP : br_open s = true) by auto. split; [intros X; cbn [set_fields br_open] in X; congruence|intros _; exact OP].
    + assert (OP : br_open s = true) by auto. split; [intros X; cbn [set_fields br_open] in X; congruence|intros _; exact OP].
    + split; [intros X; cbn [set_fields br_open] in X; congruence|intros _; exact C].
    + split; [intros X; cbn [set_fields br_open] in X; congruence|intros _; exact C].
    + split; [intros X; cbn [set_list br_open] in X; congruence|intros _; exact C].
    + destruct f.
      * apply focus_q_inv; assumption.
      * unfold focus_files. destruct (br_focus s) eqn:F; try (split; [discriminate|reflexivity]). split; [exact O|rewrite F; exact FO].
      * unfold focus_exclude. destruct (br_focus s) eqn:F; try (split; [discriminate|reflexivity]). split; [exact O|rewrite F; exact FO].
      * split; [exact O|]. cbn [set_focus br_focus]. intros [X|X]; discriminate.
    + destruct (br_focus s) eqn:F; try (split; [exact O|rewrite F; exact FO]). unfold focus_files. rewrite F. split; [discriminate|reflexivity].
    + assert (HID : no_filter s -> seen_inv (hideAdvanced s)) by (intros NF; unfold hideAdvanced; apply focus_q_inv; [exact NL|intros _; exact NF]).
      assert (NLH : ~ In [] (map fst (br_list (hideAdvanced s)))) by (rewrite (proj1 (proj1 (hide_same s))); exact NL).
      assert (MID : br_focus s <> InQ -> seen_inv (focus_q (if isAdvancedEmpty s then hideAdvanced s else s))).
      { intros F. destruct (isAdvancedEmpty s) eqn:EM.
        - destruct C as [NF|(_ & NX)]; [|exfalso; apply NX, empty_ok; exact EM]. apply focus_q_inv; [exact NLH|exact (proj1 (HID NF))].
        - apply focus_q_inv; assumption. }
      destruct (br_focus s) eqn:F; [|apply MID; discriminate|apply MID; discriminate|split; [exact O|rewrite F; exact FO]].
      destruct C as [NF|(X & _)]; [exact (HID NF)|congruence].
    + split; assumption.
    + split; assumption.
    + unfold hideAdvanced. apply focus_q_inv; [exact NL|intros _; exact C].
    + split; [discriminate|reflexivity].
    + split; [|exact FO]. intros X. cbn [load_repos set_list br_open] in X. destruct (O X) as (A1 & A2 & A3 & A4 & _).
      split; [exact A1|]. split; [exact A2|]. split; [exact A3|]. split; [exact A4|]. intros r I. apply chosen_in in I.
      rewrite (load_none p0 all ORD s M U) in I. contradiction.
    + split; [|exact FO]. intros X. cbn [take_marks set_list br_open] in X. destruct (O X) as (A1 & A2 & A3 & A4 & A5).
      split; [exact A1|]. split; [exact A2|]. split; [exact A3|]. split; [exact A4|]. intros r. unfold chosen.
      match goal with H : address_repos p0 = Some _ |- _ => rewrite (marks_nothing p0 all ORD s marks L M U H) end. apply A5.
    + match goal with H : setParams p s = Some s' |- _ => pose proof (set_params_list p s s' H) as ((LS & _) & OP & FC); apply set_params_fields in H;
        destruct H as (q & i & l & f & x & G1 & G2 & G3 & G4 & G5 & E) end.
      split; [|rewrite OP, FC; exact FO]. rewrite OP. intros X. destruct C as [C|(P1 & P2 & P3 & P4)]; [congruence|].
      destruct (O X) as (_ & _ & _ & _ & A5). subst s'. cbn [set_fields br_files br_exclude br_i br_literal].
      split; [apply one_line_white, (P1 f G4)|]. split; [apply one_line_white, (P2 x G5)|]. split; [|split; [|exact A5]].
      * cbn [set_fields br_i]. destruct (ParamValueToBool i) eqn:Y; [|reflexivity]. apply yes_box in Y. exfalso. exact (P3 i G2 Y).
      * cbn [set_fields br_literal]. destruct (ParamValueToBool l) eqn:Y; [|reflexivity]. apply yes_box in Y. exfalso. exact (P4 l G3 Y).
Qed.

(** The page as it comes up. *)
Theorem start_open : forall p0 s, bar_start p0 = Some s -> br_focus s = InQ /\ (br_open s = true <-> ~ no_filter s).
Proof.
  intros p0 s H. pose proof (named_start p0 s H) as ((O & _) & L). unfold bar_start in H. destruct (setParams p0 _) as [s0|] eqn:E; [|discriminate]. cbn [bind] in H.
  apply set_params_list in E. destruct E as ((LS & _) & OP & FC). cbn [br_open br_focus br_list] in OP, FC, LS.
  assert (NL : ~ In [] (map fst (br_list s0))) by (rewrite LS; intros []).
  assert (NS : ~ In [] (map fst (br_list s))) by (rewrite L; intros []).
  split; [injection H as <-; apply focus_q_focus|].
  split.
  - intros X NF. destruct (hasAdvancedValues s0) eqn:HA.
    + injection H as <-. assert (NF0 : no_filter s0).
      { destruct (focus_q_same (showAdvanced s0)) as (A & _ & _ & _ & _ & B & C & D & E0). unfold no_filter, chosen in *. rewrite A, B, C, D, E0 in NF. exact NF. }
      apply advanced_none in NF0; [congruence|exact NL].
    + injection H as <-. unfold focus_q in X. rewrite FC in X. unfold queryGotFocus in X.
      assert (HS : hasAdvancedValues (set_focus InQ s0) = false) by exact HA. rewrite HS in X. discriminate.
  - intros NN. destruct (br_open s) eqn:X; [reflexivity|]. exfalso. apply NN, O, eq_refl.
Qed.

(** The names in the address. *)
Lemma split_some : forall v, split_at 44 v <> [].
Proof. intros [|x v]; cbn [split_at]; [discriminate|]. destruct (x =? 44); [discriminate|]. destruct (split_at 44 v); discriminate. Qed.
Lemma split_join : forall v, join (split_at 44 v) = v /\ Forall (fun r => ~ In 44 r) (split_at 44 v).
Proof.
  induction v as [|c v (IH & FR)]; [split; [reflexivity|constructor; [intros []|constructor]]|]. pose proof (split_some v) as NE. cbn [split_at].
  destruct (c =? 44) eqn:C.
  - apply N.eqb_eq in C. subst c. destruct (split_at 44 v) as [|p ps]; [congruence|]. split; [|constructor; [intros []|exact FR]].
    change (join ([] :: p :: ps)) with ([] ++ 44 :: join (p :: ps)). rewrite IH. reflexivity.
  - apply N.eqb_neq in C. destruct (split_at 44 v) as [|p ps]; [congruence|]. split.
    + rewrite <- IH. destruct ps; reflexivity.
    + constructor; [|exact (Forall_inv_tail FR)]. intros [X|X]; [congruence|exact (Forall_inv FR X)].
Qed.
Lemma join_element : forall l r, In r l -> ~ In 44 r -> element (join l) r.
Proof.
  induction l as [|x l IH]; intros r I NI; [contradiction|]. destruct l as [|y l].
  - destruct I as [<-|[]]. split; [exact NI|]. exists [], []. rewrite app_nil_r. auto.
  - change (join (x :: y :: l)) with (x ++ 44 :: join (y :: l)). destruct I as [<-|I].
    + split; [exact NI|]. exists [], (44 :: join (y :: l)). split; [reflexivity|]. split; [left; reflexivity|right; eexists; reflexivity].
    + destruct (IH r I NI) as (_ & a & b & E & A & B). split; [exact NI|]. exists (x ++ 44 :: a), b. rewrite E, <- app_assoc. split; [reflexivity|]. split; [|exact B].
      right. destruct A as [->|(a' & ->)]; [exists x; reflexivity|]. exists (x ++ 44 :: a'). rewrite <- app_assoc. reflexivity.
Qed.
Lemma named_none : forall p0 all, (forall v r, get_param p0 (text "repos") = Some v -> In r all -> ~ element v r) -> unnamed p0 all.
Proof.
  intros p0 all H marks r A I IM. unfold address_repos in A. change n_repos with (text "repos") in A. destruct (get_param p0 (text "repos")) as [v|]; [|discriminate].
  cbn [bind] in A. assert (IN : In r (split_at 44 v)) by (destruct v; [injection A as <-; contradiction|congruence]).
  destruct (split_join v) as (J & FR). apply (H v r eq_refl I). rewrite <- J. apply join_element; [exact IN|]. exact (proj1 (Forall_forall _ _) FR r IN).
Qed.
