(** C94: the search bar shows the search that it makes. *)
From Verif Require Import Model.Base Model.PageState Model.PageForm Model.PageSelect Model.PageBar
  Spec.Names Spec.ApiSpec Spec.FormSpec Spec.BarSpec Proofs.BarProofs.
From Coq Require Import Lia.
Local Open Scope N_scope.

(** The list: if the address the page was opened with names none of the repositories, a search is
    always in those that the list shows as selected. [inherited] are the names every object has
    (see C79). *)
Theorem C94_list_partial : forall p0 all es s p, NoDup all -> Forall (fun r => ~ In r inherited) all ->
  (forall v r, get_param p0 (text "repos") = Some v -> In r all -> ~ element v r) ->
  bar_run p0 all es s -> bar_params s = Some p -> as_listed s p.
Proof. intros p0 all es s p ND ORD U R. exact (in_step_asks p0 all ND ORD es s p R (unnamed_in_step p0 all ORD es s (named_none p0 all U) R)). Qed.
Print Assumptions C94_list_partial.
(** Whatever the address: so it is once the user has changed the selection after an answer. *)
Theorem C94_chosen_partial : forall p0 all es1 l es2 s p, NoDup all -> Forall (fun r => ~ In r inherited) all -> In Answered es1 ->
  bar_run p0 all (es1 ++ Choose l :: es2) s -> bar_params s = Some p -> as_listed s p.
Proof. intros p0 all es1 l es2 s p ND ORD A R. exact (in_step_asks p0 all ND ORD _ s p R (touched_in_step p0 all es1 l es2 s A R)). Qed.
Print Assumptions C94_chosen_partial.

(** The other fields: as long as the user changes nothing, the search is that of the address the page
    was opened with, or that the browser went back to. *)
Theorem C94_kept_partial : forall p0 all es s p out, (exists es2, Forall (fun e => ~ edits e) es2 /\ ((p = p0 /\ es = es2) \/ exists es1, es = es1 ++ Back p :: es2)) ->
  bar_run p0 all es s -> bar_params s = Some out ->
  (forall k v, In k [text "q"; text "files"; text "excludeFiles"] -> get_param p k = Some v -> neat v -> get_param out k = Some v) /\
  (forall k v, In k [text "i"; text "literal"] -> get_param p k = Some v -> exists w, get_param out k = Some w /\ (yes w <-> yes v)).
Proof. exact kept. Qed.
Print Assumptions C94_kept_partial.
(** Whatever the user did: a search has the texts that are shown without the white space around,
    and the boxes. *)
Theorem C94_fields : forall s out, bar_params s = Some out ->
  (exists t, get_param out (text "q") = Some t /\ within (br_q s) t) /\ (exists t, get_param out (text "files") = Some t /\ within (br_files s) t) /\
  (exists t, get_param out (text "excludeFiles") = Some t /\ within (br_exclude s) t) /\
  (exists w, get_param out (text "i") = Some w /\ (yes w <-> br_i s = true)) /\ (exists w, get_param out (text "literal") = Some w /\ (yes w <-> br_literal s = true)).
Proof. exact fields_sent. Qed.
Print Assumptions C94_fields.

(** What one deed does to the search: a text that is written is the one that is sent, a tick turns
    its box round, and nothing else changes but by going back. *)
Theorem C94_written : forall p0 all s e s' r p p', bar_step p0 all s e s' r -> (forall p, e <> Back p) -> bar_params s = Some p -> bar_params s' = Some p' ->
  (forall k t, writes e k t -> neat t -> get_param p' k = Some t) /\
  (forall k w, ticks e k -> get_param p k = Some w -> exists w', get_param p' k = Some w' /\ (yes w' <-> ~ yes w)) /\
  (forall k, In k [text "q"; text "files"; text "excludeFiles"; text "i"; text "literal"] -> ~ ticks e k -> (forall t, ~ writes e k t) -> get_param p' k = get_param p k).
Proof. exact written. Qed.
Print Assumptions C94_written.

(** The advanced part is open when the page comes up with something in it, and only then. *)
Theorem C94_start : forall p0 s, bar_start p0 = Some s -> br_focus s = InQ /\ (br_open s = true <-> ~ no_filter s).
Proof. exact start_open. Qed.
Print Assumptions C94_start.
(** For a considerate user and an address that names no repository: what is in it is seen. *)
Theorem C94_seen_partial : forall p0 all s, Forall (fun r => ~ In r inherited) all -> ~ In [] all ->
  (forall v r, get_param p0 (text "repos") = Some v -> In r all -> ~ element v r) ->
  considerate_run p0 all s -> (br_open s = false -> no_filter s) /\ (br_focus s = InFiles \/ br_focus s = InExclude -> br_open s = true).
Proof. intros p0 all s ORD NE U. exact (seen_ok p0 all s ORD NE (named_none p0 all U)). Qed.
Print Assumptions C94_seen_partial.

(** ** What goes wrong *)
Definition addr (q i literal files exclude repos : str) : params :=
  [(text "q", q); (text "i", i); (text "literal", literal); (text "files", files); (text "excludeFiles", exclude); (text "repos", repos)].
Definition on_repos (r : str) : params := addr (text "q") (text "nope") (text "nope") [] [] r.
Definition two : list str := [text "a"; text "b"].
Example C94_written_example : exists p, bar_params (mkBar (text "q") [] [] false false [] [] [] (Some two) true InFiles) = Some p /\
  exists s' p', bar_step (on_repos []) two (mkBar (text "q") [] [] false false [] [] [] (Some two) true InFiles) (WriteFiles (text "go$")) s' None /\
  bar_params s' = Some p' /\ writes (WriteFiles (text "go$")) (text "files") (text "go$") /\ neat (text "go$") /\ get_param p' (text "files") = Some (text "go$").
Proof.
  eexists. split; [vm_compute; reflexivity|]. eexists. eexists. split; [constructor; reflexivity|]. split; [vm_compute; reflexivity|]. split; [split; reflexivity|].
  split; [|reflexivity]. split; [cbn; intuition discriminate|]. split; [cbn; intuition discriminate|]. exists [], []. cbn [app]. split; [reflexivity|].
  split; [constructor|]. split; [constructor|]. split.
  - intros c x E. vm_compute in E. injection E as <- _. unfold FormSpec.white. cbn. intuition discriminate.
  - intros c x E. change (text "go$") with ([103; 111] ++ [36]) in E. apply app_inj_tail in E. destruct E as (_ & <-). unfold FormSpec.white. cbn. intuition discriminate.
Qed.
(** Runs by computation. *)
Definition does (p0 : params) (all : list str) (e : deed) (s : bar) : option bar :=
  match e with
  | TickCase => Some (set_fields (br_q s) (br_files s) (br_exclude s) (negb (br_i s)) (br_literal s) s)
  | Focus InFiles => Some (focus_files s)
  | Down => Some match br_focus s with InQ => focus_files s | _ => s end
  | Up => Some match br_focus s with InQ => hideAdvanced s | Elsewhere => s | _ => focus_q (if isAdvancedEmpty s then hideAdvanced s else s) end
  | Loaded => match br_known s, get_param p0 PageState.n_q with None, Some _ => Some (load_repos all s) | _, _ => None end
  | Answered => m <- address_repos p0 ;; Some (take_marks m s)
  | Back p => setParams p s
  | _ => None
  end.
Lemma does_step : forall p0 all e s s', does p0 all e s = Some s' -> exists r, bar_step p0 all s e s' r.
Proof.
  intros p0 all e s s' H. destruct e as [t|t|t| | |l|[]| | | | | | | | |p]; cbn [does] in H; try discriminate H.
  - injection H as <-. eexists. constructor.
  - injection H as <-. eexists. apply (bs_focus p0 all s InFiles).
  - injection H as <-. eexists. constructor.
  - injection H as <-. eexists. constructor.
  - destruct (br_known s) eqn:K; [discriminate|]. destruct (get_param p0 PageState.n_q) eqn:Q; [|discriminate]. injection H as <-. eexists. econstructor; eassumption.
  - destruct (address_repos p0) eqn:A; [|discriminate]. cbn [bind] in H. injection H as <-. eexists. constructor. exact A.
  - eexists. constructor. exact H.
Qed.
Fixpoint all_done (p0 : params) (all : list str) (es : list deed) (s : bar) : option bar :=
  match es with [] => Some s | e :: r => s' <- does p0 all e s ;; all_done p0 all r s' end.
Lemma all_done_run : forall p0 all es es0 s s', bar_run p0 all es0 s -> all_done p0 all es s = Some s' -> bar_run p0 all (es0 ++ es) s'.
Proof.
  intros p0 all. induction es as [|e es IH]; intros es0 s s' R H; cbn [all_done] in H.
  - injection H as <-. rewrite app_nil_r. exact R.
  - destruct (does p0 all e s) as [s1|] eqn:D; [|discriminate]. cbn [bind] in H. destruct (does_step _ _ _ _ _ D) as (r & ST).
    change (e :: es) with ([e] ++ es). rewrite app_assoc. apply (IH (es0 ++ [e]) s1); [|exact H]. exact (br_step p0 all es0 s e s1 r R ST).
Qed.
Definition visit (p0 : params) (all : list str) (es : list deed) : option bar := s <- bar_start p0 ;; all_done p0 all es s.
Lemma visit_run : forall p0 all es s, visit p0 all es = Some s -> bar_run p0 all es s.
Proof.
  intros p0 all es s H. unfold visit in H. destruct (bar_start p0) as [s0|] eqn:B; [|discriminate]. cbn [bind] in H.
  exact (all_done_run p0 all es [] s0 s (br_start p0 all s0 B) H).
Qed.

(** An address with a repository: the list shows it as selected, but a search from there is in all. *)
Theorem C94_opened_refuted : exists p0 all es s p, NoDup all /\ bar_run p0 all es s /\ bar_params s = Some p /\
  chosen s (text "a") /\ ~ chosen s (text "b") /\ ~ as_listed s p /\ get_param p (text "repos") = Some [].
Proof.
  destruct (visit (on_repos (text "a")) two [Loaded; Answered]) as [s|] eqn:W; [|vm_compute in W; discriminate].
  pose proof (visit_run _ _ _ _ W) as R. vm_compute in W. injection W as <-.
  eexists _, two, _, _, _. split; [repeat constructor; cbn; intuition discriminate|]. split; [exact R|]. split; [vm_compute; reflexivity|].
  split; [left; reflexivity|]. split; [cbn; intuition discriminate|]. split; [|vm_compute; reflexivity].
  intros (l & t & G & CL & _ & [H|(_ & H)]).
  - vm_compute in G. injection G as <-. assert (I : In (text "a") l) by (apply H; left; reflexivity).
    inversion CL as [|r E|r r' l' t' CL' E]; subst; [contradiction| |].
    + destruct I as [I|[]]. discriminate.
    + match goal with X : _ ++ _ :: _ = [] |- _ => apply (f_equal (@length N)) in X; rewrite app_length in X; cbn [length] in X; lia end.
  - specialize (H (text "b") false). assert (X : false = true) by (apply H; right; left; reflexivity). discriminate.
Qed.
Print Assumptions C94_opened_refuted.

(** The browser goes back to a search in one repository: that is the search that is made, but neither
    does the list say so nor is it the one made when the button is pressed. *)
Theorem C94_back_refuted : exists p0 all es p s s' p', bar_run p0 all es s /\ bar_step p0 all s (Back p) s' (Some p) /\
  get_param p (text "repos") = Some (text "a") /\ (forall r, ~ chosen s' r) /\ bar_params s' = Some p' /\ get_param p' (text "repos") = Some [].
Proof.
  destruct (visit (on_repos []) two [Loaded; Answered]) as [s|] eqn:W; [|vm_compute in W; discriminate].
  pose proof (visit_run _ _ _ _ W) as R.
  destruct (setParams (on_repos (text "a")) s) as [s'|] eqn:P; [|vm_compute in W; injection W as <-; vm_compute in P; discriminate].
  pose proof (bs_back (on_repos []) two s (on_repos (text "a")) s' P) as ST. vm_compute in W. injection W as <-. vm_compute in P. injection P as <-.
  eexists _, two, _, (on_repos (text "a")), _, _, _. split; [exact R|]. split; [exact ST|]. split; [reflexivity|].
  split; [intros r; cbn; intuition discriminate|]. split; vm_compute; reflexivity.
Qed.
Print Assumptions C94_back_refuted.

(** A text with a newline in the address is another in the form. *)
Theorem C94_newline_refuted : exists p0 all es s p, bar_run p0 all es s /\ bar_params s = Some p /\
  get_param p0 (text "q") = Some [97; 10; 98] /\ get_param p (text "q") = Some (text "ab").
Proof.
  pose (p0 := addr [97; 10; 98] (text "nope") (text "nope") [] [] []).
  destruct (visit p0 two [Loaded]) as [s|] eqn:W; [|vm_compute in W; discriminate]. pose proof (visit_run _ _ _ _ W) as R. vm_compute in W. injection W as <-.
  eexists p0, two, _, _, _. split; [exact R|]. split; [vm_compute; reflexivity|]. split; reflexivity.
Qed.
Print Assumptions C94_newline_refuted.

(** The advanced part is closed though something is in it. *)
Lemma unseen : forall p0 all es s, visit p0 all es = Some s -> br_open s = false -> (trim (br_files s) <> [] \/ br_i s = true \/ selected_in (br_list s) <> []) ->
  bar_run p0 all es s /\ br_open s = false /\ ~ no_filter s.
Proof.
  intros p0 all es s W O H. split; [exact (visit_run _ _ _ _ W)|]. split; [exact O|]. intros (A & _ & B & _ & C).
  destruct H as [H|[H|H]]; [|congruence|].
  - apply trim_empty in A. destruct (trim (br_files s)); [congruence|discriminate].
  - destruct (selected_in (br_list s)) as [|x y] eqn:E; [congruence|]. apply (C x). apply chosen_in. rewrite E. left. reflexivity.
Qed.
(** After the key that goes up. *)
Theorem C94_up_refuted : exists p0 all s, bar_run p0 all [Up] s /\ br_open s = false /\ ~ no_filter s.
Proof.
  exists (addr (text "q") (text "nope") (text "nope") (text "x") [] []), two. eexists.
  apply unseen; [vm_compute; reflexivity|reflexivity|left; vm_compute; discriminate].
Qed.
Print Assumptions C94_up_refuted.
(** In a page opened with a repository. *)
Theorem C94_hidden_repo_refuted : exists p0 all s, bar_run p0 all [Loaded; Answered] s /\ br_open s = false /\ ~ no_filter s.
Proof. exists (on_repos (text "a")), two. eexists. apply unseen; [vm_compute; reflexivity|reflexivity|right; right; vm_compute; discriminate]. Qed.
Print Assumptions C94_hidden_repo_refuted.
(** After the browser went back. *)
Theorem C94_hidden_back_refuted : exists p0 all p s, bar_run p0 all [Loaded; Back p] s /\ br_open s = false /\ ~ no_filter s.
Proof.
  exists (on_repos []), two, (addr (text "q") (text "fosho") (text "nope") [] [] []). eexists.
  apply unseen; [vm_compute; reflexivity|reflexivity|right; left; reflexivity].
Qed.
Print Assumptions C94_hidden_back_refuted.
(** After the key that goes up in the path of files, if a box is ticked. *)
Theorem C94_hidden_box_refuted : exists p0 all s, bar_run p0 all [Down; TickCase; Up] s /\ br_open s = false /\ ~ no_filter s.
Proof. exists (on_repos []), two. eexists. apply unseen; [vm_compute; reflexivity|reflexivity|right; left; reflexivity]. Qed.
Print Assumptions C94_hidden_box_refuted.

(** A visit: a search in all, then in b only, with a path. *)
Definition b_only : list (str * bool) := [(text "a", false); (text "b", true)].
Example C94_example : exists s p, let p0 := on_repos (text "*") in
  bar_run p0 two [Loaded; Answered; Focus InFiles; WriteFiles (text " go$"); Choose b_only; Up; Enter] s /\ considerate_run p0 two s /\
  bar_params s = Some p /\ get_param p (text "repos") = Some (text "b") /\ get_param p (text "files") = Some (text "go$") /\ br_open s = true /\
  Forall (fun r => ~ In r inherited) two /\ (forall v r, get_param p0 (text "repos") = Some v -> In r two -> ~ element v r).
Proof.
  cbv zeta. set (p0 := on_repos (text "*")).
  pose (s0 := mkBar (text "q") [] [] false false [] [] [] None false InQ).
  assert (B : bar_start p0 = Some s0) by (vm_compute; reflexivity).
  set (s1 := load_repos two s0). set (s2 := take_marks [text "*"] s1). set (s3 := focus_files s2).
  set (s4 := set_fields (br_q s3) (one_line (text " go$")) (br_exclude s3) (br_i s3) (br_literal s3) s3).
  set (s5 := set_list b_only (selected_in b_only) (br_marks s4) (br_known s4) s4).
  set (s6 := focus_q (if isAdvancedEmpty s5 then hideAdvanced s5 else s5)).
  assert (T1 : bar_step p0 two s0 Loaded s1 (Some p0)).
  { apply (bs_loaded p0 two s0 (text "q")); [vm_compute; reflexivity|reflexivity]. }
  assert (T2 : bar_step p0 two s1 Answered s2 None) by (constructor; reflexivity).
  assert (T3 : bar_step p0 two s2 (Focus InFiles) s3 None) by (apply (bs_focus p0 two s2 InFiles)).
  assert (T4 : bar_step p0 two s3 (WriteFiles (text " go$")) s4 None) by (constructor; vm_compute; reflexivity).
  assert (T5 : bar_step p0 two s4 (Choose b_only) s5 None) by (constructor; vm_compute; [reflexivity|discriminate]).
  assert (T6 : bar_step p0 two s5 Up s6 None).
  { replace s6 with (match br_focus s5 with InQ => hideAdvanced s5 | Elsewhere => s5 | _ => focus_q (if isAdvancedEmpty s5 then hideAdvanced s5 else s5) end); [constructor|].
    vm_compute; reflexivity. }
  assert (T7 : bar_step p0 two s6 Enter s6 (bar_params s6)) by (constructor; vm_compute; discriminate).
  exists s6. eexists. split.
  { apply (br_step p0 two [Loaded; Answered; Focus InFiles; WriteFiles (text " go$"); Choose b_only; Up] s6 Enter s6 (bar_params s6)); [|exact T7].
    apply (br_step p0 two [Loaded; Answered; Focus InFiles; WriteFiles (text " go$"); Choose b_only] s5 Up s6 None); [|exact T6].
    apply (br_step p0 two [Loaded; Answered; Focus InFiles; WriteFiles (text " go$")] s4 (Choose b_only) s5 None); [|exact T5].
    apply (br_step p0 two [Loaded; Answered; Focus InFiles] s3 (WriteFiles (text " go$")) s4 None); [|exact T4].
    apply (br_step p0 two [Loaded; Answered] s2 (Focus InFiles) s3 None); [|exact T3].
    apply (br_step p0 two [Loaded] s1 Answered s2 None); [|exact T2].
    apply (br_step p0 two [] s0 Loaded s1 (Some p0)); [|exact T1]. constructor. exact B. }
  split.
  { apply (cr_step p0 two s6 Enter s6 (bar_params s6)); [|exact Logic.I|exact T7]. apply (cr_step p0 two s5 Up s6 None); [| |exact T6].
    - apply (cr_step p0 two s4 (Choose b_only) s5 None); [| |exact T5].
      + apply (cr_step p0 two s3 (WriteFiles (text " go$")) s4 None); [|exact Logic.I|exact T4]. apply (cr_step p0 two s2 (Focus InFiles) s3 None); [|exact Logic.I|exact T3].
        apply (cr_step p0 two s1 Answered s2 None); [|exact Logic.I|exact T2]. apply (cr_step p0 two s0 Loaded s1 (Some p0)); [|exact Logic.I|exact T1].
        apply (cr_start p0 two s0). exact B.
      + cbn [considerate]. vm_compute; reflexivity.
    - cbn [considerate]. right. split; [vm_compute; discriminate|]. intros (F & _).
      apply trim_empty in F. vm_compute in F. discriminate. }
  split; [vm_compute; reflexivity|]. split; [vm_compute; reflexivity|]. split; [vm_compute; reflexivity|]. split; [vm_compute; reflexivity|].
  split; [repeat (constructor; [intros X; vm_compute in X; intuition discriminate|]); constructor|].
  intros v r G I (_ & a & b & E & _). cbn in G. injection G as <-. cbn [In two] in I.
  destruct I as [<-|[<-|[]]].
  - assert (X : In 97 [42]) by (rewrite E; apply in_or_app; right; left; reflexivity). cbn in X. intuition discriminate.
  - assert (X : In 98 [42]) by (rewrite E; apply in_or_app; right; left; reflexivity). cbn in X. intuition discriminate.
Qed.
