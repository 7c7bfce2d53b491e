(** Every run of the client's two requests. *)
From Verif Require Import Model.Base Model.GoStr Model.Config Model.Api Model.ClientRun.
From Coq Require Import Lia Relations.
Local Open Scope Z_scope.

Section Runs.
  Context {M E P : Type} (a : reply M E) (l : listing_reply E P) (none : P).
  Notation cst := (cstate M E P).

  Definition gor_steps (g : @gor E) : nat := match g with Asking => 1 | _ => 0 end.
  Definition main_steps (m : @caller M E P) : nat := match m with WaitS => 2 | WaitR _ => 1 | Returned _ => 0 end.
  Definition measure (s : cst) : nat := gor_steps (g_search s) + gor_steps (g_list s) + main_steps (c_main s).

  Lemma step_measure : forall s s', cstep a l s s' -> (measure s = Datatypes.S (measure s'))%nat.
  Proof. intros s s' H. destruct H; unfold measure; cbn [gor_steps main_steps g_search g_list c_main]; lia. Qed.

  Definition err_s : option (cerror E) := match Search a empty_response with inl _ => None | inr e => Some e end.
  Definition err_l : option (cerror E) := match LoadRepos l with inl _ => None | inr e => Some e end.
  Definition res_s : response M := match Search a empty_response with inl r => r | inr _ => empty_response end.
  Definition rep_l : P := match LoadRepos l with inl p => p | inr _ => none end.

  Definition cinv (s : cst) : Prop :=
    match g_search s, c_main s with
    | Asking, WaitS => v_res s = empty_response
    | Offering e, WaitS => e = err_s /\ v_res s = res_s
    | Over, WaitR e => e = err_s /\ v_res s = res_s
    | Over, Returned r => r = returned err_s err_l res_s rep_l
    | _, _ => False
    end /\
    match g_list s, c_main s with
    | Asking, Returned _ => False
    | Asking, _ => v_rep s = none
    | Offering e, WaitS | Offering e, WaitR _ => e = err_l /\ v_rep s = rep_l
    | Over, Returned _ => True
    | _, _ => False
    end.

  Lemma cinv_runs : forall n s, cruns a l none n s -> cinv s.
  Proof.
    intros n s R. induction R as [|n s s' R IH ST]; [split; reflexivity|].
    unfold cinv in *. destruct ST; cbn [g_search g_list c_main v_res v_rep] in *.
    - destruct m; [|destruct IH as [[] _]|destruct IH as [[] _]]. destruct IH as [X Y]. subst res.
      split; [|exact Y]. unfold err_s, res_s. rewrite H. split; reflexivity.
    - destruct m; [|destruct IH as [[] _]|destruct IH as [[] _]]. destruct IH as [X Y]. subst res.
      split; [|exact Y]. unfold err_s, res_s. rewrite H. split; reflexivity.
    - destruct m; [| |destruct IH as [_ []]]; (split; [apply IH|]); unfold err_l, rep_l; rewrite H; split; reflexivity.
    - destruct IH as [X Y]. destruct m; [| |destruct Y]; (split; [exact X|]); unfold err_l, rep_l; rewrite H; (split; [reflexivity|exact Y]).
    - destruct IH as [X Y]. split; [exact X|]. destruct gl; exact Y.
    - destruct IH as [X [-> ->]]. split; [|exact I]. destruct gs; try contradiction. destruct X as [-> ->]. reflexivity.
  Qed.

  (** Never stuck before the end; the end comes after four steps, with both goroutines
      over, and the result does not depend on the schedule. *)
  Theorem client_runs : forall n s, cruns a l none n s ->
    (n <= 4)%nat /\
    (n = 4%nat -> g_search s = Over /\ g_list s = Over /\ c_main s = Returned (returned err_s err_l res_s rep_l)) /\
    ((n < 4)%nat -> (forall r, c_main s <> Returned r) /\ exists s', cstep a l s s').
  Proof.
    intros n s R. pose proof (cinv_runs n s R) as I.
    assert (ME : (n + measure s = 4)%nat).
    { induction R as [|n s s' R IH ST]; [reflexivity|]. pose proof (step_measure _ _ ST).
      specialize (IH (cinv_runs n s R)). lia. }
    split; [lia|]. destruct s as [gs gl m res rep]. unfold measure, cinv in *. cbn [g_search g_list c_main v_res v_rep] in *. split.
    - intros ->. destruct m; cbn [main_steps] in ME; [lia|lia|].
      destruct gs, gl; try (destruct I; contradiction). destruct I as [-> _]. repeat split.
    - intros L.
      assert (NR : forall r, m <> Returned r).
      { intros r ->. cbn [main_steps] in ME. destruct gs; [destruct I; contradiction|destruct I; contradiction|].
        destruct gl; [destruct I; contradiction|destruct I; contradiction|]. cbn in ME. lia. }
      split; [exact NR|].
      destruct gs as [|e|].
      + destruct (Search a res) as [r|e] eqn:S; eexists; [apply st_search|apply st_search_err]; exact S.
      + destruct m; [eexists; apply st_recv_s|destruct I; contradiction|destruct (NR r); reflexivity].
      + destruct m; [destruct I; contradiction| |destruct (NR r); reflexivity].
        destruct gl as [|e'|]; [|eexists; apply st_recv_r|destruct I; contradiction].
        destruct (LoadRepos l) as [p|e'] eqn:S; eexists; [apply st_list|apply st_list_err]; exact S.
  Qed.
End Runs.

Theorem client_result : forall (M E P : Type) (a : reply M E) (l : listing_reply E P) none s, cruns a l none 4 s ->
  exists r, c_main s = Returned r /\
    (forall res rep, r = inl (res, rep) <-> Search a empty_response = inl res /\ LoadRepos l = inl rep) /\
    (forall e, r = inr e -> Search a empty_response = inr e \/ LoadRepos l = inr e).
Proof.
  intros M E P a l none s R. destruct (client_runs a l none 4 s R) as (_ & X & _). destruct (X eq_refl) as (_ & _ & Y).
  exists (returned (err_s a) (err_l l) (res_s a) (rep_l l none)). split; [exact Y|].
  unfold returned, err_s, err_l, res_s, rep_l. destruct (Search a empty_response) as [r|e], (LoadRepos l) as [p|e'];
    (split; [intros res rep; split; [intros Z; split; congruence|intros [Z1 Z2]; congruence]|intros e0 Z]).
  - discriminate.
  - right. congruence.
  - left. congruence.
  - left. congruence.
Qed.

Lemma search_reported : forall (M E : Type) (a : reply M E) res, Search a empty_response = inl res ->
  exists fields, a = Reply StatusOK (Object fields).
Proof.
  intros M E a res H. destruct a as [e|st b]; cbn [Search] in H; [discriminate|].
  destruct (Z.eqb_spec st StatusOK) as [->|N]; [|discriminate]. cbn [negb] in H.
  destruct b as [f|]; [|discriminate]. exists f. reflexivity.
Qed.

Lemma answer_decoded : forall (M E : Type) stats (results : list (str * answer M)) n,
  Search (search_answer (E:=E) stats (inl (results, n))) empty_response = inl (mkResp (Some results) (if stats then Some n else None)).
Proof. intros M E [] results n; reflexivity. Qed.
