(** C84: the page of excluded files. *)
From Verif Require Import Model.Base Model.PageLinks Model.PageExcluded Spec.Names Proofs.PageExcludedProofs.

(** When a button is pressed only after the answer for the one before has come or failed, the
    table has what the server answered for the repository pressed last, with its links. *)
Theorem C84_shown_partial : forall lists s last rs, visited lists true s last -> table s = Some (Some rs) ->
  match last with
  | None => rs = []
  | Some n => exists c fs, conf_of (ex_repos s) n = Some c /\ lists n fs /\
      rs = map (fun f => (excluded_link c (fst f), fst f, snd f)) fs
  end.
Proof. exact polite_right. Qed.
Print Assumptions C84_shown_partial.
(** Then an answer is shown when it comes. *)
Theorem C84_answered_partial : forall lists s n m fs s', visited lists true s (Some n) -> lists m fs -> ex_step s (Arrived m fs) s' ->
  m = n /\ ex_pending s' = [] /\ exists c, conf_of (ex_repos s') n = Some c /\
    table s' = Some (Some (map (fun f => (excluded_link c (fst f), fst f, snd f)) fs)).
Proof. exact answer_shown. Qed.
Print Assumptions C84_answered_partial.
(** No exception stops the page, whatever comes in whatever order. *)
Theorem C84_no_exception : forall lists polite s last, visited lists polite s last -> table s <> None.
Proof. exact never_throws. Qed.
Print Assumptions C84_no_exception.
(** If the request fails, the page goes on to say that it is searching. *)
Theorem C84_failed : forall lists s n s', visited lists true s (Some n) -> ex_step s (Failed n) s' -> table s' = Some None /\ ex_pending s' = [].
Proof. exact failed_searching. Qed.
Print Assumptions C84_failed.

Definition conf (url : str) : link_conf := mkLink url default_base default_anchor.
Definition two : list (str * link_conf) := [(text "a", conf (text "http://x/a")); (text "b", conf (text "http://x/b"))].
Definition lists2 (n : str) (fs : listing) : Prop :=
  (n = text "a" /\ fs = [(text "p", text "r")]) \/ (n = text "b" /\ fs = []).
Definition ca : link_conf := conf (text "http://x/a").
Definition cb : link_conf := conf (text "http://x/b").
Definition pr : listing := [(text "p", text "r")].
Lemma loaded2 : forall polite, visited lists2 polite (mkEx two None [] false [] false) None.
Proof. intros polite. exact (vs_loaded _ _ _ _ two _ (vs_start _ _) (ex_loaded ex_start two eq_refl)). Qed.
Lemma pressed2 : visited lists2 false (mkEx two (Some cb) [] true [text "a"; text "b"] false) (Some (text "b")).
Proof.
  apply (vs_pressed _ _ (mkEx two (Some ca) [] true [text "a"] false) (Some (text "a")) (text "b")); [|discriminate|apply (ex_pressed (mkEx two (Some ca) [] true [text "a"] false)); right; left; reflexivity].
  apply (vs_pressed _ _ (mkEx two None [] false [] false) None (text "a")); [apply loaded2|discriminate|].
  apply (ex_pressed (mkEx two None [] false [] false)). left. reflexivity.
Qed.
(** Two buttons are pressed, the answer for the first comes last: files of one repository are
    shown as those of another. *)
Theorem C84_late_refuted : exists s rs, visited lists2 false s (Some (text "b")) /\ ex_pending s = [] /\ table s = Some (Some rs) /\
  ~ exists c fs, conf_of (ex_repos s) (text "b") = Some c /\ lists2 (text "b") fs /\ rs = map (fun f => (excluded_link c (fst f), fst f, snd f)) fs.
Proof.
  exists (mkEx two (Some cb) pr false [] false), [(text "http://x/b/blob/undefined/p", text "p", text "r")]. split.
  { apply (vs_arrived _ _ (mkEx two (Some cb) [] false [text "a"] false) _ (text "a") pr); [|left; split; reflexivity|apply (ex_arrived (mkEx two (Some cb) [] false [text "a"] false) [] _ []); reflexivity].
    apply (vs_arrived _ _ _ _ (text "b") [] _ pressed2); [right; split; reflexivity|].
    apply (ex_arrived (mkEx two (Some cb) [] true [text "a"; text "b"] false) [text "a"] _ []). reflexivity. }
  split; [reflexivity|]. split; [vm_compute; reflexivity|].
  intros (c & fs & _ & [(L & _)|(_ & ->)] & R); [discriminate L|discriminate R].
Qed.
Print Assumptions C84_late_refuted.
(** The same without any delay if the second request fails. *)
Theorem C84_late_failure_refuted : exists s rs, visited lists2 false s (Some (text "b")) /\ ex_pending s = [] /\ table s = Some (Some rs) /\
  ~ exists c fs, conf_of (ex_repos s) (text "b") = Some c /\ lists2 (text "b") fs /\ rs = map (fun f => (excluded_link c (fst f), fst f, snd f)) fs.
Proof.
  exists (mkEx two (Some cb) pr false [] false), [(text "http://x/b/blob/undefined/p", text "p", text "r")]. split.
  { apply (vs_failed _ _ (mkEx two (Some cb) pr false [text "b"] false) _ (text "b")); [|apply (ex_failed (mkEx two (Some cb) pr false [text "b"] false) [] _ []); reflexivity].
    apply (vs_arrived _ _ _ _ (text "a") pr _ pressed2); [left; split; reflexivity|].
    apply (ex_arrived (mkEx two (Some cb) [] true [text "a"; text "b"] false) [] _ [text "b"]). reflexivity. }
  split; [reflexivity|]. split; [vm_compute; reflexivity|].
  intros (c & fs & _ & [(L & _)|(_ & ->)] & R); [discriminate L|discriminate R].
Qed.
Print Assumptions C84_late_failure_refuted.
Example C84_example : exists s, visited lists2 true s (Some (text "a")) /\
  table s = Some (Some [(text "http://x/a/blob/undefined/p", text "p", text "r")]).
Proof.
  exists (mkEx two (Some ca) pr false [] false). split; [|vm_compute; reflexivity].
  apply (vs_arrived _ _ (mkEx two (Some ca) [] true [text "a"] false) _ (text "a") pr); [|left; split; reflexivity|apply (ex_arrived (mkEx two (Some ca) [] true [text "a"] false) [] _ []); reflexivity].
  apply (vs_pressed _ _ (mkEx two (Some cb) [] false [] false) (Some (text "b")) (text "a")); [|reflexivity|apply (ex_pressed (mkEx two (Some cb) [] false [] false)); left; reflexivity].
  apply (vs_arrived _ _ (mkEx two (Some cb) [] true [text "b"] false) _ (text "b") []); [|right; split; reflexivity|apply (ex_arrived (mkEx two (Some cb) [] true [text "b"] false) [] _ []); reflexivity].
  apply (vs_pressed _ _ (mkEx two None [] false [] false) None (text "b")); [apply loaded2|reflexivity|].
  apply (ex_pressed (mkEx two None [] false [] false)). right. left. reflexivity.
Qed.

(** No button is ever shown as selected, not even that of the repository shown. *)
Theorem C84_never_selected : forall s n, button_selected s n = false.
Proof. intros s n. unfold button_selected. destruct (ex_repo s); reflexivity. Qed.
Print Assumptions C84_never_selected.
Theorem C84_selected_refuted : exists s n rs, visited lists2 true s (Some n) /\ table s = Some (Some rs) /\ rs <> [] /\ button_selected s n = false.
Proof.
  destruct C84_example as (s & V & T). exists s, (text "a"). eexists. repeat (split; [eassumption|]). split; [discriminate|]. apply C84_never_selected.
Qed.
Print Assumptions C84_selected_refuted.
