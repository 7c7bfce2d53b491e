(** The list of excluded files is read as it was made. *)
From Verif Require Import Model.Base Model.Json Model.Writer Model.Wire Model.IndexDir Model.Excluded
  Spec.Names Spec.Utf8Spec Spec.JsonSpec Spec.JsonValueSpec Spec.ExcludedSpec Proofs.Utf8Proofs Proofs.JsonProofs Proofs.JsonValueProofs Proofs.WireProofs.
Local Open Scope N_scope.

Lemma reason_said : forall ratio why, said ratio why (reason_text ratio why).
Proof. intros ratio [| | |[]]; constructor. Qed.

Lemma reason_ascii : forall ratio why, Forall (fun c => c < 128) ratio -> Forall (fun c => c < 128) (reason_text ratio why).
Proof. intros ratio [| | |[]] A; cbn [reason_text]; repeat (apply Forall_app; split); try exact A; ascii. Qed.

Theorem excluded_read : forall short ratio l, Forall (fun p : str * reason => Forall is_byte (fst p)) l ->
  (forall n, Forall (fun c => c < 128) (ratio n)) ->
  exists l', decode_json (excluded_json short ratio l) = Some (VArr l', [10]) /\ Forall2 (entry_read ratio) l l'.
Proof.
  intros short ratio l B A. unfold excluded_json, write_json.
  assert (W : writable (enc_excluded ratio l)).
  { constructor. apply list_writable. eapply Forall_impl; [|exact B]. intros p Bp. constructor.
    apply Forall_cons; [split; [apply ascii_bytes; cbn [fst]; ascii|constructor; exact Bp]|].
    apply Forall_cons; [split; [apply ascii_bytes; cbn [fst]; ascii|constructor; apply ascii_bytes, reason_ascii, A]|constructor]. }
  destruct (round_trip short _ [10] W ltac:(discriminate)) as (v' & E & R). rewrite E.
  destruct (arr_arrived _ _ R) as (l' & -> & F). exists l'. split; [reflexivity|]. clear - F A.
  revert l' F. induction l as [|[n y] l IH]; intros l' F; inversion F as [|? v ? r V F']; subst; constructor; [|apply IH; exact F'].
  destruct (obj_arrived _ _ V) as (m & -> & M); [keys|]. members M.
  destruct (str_arrived _ _ V0) as (n' & -> & Q). destruct (str_arrived _ _ V1) as (y' & -> & Q2).
  exists n', y'. split; [exact Q|]. split; [|reflexivity].
  apply replaced_exact in Q2; [|apply ascii_valid, reason_ascii, A]. subst y'. apply reason_said.
Qed.
