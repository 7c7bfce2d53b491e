(** C11: a file is indexed exactly when it meets the documented criteria. [meets],
    [accepted] and [rejected] are in Spec/RunSpec.v: the trigram/byte ratio is computed
    in single precision, which is exact up to 16 MiB; above that, [accepted] and
    [rejected] say what is guaranteed. *)
From Verif Require Import Model.Base Model.Writer Model.IndexRun Spec.IndexSpec Spec.RunSpec Proofs.AddProofs
  Proofs.IndexProofs.
Local Open Scope N_scope.

Theorem C11_criteria : forall cap w name evs v w', (1 <= cap)%nat -> reachable cap w ->
  Forall is_byte (ev_content evs) -> ev_ok evs -> iw_add cap w name evs = Some (v, w') ->
  match v with
  | None => accepted (ev_content evs)
  | Some why => rejected why (ev_content evs)
  end /\
  (len (ev_content evs) <= 16777216 -> (v = None <-> meets (ev_content evs))).
Proof. exact add_criteria. Qed.
Print Assumptions C11_criteria.

Theorem C11_add_returns : forall cap w name evs, (1 <= cap)%nat -> reachable cap w ->
  Forall is_byte (ev_content evs) -> ~ In 0 name -> nlen (w_nameData w) < 2^32 ->
  iw_add cap w name evs <> None.
Proof. exact add_returns. Qed.
Print Assumptions C11_add_returns.

(** A rejected file, or one whose reader fails, leaves no trace in the index, whatever
    is added afterwards. *)
Theorem C11_rejected_no_trace : forall cap w name evs v w' more, (1 <= cap)%nat -> reachable cap w ->
  Forall is_byte (ev_content evs) -> files_ok more -> iw_add cap w name evs = Some (v, w') ->
  v <> None \/ ~ ev_ok evs ->
  finish cap w' more = finish cap w more.
Proof. exact rejected_no_trace. Qed.
Print Assumptions C11_rejected_no_trace.

Theorem C11_chunking : forall cap w name evs1 evs2, ev_ok evs1 -> ev_ok evs2 ->
  ev_content evs1 = ev_content evs2 -> iw_add cap w name evs1 = iw_add cap w name evs2.
Proof. exact add_chunking. Qed.
Print Assumptions C11_chunking.

(** The empty writer is reachable; one file is accepted, one is rejected because its
    only line is 2001 bytes long, and the latter is indeed outside the criteria. *)
Example C11_example :
  let w := add_paths (iw_create (fun _ => 0)) [] in
  let long := repeat 97 2000 ++ [10] in
  reachable 5 w /\
  (exists w', iw_add 5 w [102] [([97;98;10], ErrNil); ([99], ErrEOF)] = Some (None, w')) /\
  (exists w', iw_add 5 w [102] [(long, ErrNil)] = Some (Some LongLines, w')) /\
  ~ meets long.
Proof.
  split; [|split; [|split]].
  - exists (fun _ => 0), [], [], []. split; [constructor|reflexivity].
  - eexists. vm_compute. reflexivity.
  - eexists. vm_compute. reflexivity.
  - intros ((_ & _ & H) & _). specialize (H [repeat 97 2000 ++ [10]] []).
    assert (X : lines_of (repeat 97 2000 ++ [10]) [repeat 97 2000 ++ [10]] []).
    { split; [reflexivity|]. split; [intros []|]. constructor; [|constructor].
      exists (repeat 97 2000). split; [reflexivity|]. intros Hi. apply repeat_spec in Hi. discriminate. }
    specialize (H X). vm_compute in H. apply H. reflexivity.
Qed.
