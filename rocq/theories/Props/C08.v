(** C08: the sparse set is a set, whatever its memory initially holds. *)
From Verif Require Import Model.Base Model.Sparse Spec.SetSpec Proofs.SparseProofs.
Local Open Scope N_scope.

(** [run_ops] applies a history of Add/Reset; [ordered_set] is the specification. *)
Theorem C08_sparse_set : forall max mem os, max < 2^32 -> Forall (op_ok max) os ->
  exists s l, run_ops (new_set max mem) os = Some s /\ ordered_set os l /\
    dense s = l /\ set_len s = N.of_nat (length l) /\ NoDup l /\
    (forall x, x < max -> has s x = Some true <-> In x l) /\
    (forall x, x < max -> has s x <> None).
Proof. exact sparse_full. Qed.
Print Assumptions C08_sparse_set.

(** The specification determines the contents. *)
Theorem C08_spec_deterministic : forall h l1 l2, ordered_set h l1 -> ordered_set h l2 -> l1 = l2.
Proof. exact ordered_set_fun. Qed.
Print Assumptions C08_spec_deterministic.

(** Memory full of values that look like valid indices. *)
Example C08_example :
  Forall (op_ok 10) [OpAdd 3; OpAdd 7; OpAdd 3; OpReset; OpAdd 7; OpAdd 9; OpAdd 7] /\
  match run_ops (new_set 10 (fun _ => 0))
          [OpAdd 3; OpAdd 7; OpAdd 3; OpReset; OpAdd 7; OpAdd 9; OpAdd 7] with
  | Some s => dense s = [7; 9] /\ has s 3 = Some false
  | None => False
  end.
Proof. split; [repeat constructor|vm_compute; auto]. Qed.
