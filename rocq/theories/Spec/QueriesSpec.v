(** A process that answers one pattern after the other in one memory. *)
From Verif Require Import Model.Base Model.Syntax Model.Analyze Model.QueryHeap Model.AnalyzeHeap.

(** With enough fuel the computation ends with [x]. *)
Definition ends_with {A} (f : nat -> option A) (x : A) : Prop :=
  exists n, forall fuel, (n <= fuel)%nat -> f fuel = Some x.

Section Run.
Variable grow : nat -> nat -> nat.
Variable simple_fold : N -> N.
Variable orbit_max : nat.
Fixpoint queries_run (fuel : nat) (res : list regexp) (h : heap) : option (heap * list nat) :=
  match res with
  | [] => Some (h, [])
  | re :: r =>
      '(h, p) <- regexp_query_h grow simple_fold orbit_max fuel re h ;;
      '(h, l) <- queries_run fuel r h ;;
      Some (h, p :: l)
  end.
End Run.
