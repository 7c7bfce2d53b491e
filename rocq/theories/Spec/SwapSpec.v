(** What may be observed of a searcher that replaces its index while it serves. *)
From Verif Require Import Model.Base Model.Swap.

(** Index [i], of revision [r], is the one published last; the first one is number 0, of
    revision [r0]. *)
Definition no_publish (tr : list event) : Prop := forall i r, ~ In (Publish i r) tr.
Definition published (r0 : str) (tr : list event) (i : nat) (r : str) : Prop :=
  (i = O /\ r = r0 /\ no_publish tr) \/
  exists t1 t2, tr = t1 ++ Publish i r :: t2 /\ no_publish t2.
Definition no_failed_swap (tr : list event) : Prop := forall i, ~ In (SwapFailed i) tr.
