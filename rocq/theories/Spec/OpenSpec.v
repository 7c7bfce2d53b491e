(** What should be open in the results on the page. Files and repositories are told by their
    places, from 0. *)
From Verif Require Import Model.Base Model.Search Model.PageState Model.PageOpen Spec.LoadSpec.
Local Open Scope nat_scope.

(** In the components: the content of file i of repository r can be seen, its chevron points up. *)
Definition file_is (t : tree) (r i : nat) (b : bool) : Prop := exists v, nth_error t r = Some v /\ nth_error (rv_files v) i = Some b.
Definition repo_is (t : tree) (r : nat) (b : bool) : Prop := exists v, nth_error t r = Some v /\ rv_open v = b.
(** On the page: file m is at place i of repository x, which is at place r. *)
Definition on_page (s : pstate) (r i : nat) (x : result) (m : file_match) : Prop :=
  exists rs, displays s rs /\ nth_error rs r = Some x /\ nth_error (r_matches x) i = Some m.
(** Nothing is on the page at a place. *)
Definition nothing_at (s : pstate) (r i : nat) : Prop := forall x m, ~ on_page s r i x m.
