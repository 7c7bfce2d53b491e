(** C09: the radix sort sorts posting entries appended in file order. *)
From Coq Require Import Sorted Permutation.
From Verif Require Import Model.Base Model.Posts Proofs.SortProofs.
Local Open Scope N_scope.

(** An entry is trigram * 2^32 + file id with trigram < 2^24; the buffer is filled in
    non-decreasing file id order. *)
Theorem C09_sort_post : forall post,
  Forall (fun p => p < 2^56) post ->
  StronglySorted (fun a b => a mod 2^32 <= b mod 2^32) post ->
  exists out, sort_post post = Some out /\ Permutation out post /\ StronglySorted N.le out.
Proof. exact sort_post_spec. Qed.
Print Assumptions C09_sort_post.

Definition ex_post : list N :=
  [make_pe 6382179 0; make_pe 97 0; make_pe 6382179 1; make_pe 4096 1; make_pe 97 2].
Example C09_example :
  Forall (fun p => p < 2^56) ex_post /\
  StronglySorted (fun a b => a mod 2^32 <= b mod 2^32) ex_post /\
  sort_post ex_post =
    Some [make_pe 97 0; make_pe 97 2; make_pe 4096 1; make_pe 6382179 0; make_pe 6382179 1].
Proof.
  split; [|split].
  - repeat constructor.
  - repeat constructor; vm_compute; discriminate.
  - vm_compute. reflexivity.
Qed.
