(** C10: draining the merge heap returns all entries of all chunks in order. *)
From Coq Require Import Sorted Permutation.
From Verif Require Import Model.Base Model.Posts Proofs.HeapProofs.
Local Open Scope N_scope.

(** The value reported when the heap is exhausted: trigram 2^24-1, file 0. *)
Definition exhausted : N := (2^24 - 1) * 2^32.

(** [build_heap] adds the chunks one by one (postHeap.addFile/addMem), [drain n] calls
    postHeap.next n times. *)
Theorem C10_merge : forall chunks, Forall (StronglySorted N.le) chunks ->
  exists h, build_heap [] chunks = Some h /\
    exists l, drain (length (concat chunks)) h = Some (l, []) /\
      Permutation l (concat chunks) /\ StronglySorted N.le l.
Proof. exact merge_all. Qed.
Print Assumptions C10_merge.

Theorem C10_exhausted : heap_next [] = Some (exhausted, []).
Proof. exact eq_refl. Qed.
Print Assumptions C10_exhausted.

Example C10_example :
  Forall (StronglySorted N.le) [[1;5;9]; []; [2;2;7]; [0]] /\
  match build_heap [] [[1;5;9]; []; [2;2;7]; [0]] with
  | Some h => drain 7 h = Some ([0;1;2;2;5;7;9], [])
  | None => False
  end.
Proof. split; [repeat constructor; vm_compute; discriminate|vm_compute; reflexivity]. Qed.
