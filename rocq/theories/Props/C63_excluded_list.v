(** C63: the list of excluded files. C24 says which files are on it and why; here, what a
    client reads, and of which index. The listing reads s.idx without the lock
    (searcher.go:139-146). *)
From Verif Require Import Model.Base Model.Json Model.Writer Model.IndexDir Model.Excluded Model.Swap
  Spec.Names Spec.Utf8Spec Spec.JsonSpec Spec.SwapSpec Spec.ExcludedSpec Proofs.ExcludedProofs Proofs.ListedProofs Proofs.SwapExamples.
Local Open Scope N_scope.

(** The answer is JSON for exactly the list, in order, whatever bytes the names have. *)
Theorem C63_list : forall short ratio l, Forall (fun p : str * reason => Forall is_byte (fst p)) l ->
  (forall n, Forall (fun c => c < 128) (ratio n)) ->
  exists l', decode_json (excluded_json short ratio l) = Some (VArr l', [10]) /\ Forall2 (entry_read ratio) l l'.
Proof. exact excluded_read. Qed.
Print Assumptions C63_list.

(** Every listing is of an index that was live at some moment before it, and if that index
    is still live when it is read, and no update has failed to close its predecessor, the list
    is there. *)
Theorem C63_listing_partial : forall r0 tr s, runs (initial r0) tr s ->
  forall t1 t i good t2, tr = t1 ++ Listed t i good :: t2 ->
  was_live r0 t1 i /\ (forall r, no_failed_swap t1 -> published r0 t1 i r -> good = true).
Proof. exact listed_ok. Qed.
Print Assumptions C63_listing_partial.

(** In full it is false: an update that succeeds between the reading of s.idx and the
    opening of the file leaves the client with nothing. *)
Theorem C63_listing_refuted : exists r0 tr s t i, runs (initial r0) tr s /\ no_failed_swap tr /\ In (Listed t i false) tr.
Proof.
  destruct listed_late as [s R]. do 5 eexists. split; [exact R|]. split.
  - intros i [X|[X|[X|[]]]]; discriminate.
  - right. right. left. reflexivity.
Qed.
Print Assumptions C63_listing_refuted.

(** A list of three files, one with a name that needs escaping and is not UTF-8. *)
Example C63_example :
  let l := [(text "a.bin", NotText); ([34; 255], Rejected TooLong); (text "b.txt", Rejected LongLines)] in
  decode_json (excluded_json true (fun _ => text "0.75") l) =
    Some (VArr [VObj [(text "Filename", VStr (text "a.bin")); (text "Reason", VStr (text "Not a text file."))];
                VObj [(text "Filename", VStr [34; 239; 191; 189]); (text "Reason", VStr (text "Too long"))];
                VObj [(text "Filename", VStr (text "b.txt")); (text "Reason", VStr (text "Too many long lines, ratio: 0.75"))]], [10]).
Proof. vm_compute. reflexivity. Qed.
