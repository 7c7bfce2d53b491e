(** C06: verdicts and bytes of the index do not depend on the capacity of the posting
    buffer (nor on garbage in the sparse set's memory). *)
From Verif Require Import Model.Base Model.Writer Model.IndexRun Spec.RunSpec Proofs.AddProofs Proofs.IndexProofs.
Local Open Scope N_scope.

Theorem C06_flush_independent : forall cap1 cap2 mem1 mem2 paths files,
  (1 <= cap1)%nat -> (1 <= cap2)%nat -> files_ok files ->
  build_index cap1 mem1 paths files = build_index cap2 mem2 paths files.
Proof. exact build_index_same. Qed.
Print Assumptions C06_flush_independent.

(** With capacity 1 every entry but the last goes through a temporary file. *)
Example C06_example :
  let files := [([102;49], [([97;98;99;97;98], ErrNil)]); ([102;50], [([120;97;98;99;120], ErrNil)])] in
  build_index 1 (fun x => x) [] files = build_index 100 (fun _ => 0) [] files /\
  build_index 1 (fun x => x) [] files <> None.
Proof. vm_compute. split; [reflexivity|discriminate]. Qed.
