(** C05: file names and paths survive the write/read round trip. *)
From Verif Require Import Model.Base Model.Writer Model.IndexRun Model.Reader Spec.RunSpec Proofs.IndexProofs.
Local Open Scope N_scope.

Theorem C05_names_roundtrip : forall cap mem paths files vs b, (1 <= cap)%nat -> files_ok files ->
  Forall (fun p => p <> [] /\ ~ In 0 p) paths ->
  build_index cap mem paths files = Some (vs, b) ->
  exists docs ix, kept files vs docs /\ ix_open b = Some ix /\
    ix_numName ix = Z.of_nat (length docs) /\
    (forall i d, nth_error docs i = Some d -> ix_name ix (N.of_nat i) = Some (fst d)) /\
    ix_paths ix = Some paths.
Proof. exact names_roundtrip. Qed.
Print Assumptions C05_names_roundtrip.

(** A name with a NUL byte stops the process instead of corrupting the table. *)
Example C05_nul_name : build_index 2 (fun _ => 0) [] [([97;0], [([97], ErrNil)])] = None.
Proof. vm_compute. reflexivity. Qed.

Example C05_example :
  exists b ix, build_index 2 (fun _ => 0) [[47;97]; [47;98]] [([97], [([97;98;99;100], ErrNil)]); ([], [([], ErrEOF)])]
    = Some ([None; None], b) /\ ix_open b = Some ix /\ ix_numName ix = 2%Z /\
  ix_name ix 0 = Some [97] /\ ix_name ix 1 = Some [] /\ ix_paths ix = Some [[47;97]; [47;98]].
Proof. do 2 eexists. split; [vm_compute; reflexivity|]. split; [vm_compute; reflexivity|].
  vm_compute. repeat split; reflexivity. Qed.
