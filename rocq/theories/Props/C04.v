(** C04: posting lists survive the write/read round trip. [build_index] is Create,
    AddPaths, Add..., Flush with a posting buffer of [cap] entries; [kept]
    (Spec/RunSpec.v) says which files are in the index. *)
From Coq Require Import Sorted.
From Verif Require Import Model.Base Model.Writer Model.IndexRun Model.Reader Spec.IndexSpec Spec.RunSpec
  Proofs.IndexProofs.
Local Open Scope N_scope.

Theorem C04_posting_roundtrip : forall cap mem paths files vs b, (1 <= cap)%nat -> files_ok files ->
  build_index cap mem paths files = Some (vs, b) ->
  exists docs ix, kept files vs docs /\ ix_open b = Some ix /\
    forall t, exists ids, posting_list ix t None = Some ids /\
      positions_where (fun text => has_trigram text t) (map snd docs) ids.
Proof. exact posting_roundtrip. Qed.
Print Assumptions C04_posting_roundtrip.

(** The hypothesis holds whenever names are NUL-free and the result is sure to stay
    below the 4 GB limit of the format. *)
Theorem C04_build_succeeds : forall cap mem paths files, (1 <= cap)%nat -> files_ok files ->
  Forall (fun f => ~ In 0 (fst f)) files -> input_size paths files < 2^32 - 100 ->
  build_index cap mem paths files <> None.
Proof. exact build_succeeds. Qed.
Print Assumptions C04_build_succeeds.

(** Three files "abcab", "xabcx", invalid UTF-8; the buffer holds two entries, so
    several temporary files are merged. *)
Example C04_example :
  let files := [([102;49], [([97;98;99;97;98], ErrNil)]);
                ([102;50], [([120;97], ErrNil); ([98;99;120], ErrEOF)]);
                ([102;51], [([97;255;98], ErrNil)])] in
  exists b ix, build_index 2 (fun _ => 7) [[47;112]] files = Some ([None; None; Some InvalidUTF8], b) /\
    ix_open b = Some ix /\
    posting_list ix 6382179 None = Some [0; 1] /\      (* "abc" *)
    posting_list ix 6447969 None = Some [0] /\         (* "bca" *)
    posting_list ix 7889250 None = Some [1] /\         (* "xab" *)
    posting_list ix 16777215 None = Some [] /\
    ix_name ix 0 = Some [102;49] /\ ix_name ix 1 = Some [102;50] /\ ix_paths ix = Some [[47;112]].
Proof. do 2 eexists. split; [vm_compute; reflexivity|]. split; [vm_compute; reflexivity|].
  vm_compute. repeat split; reflexivity. Qed.
