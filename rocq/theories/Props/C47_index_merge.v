(** C47: merging two indexes prefers the newer one. Holds when the last byte of every path of the
    newer index is below 0x7f and the names of both indexes keep step with these paths; sorted
    names do, names in the order of filepath.Walk may not. *)
From Coq Require Import Sorted.
From Verif Require Import Model.Base Model.Writer Model.Reader Model.IndexRun Model.IndexMerge
  Spec.IndexSpec Spec.RunSpec Spec.MergeSpec Proofs.IndexFile Proofs.IndexMergeProofs Proofs.IndexMergeTop Proofs.IndexMergeExamples.
Local Open Scope N_scope.

(** Two indexes as the index writer leaves them: the merged one opens, and has the files of the
    newer and the files of the older that no path of the newer covers, each in their order; its
    trigram lists and the answers to trigram queries are right. *)
Theorem C47_partial : forall cap1 mem1 ps1 files1 vs1 A cap2 mem2 ps2 files2 vs2 B,
  (1 <= cap1)%nat -> files_ok files1 -> Forall (fun p => p <> [] /\ ~ In 0 p) ps1 -> build_index cap1 mem1 ps1 files1 = Some (vs1, A) ->
  (1 <= cap2)%nat -> files_ok files2 -> Forall (fun p => p <> [] /\ ~ In 0 p) ps2 -> build_index cap2 mem2 ps2 files2 = Some (vs2, B) ->
  exists docs1 docs2, kept files1 vs1 docs1 /\ kept files2 vs2 docs2 /\
  forall C, mergeable docs1 ps2 docs2 -> merge A B = Some C -> nlen C < 2^32 ->
  exists ps3 docs3, (StronglySorted sle ps1 -> paths_merged ps1 ps2 ps3) /\ docs_merged docs1 ps2 docs2 docs3 /\ shows C ps3 docs3.
Proof.
  intros cap1 mem1 ps1 files1 vs1 A cap2 mem2 ps2 files2 vs2 B C1 F1 P1 B1 C2 F2 P2 B2.
  destruct (made_build _ _ _ _ _ _ C1 F1 P1 B1) as (docs1 & K1 & M1). destruct (made_build _ _ _ _ _ _ C2 F2 P2 B2) as (docs2 & K2 & M2).
  exists docs1, docs2. split; [exact K1|]. split; [exact K2|]. intros C G M H.
  destruct (merge_right _ _ _ _ _ _ _ M1 M2 G M H) as (ps3 & docs3 & X & Y & Z & _). exists ps3, docs3. auto.
Qed.
(** The same for any two well-formed indexes, in particular for merged ones: the merged index
    is well-formed again. *)
Theorem C47_again_partial : forall A ps1 docs1 B ps2 docs2 C, made A ps1 docs1 -> made B ps2 docs2 -> mergeable docs1 ps2 docs2 ->
  merge A B = Some C -> nlen C < 2^32 ->
  exists ps3 docs3, (StronglySorted sle ps1 -> paths_merged ps1 ps2 ps3) /\ docs_merged docs1 ps2 docs2 docs3 /\ shows C ps3 docs3 /\ made C ps3 docs3.
Proof. exact merge_right. Qed.
Theorem C47_built : forall cap mem ps files vs D, (1 <= cap)%nat -> files_ok files -> Forall (fun p => p <> [] /\ ~ In 0 p) ps ->
  build_index cap mem ps files = Some (vs, D) -> exists docs, kept files vs docs /\ made D ps docs /\ shows D ps docs.
Proof.
  intros cap mem ps files vs D C F P H. destruct (made_build _ _ _ _ _ _ C F P H) as (docs & K & M). exists docs.
  split; [exact K|]. split; [exact M|apply made_shows, M].
Qed.
(** Merging does not fail if the indexes are not too large. *)
Theorem C47_succeeds_partial : forall A ps1 docs1 B ps2 docs2, made A ps1 docs1 -> made B ps2 docs2 -> mergeable docs1 ps2 docs2 ->
  5 * (nlen A + nlen B) < 2^32 -> exists C, merge A B = Some C /\ nlen C < 2^32.
Proof. exact merge_works. Qed.
(** Sorted names keep step with every path. *)
Theorem C47_sorted : forall docs1 ps2 docs2, StronglySorted sle ps2 -> Forall plain_end ps2 -> (forall d, In d docs2 -> covered ps2 (fst d)) ->
  StronglySorted sle (map fst docs1) -> StronglySorted sle (map fst docs2) -> mergeable docs1 ps2 docs2.
Proof.
  intros docs1 ps2 docs2 A B C D E. split; [exact A|]. split; [exact B|]. split; [exact C|].
  intros p _. split; apply sorted_in_step; assumption.
Qed.

(** Paths of the newer index that end in a byte from 0x7f on: the bound computed in merge.go:69 is
    the UTF-8 encoding of the next character, and files of the older index are lost that the newer
    one does not cover. *)
Theorem C47_refuted : exists A ps1 docs1 B ps2 docs2 d, lost A ps1 docs1 B ps2 docs2 d /\
  StronglySorted le_doc docs1 /\ StronglySorted le_doc docs2.
Proof. do 7 eexists. exact lost_utf8. Qed.
(** Names in the order of filepath.Walk, which is not that of the strings. *)
Theorem C47_walk_refuted : exists A ps1 docs1 B ps2 docs2 d, lost A ps1 docs1 B ps2 docs2 d /\ Forall plain_end ps2.
Proof. do 7 eexists. exact lost_walk. Qed.

Example C47_case : made (built old_paths old_docs) old_paths old_docs /\ made (built new_paths new_docs) new_paths new_docs /\
  mergeable old_docs new_paths new_docs /\
  exists C ix, merge (built old_paths old_docs) (built new_paths new_docs) = Some C /\ nlen C < 2^32 /\ ix_open C = Some ix /\
  ix_paths ix = Some [[97]; [98]; [99]] /\ ix_numName ix = 3%Z /\
  ix_name ix 0 = Some [97;47;49] /\ ix_name ix 1 = Some [98;47;120] /\ ix_name ix 2 = Some [99;47;50] /\
  posting_list ix 6841708 None = Some [0; 1] /\ posting_list ix 6382179 None = Some [2] /\ posting_list ix 6447972 None = Some [].
Proof. exact (conj ex_old (conj ex_new (conj ex_mergeable ex_merge))). Qed.
(** Coverage is by prefix of the name: the file r/ab is dropped for the path r/a. *)
Example C47_component : made (built [[114]] ab_docs) [[114]] ab_docs /\ made (built [[114;47;97]] a_docs) [[114;47;97]] a_docs /\ mergeable ab_docs [[114;47;97]] a_docs /\
  exists C ix, merge (built [[114]] ab_docs) (built [[114;47;97]] a_docs) = Some C /\ ix_open C = Some ix /\
    ix_numName ix = 1%Z /\ ix_name ix 0 = Some [114;47;97;47;120].
Proof. exact lost_component. Qed.
(** An index with files and no paths cannot be the newer one. *)
Example C47_no_paths : made (built [] a_docs) [] a_docs /\ merge (built [[114]] ab_docs) (built [] a_docs) = None.
Proof. exact no_paths. Qed.

Print Assumptions C47_partial.
Print Assumptions C47_again_partial.
Print Assumptions C47_built.
Print Assumptions C47_succeeds_partial.
Print Assumptions C47_sorted.
Print Assumptions C47_refuted.
Print Assumptions C47_walk_refuted.
