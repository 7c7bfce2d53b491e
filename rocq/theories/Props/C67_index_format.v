(** C67: index files have the format that the comment in codesearch/index/read.go documents.
    [index_format] (Spec/FormatSpec.v) is that format; [true] says that the last, empty
    posting list has an index entry too. *)
From Coq Require Import Sorted.
From Verif Require Import Model.Base Model.Writer Model.Reader Model.IndexRun Model.IndexMerge Model.IndexDir Model.Grep
  Spec.CodecSpec Spec.IndexSpec Spec.RunSpec Spec.MergeSpec Spec.FormatSpec
  Proofs.IndexMergeProofs Proofs.IndexMergeExamples Proofs.FormatProofs Proofs.FormatBounds.
Local Open Scope N_scope.

(** What Flush leaves: the paths, the names of the files in the index, and for every
    trigram that occurs the list of the files it occurs in. Missing: the format as
    documented has no index entry for the last list, and its names are sorted, see below. *)
Theorem C67_written_partial : forall cap mem paths files vs b, (1 <= cap)%nat -> files_ok files ->
  Forall (fun p => p <> [] /\ ~ In 0 p) paths -> Forall (fun f => fst f <> []) files ->
  build_index cap mem paths files = Some (vs, b) ->
  exists docs gs, kept files vs docs /\ index_format true paths (map fst docs) gs b /\ nlen b < 2^32 /\
    (forall t ids, In (t, ids) gs <-> ids <> [] /\ positions_where (fun text => has_trigram text t) (map snd docs) ids).
Proof. exact format_written. Qed.
Print Assumptions C67_written_partial.

(** Every file of this format is read back, whoever wrote it. *)
Theorem C67_read : forall ps names gs file, index_format true ps names gs file -> nlen file < 2^32 ->
  exists ix, ix_open file = Some ix /\ ix_paths ix = Some ps /\ ix_numName ix = Z.of_nat (length names) /\
    (forall i s, nth_error names i = Some s -> ix_name ix (N.of_nat i) = Some s) /\
    (forall t ids, In (t, ids) gs -> posting_list ix t None = Some ids) /\
    (forall t, (forall ids, ~ In (t, ids) gs) -> posting_list ix t None = Some []).
Proof. exact format_read. Qed.
Print Assumptions C67_read.

(** The example of the comment: [2,5,1,1,0] encodes the file ID list 1, 6, 7, 8. *)
Example C67_deltas : delta_list 0 [1; 6; 7; 8] [2; 5; 1; 1; 0].
Proof.
  apply (delta_one 0 1 [6; 7; 8] [2] [5; 1; 1; 0]); [lia|apply leb_last; reflexivity|].
  apply (delta_one 2 6 [7; 8] [5] [1; 1; 0]); [lia|apply leb_last; reflexivity|].
  apply (delta_one 7 7 [8] [1] [1; 0]); [lia|apply leb_last; reflexivity|].
  apply (delta_one 8 8 [] [1] [0]); [lia|apply leb_last; reflexivity|]. apply delta_end.
Qed.

(** The hypotheses of C67_written_partial hold, and so does that of C67_read. *)
Definition two_files : list file := [([102;49], [([97;98;99;97;98], ErrNil)]); ([102;50], [([120;97], ErrNil); ([98;99;120], ErrEOF)])].
Lemma two_files_ok : files_ok two_files /\ Forall (fun f : file => fst f <> []) two_files.
Proof. split; repeat constructor; cbn; try congruence; unfold is_byte; lia. Qed.
Example C67_case : exists b gs, build_index 2 (fun _ => 7) [[47;112]] two_files = Some ([None; None], b) /\
  index_format true [[47;112]] [[102;49]; [102;50]] gs b /\ nlen b < 2^32 /\ length gs = 5%nat.
Proof.
  destruct (build_index 2 (fun _ => 7) [[47;112]] two_files) as [(vs, b)|] eqn:E; [|vm_compute in E; discriminate].
  assert (EV : vs = [None; None]) by (vm_compute in E; congruence). subst vs.
  destruct (format_written 2 (fun _ => 7) [[47;112]] two_files [None; None] b) as (docs & gs & K & F & H & _);
    [lia|apply two_files_ok| |apply two_files_ok|exact E|].
  - repeat constructor; [discriminate|]. cbn. intuition discriminate.
  - assert (D : map fst docs = [[102;49]; [102;50]]).
    { unfold two_files in K. inversion K as [|? ? ? ? ? E1 A1 K1| |? ? ? ? ? E1 K1]; subst; [|destruct E1; exact I].
      inversion K1 as [|? ? ? ? ? E2 A2 K2| |? ? ? ? ? E2 K2]; subst; [|destruct E2; exact I].
      inversion K2; subst. reflexivity. }
    rewrite D in F. exists b, gs. split; [reflexivity|]. split; [exact F|]. split; [exact H|].
    destruct (format_that _ _ _ _ F H) as (EF & _). apply (f_equal (@nlen N)) in EF.
    unfold ended in EF. rewrite IndexFile.gf_sizes in EF.
    apply format_sections in F. destruct F as (p & n & l & la & ni & pi & mark & _ & _ & _ & _ & FI & _ & _ & PL & _ & IE & _).
    assert (LP : forall off g l x, posting_lists off g l x -> length x = (11 * length g)%nat).
    { clear. intros off g l x P. induction P as [|off t ids g b e l x P1 P2 P3 IH]; [reflexivity|].
      rewrite app_length, IH, (entry_length _ _ _ _ P2). cbn [length]. lia. }
    apply (f_equal (@length N)) in FI. rewrite app_length, (LP _ _ _ _ PL), (entry_length _ _ _ _ IE) in FI.
    assert (length (final b) = 66%nat) as L66 by (vm_compute in E; injection E as <-; vm_compute; reflexivity). lia.
Qed.

(** Index entries are only written for the non-empty posting lists: the last list, which is
    empty, has one in every file. *)
Theorem C67_entries_refuted : exists cap mem paths files vs b,
  ((1 <= cap)%nat /\ files_ok files /\ build_index cap mem paths files = Some (vs, b)) /\
  forall ps names gs, ~ index_format false ps names gs b.
Proof.
  destruct C67_case as (b & gs & B & F & _). exists 2%nat, (fun _ => 7), [[47;112]], two_files, [None; None], b.
  split; [split; [lia|split; [apply two_files_ok|exact B]]|].
  intros ps names gs' F'. exact (marked_or_not _ _ _ _ _ _ _ F F').
Qed.
Print Assumptions C67_entries_refuted.

(** The list of names is sorted: the directory a with the file b and beside it the file a-b.
    filepath.Walk visits a/b first. *)
Definition abc_file : node := NFile (Some (RChunk [97;98;99] false REof)) (Some [([97;98;99], ErrEOF)]).
Definition walked : list file := [([97;47;98], [([97;98;99], ErrEOF)]); ([97;45;98], [([97;98;99], ErrEOF)])].
Theorem C67_sorted_refuted : exists es b raw names gs,
  index_all_files 5 (mkIOpts true []) (fun _ => true) (fun _ => true) true (fun _ => 0) [114] (NDir false es) = Some (Some (b, raw, [])) /\
  index_format true [] names gs b /\
  forall ps names' gs', index_format true ps names' gs' b -> ~ StronglySorted sle names'.
Proof.
  exists [([97], NDir false [([98], abc_file)]); ([97;45;98], abc_file)].
  destruct (build_index 5 (fun _ => 0) [] walked) as [(vs, b)|] eqn:E; [|vm_compute in E; discriminate].
  assert (W : files_ok walked /\ Forall (fun f : file => fst f <> []) walked).
  { split; repeat constructor; cbn; try congruence; unfold is_byte; lia. }
  destruct (format_written 5 (fun _ => 0) [] walked vs b ltac:(lia) (proj1 W) (Forall_nil _) (proj2 W) E) as (docs & gs & _ & F & H & _).
  exists b. eexists. exists (map fst docs), gs. split; [|split; [exact F|]].
  - vm_compute in E. injection E as _ <-. vm_compute. reflexivity.
  - intros ps names gs' F' S. destruct (format_read _ _ _ _ F' H) as (ix & O & _ & NN & NM & _).
    vm_compute in E. injection E as _ <-. vm_compute in O. injection O as <-. cbn [ix_numName] in NN.
    destruct names as [|x [|y [|z names]]]; try (exfalso; cbn [length] in NN; lia).
    pose proof (NM 0%nat x eq_refl) as X. pose proof (NM 1%nat y eq_refl) as Y. vm_compute in X, Y.
    injection X as <-. injection Y as <-. inversion S as [|? ? _ SF]; subst. apply Forall_inv in SF. apply SF.
    apply MergeRanges.lex_ltb. reflexivity.
Qed.
Print Assumptions C67_sorted_refuted.

(** Merge does not write this format: its list of names has no empty name at the end
    (merge.go:138-162). Its last offset is one from the start of the file. *)
Theorem C67_merge_refuted : exists A ps1 docs1 B ps2 docs2 C, made A ps1 docs1 /\ made B ps2 docs2 /\ mergeable docs1 ps2 docs2 /\
  merge A B = Some C /\ forall marked ps names gs, ~ index_format marked ps names gs C.
Proof.
  exists (built old_paths old_docs), old_paths, old_docs, (built new_paths new_docs), new_paths, new_docs.
  destruct (merge (built old_paths old_docs) (built new_paths new_docs)) as [C|] eqn:E; [|vm_compute in E; discriminate].
  exists C. split; [exact ex_old|]. split; [exact ex_new|]. split; [exact ex_mergeable|]. split; [reflexivity|].
  intros marked ps names gs F. apply format_sections in F. destruct F as (p & n & _ & _ & _ & _ & _ & _ & EN & _ & _ & _ & _ & NL & _).
  assert (X : section C 1 = [97;47;49;0; 98;47;120;0; 99;47;50;0]) by (vm_compute in E; injection E as <-; vm_compute; reflexivity).
  rewrite X in EN. apply names_ends in NL. rewrite EN in NL. destruct NL as [NL|(a & NL)]; [discriminate|].
  change ([97;47;49;0; 98;47;120;0; 99;47;50;0]) with ([97;47;49;0; 98;47;120;0; 99;47] ++ [50;0]) in NL.
  apply (same_end _ _ a [0;0]) in NL; [discriminate|reflexivity].
Qed.
Print Assumptions C67_merge_refuted.
