(** C23: building an index and searching it. [covers q p] relates the trigram query to
    the compiled program (established for queries derived from expressions by C01, up to
    the correctness of regexp/syntax, which is not modelled). [C23_search_exact] holds
    for all programs, in terms of the line scan described by C17 and C18; the partial
    theorem is in terms of matching lines and inherits C17's restrictions. *)
From Verif Require Import Model.Base Model.Writer Model.IndexRun Model.Query Model.Reader Model.Matcher Model.Grep
  Model.Search Spec.RunSpec Spec.QuerySpec Spec.MatchSpec Spec.GrepSpec Spec.SearchSpec Proofs.GrepTop Proofs.MatchTop
  Proofs.SearchTop Proofs.LookupProofs Proofs.EndToEnd Proofs.SearchExample Model.IndexDir Spec.TreeSpec Proofs.FillProofs Proofs.TreeSearch.
From Coq Require Import Sorted Relations.
Local Open Scope N_scope.

Theorem C23_search_exact : forall cap mem files vs b fuel nctx p q raw auto rev re,
  (1 <= cap)%nat -> files_ok files -> build_index cap mem [] files = Some (vs, b) ->
  wf_prog p -> depth_ok fuel p -> used fuel p re -> wf_query q -> bytes_query q -> covers q p ->
  exists docs ix E, kept files vs docs /\ ix_open b = Some ix /\
    (forall d, In d docs -> fm_name (E d) = fst d /\
       exists re', grep_text fuel nctx re (snd d) = Some (re', fm_hits (E d))) /\
    (raw_ok raw docs ->
      exists r, search fuel (unlimited nctx) raw auto rev ix q re None None = Some (Some r) /\
        rs_matches r = filter has_hits (map E docs) /\ rs_rev r = rev).
Proof. exact end_to_end. Qed.
Print Assumptions C23_search_exact.

Theorem C23_matching_lines_partial : forall cap mem files vs b fuel nctx p q raw auto rev re,
  (1 <= cap)%nat -> files_ok files -> build_index cap mem [] files = Some (vs, b) ->
  wf_prog p -> depth_ok fuel p -> used fuel p re -> wf_query q -> bytes_query q -> covers q p ->
  no_begin_text p -> ~ line_match p false true [] ->
  exists docs ix, kept files vs docs /\ ix_open b = Some ix /\
    (raw_ok raw docs ->
      exists r, search fuel (unlimited nctx) raw auto rev ix q re None None = Some (Some r) /\
        (forall f, In f (rs_matches r) -> exists d lines, In d docs /\ fm_name f = fst d /\
           file_lines (snd d) lines /\ (exists k, (k < length lines)%nat /\ line_matches (line_match p) (snd d) k) /\
           StronglySorted lt (map h_no (fm_hits f)) /\
           forall k line, reported (fm_hits f) k line <->
             nth_error lines k = Some line /\ line_matches (line_match p) (snd d) k) /\
        (forall d lines k, In d docs -> file_lines (snd d) lines -> (k < length lines)%nat ->
           line_matches (line_match p) (snd d) k ->
           exists f, In f (rs_matches r) /\ fm_name f = fst d /\ exists line, reported (fm_hits f) k line)).
Proof. exact end_to_end_lines. Qed.
Print Assumptions C23_matching_lines_partial.

(** From a source directory (C24) to search results: every result is a file of the tree
    with exactly its matching lines, and every readable file of the tree that is not
    listed as excluded is found if a line of it matches. *)
Theorem C23_repository_partial : forall cap opt mk_ok cr_ok json_ok mem rname u es b raw excl fuel nctx p q rdr auto rev re,
  (1 <= cap)%nat -> good_tree (NDir u es) ->
  index_all_files cap opt mk_ok cr_ok json_ok mem rname (NDir u es) = Some (Some (b, raw, excl)) ->
  serves rdr raw ->
  wf_prog p -> depth_ok fuel p -> used fuel p re -> wf_query q -> bytes_query q -> covers q p ->
  no_begin_text p -> ~ line_match p false true [] ->
  exists ix r, ix_open b = Some ix /\ search fuel (unlimited nctx) rdr auto rev ix q re None None = Some (Some r) /\
    (forall f, In f (rs_matches r) -> exists cs m pk evs lines,
       found opt rname (NDir u es) cs m (NFile pk (Some evs)) /\ joined cs (fm_name f) /\ ~ hidden opt m /\
       file_lines (ev_content evs) lines /\
       (exists k, (k < length lines)%nat /\ line_matches (line_match p) (ev_content evs) k) /\
       StronglySorted lt (map h_no (fm_hits f)) /\
       forall k line, reported (fm_hits f) k line <->
         nth_error lines k = Some line /\ line_matches (line_match p) (ev_content evs) k) /\
    (forall cs m pk evs name lines k, found opt rname (NDir u es) cs m (NFile pk (Some evs)) -> joined cs name ->
       ~ special opt m -> ev_ok evs -> ~ In name (map fst excl) ->
       file_lines (ev_content evs) lines -> (k < length lines)%nat -> line_matches (line_match p) (ev_content evs) k ->
       exists f, In f (rs_matches r) /\ fm_name f = name /\ exists line, reported (fm_hits f) k line).
Proof. exact search_tree. Qed.
Print Assumptions C23_repository_partial.

(** The expression foo with query "foo" over three files. *)
Lemma ex_runs : forall bot eot line k0 pc k,
  clos_refl_trans _ (step ex_prog line bot eot) (1, k0) (pc, k) -> pc <= 4 /\
  (pc = 1 -> k = k0) /\ (pc = 2 -> nth_error line k0 = Some 102 /\ k = S k0) /\
  (pc = 3 -> nth_error line k0 = Some 102 /\ nth_error line (S k0) = Some 111 /\ k = S (S k0)) /\
  (pc = 4 -> nth_error line k0 = Some 102 /\ nth_error line (S k0) = Some 111 /\ nth_error line (S (S k0)) = Some 111).
Proof.
  intros bot eot line k0 pc k R. apply clos_rt_rtn1 in R. remember (pc, k) as y. revert pc k Heqy.
  induction R as [|y z ST R IH]; intros pc k E.
  - injection E as <- <-. repeat split; intros; try discriminate; lia.
  - subst z. inversion ST as [pc0 k1 a b I|pc0 k1 a b I|pc0 k1 a I|pc0 k1 w a I H|pc0 k1 lo hi fold a c I Nc IR]; subst;
      destruct (IH _ _ eq_refl) as (L & H1 & H2 & H3 & H4); clear IH;
      assert (C : pc0 = 0 \/ pc0 = 1 \/ pc0 = 2 \/ pc0 = 3 \/ pc0 = 4) by lia;
      destruct C as [->|[->|[->|[->| ->]]]]; unfold instr in I; cbn in I; try discriminate;
      injection I as <- <- <- <-; cbn [in_range] in IR; (split; [lia|]).
    + specialize (H1 eq_refl). subst k1. assert (c = 102) by lia. subst c.
      repeat split; intros; try discriminate; auto.
    + destruct (H2 eq_refl) as [A ->]. assert (c = 111) by lia. subst c.
      repeat split; intros; try discriminate; auto.
    + destruct (H3 eq_refl) as (A & B & ->). assert (c = 111) by lia. subst c.
      repeat split; intros; try discriminate; auto.
Qed.

Example C23_example :
  files_ok ex_files /\ wf_query ex_query /\ bytes_query ex_query /\ covers ex_query ex_prog /\
  no_begin_text ex_prog /\ ~ line_match ex_prog false true [] /\
  (exists b docs, build_index 2 (fun _ => 0) [] ex_files = Some ([None; None; None], b) /\
     kept ex_files [None; None; None] docs /\ raw_ok ex_raw docs) /\
  ex_names (unlimited 0) None None = Some ([([97], [1; 3]%nat); ([99], [1%nat])], 2%Z).
Proof.
  assert (FO : files_ok ex_files) by (repeat constructor).
  assert (CV : covers ex_query ex_prog).
  { intros bot eot line _ (k0 & pc & k & L & R & M). cbn [p_start ex_prog] in R.
    destruct (ex_runs _ _ _ _ _ _ R) as (LP & _ & _ & _ & H4).
    assert (pc = 4).
    { assert (C : pc = 0 \/ pc = 1 \/ pc = 2 \/ pc = 3 \/ pc = 4) by lia.
      destruct C as [->|[->|[->|[->| ->]]]]; unfold instr in M; cbn in M; try discriminate. reflexivity. }
    destruct (H4 H) as (A & B & C). cbn [sat ex_query fold_right]. split; [|exact I].
    intros t [<-|[]]. apply nth_error_split in A. destruct A as (u & v & -> & <-).
    rewrite nth_error_app2 in B, C by lia. replace (S (length u) - length u)%nat with 1%nat in B by lia.
    replace (S (S (length u)) - length u)%nat with 2%nat in C by lia. cbn in B, C.
    destruct v as [|x [|y v]]; try discriminate. injection B as ->. injection C as ->.
    exists u, v. reflexivity. }
  split; [exact FO|]. split.
  { cbn. split; [left; discriminate|]. split; [|exact I]. intros t [<-|[]]. reflexivity. }
  split. { cbn. split; [|exact I]. intros t [<-|[]]. repeat constructor. }
  split; [exact CV|]. split.
  { intros w a I. cbn in I. decompose [or] I; try discriminate; contradiction. }
  split.
  { intros (k0 & pc & k & L & R & M). cbn [p_start ex_prog] in R.
    destruct (ex_runs _ _ _ _ _ _ R) as (LP & _ & _ & _ & H4).
    assert (C : pc = 0 \/ pc = 1 \/ pc = 2 \/ pc = 3 \/ pc = 4) by lia.
    destruct C as [->|[->|[->|[->| ->]]]]; unfold instr in M; cbn in M; try discriminate.
    destruct (H4 eq_refl) as (A & _). destruct k0; discriminate. }
  split.
  { destruct (build_index 2 (fun _ => 0) [] ex_files) as [[vs b]|] eqn:EB; [|vm_compute in EB; discriminate].
    assert (vs = [None; None; None]) by (vm_compute in EB; injection EB as <- _; reflexivity). subst vs.
    destruct (Proofs.IndexProofs.names_roundtrip 2 (fun _ => 0) [] ex_files _ b (le_S _ _ (le_n 1)) FO (Forall_nil _) EB)
      as (docs & ix & K & _).
    exists b, docs. split; [reflexivity|]. split; [exact K|].
    unfold ex_files in K. inversion K as [|n1 e1 f1 v1 d1 O1 A1 K1| |n1 e1 f1 v1 d1 O1 K1]; subst; [|exfalso; apply O1; cbn; exact I].
    inversion K1 as [|n2 e2 f2 v2 d2 O2 A2 K2| |n2 e2 f2 v2 d2 O2 K2]; subst; [|exfalso; apply O2; cbn; exact I].
    inversion K2 as [|n3 e3 f3 v3 d3 O3 A3 K3| |n3 e3 f3 v3 d3 O3 K3]; subst; [|exfalso; apply O3; cbn; exact I].
    inversion K3; subst.
    intros d [<-|[<-|[<-|[]]]]; eexists; (split; [reflexivity|]); split; reflexivity. }
  vm_compute. reflexivity.
Qed.
