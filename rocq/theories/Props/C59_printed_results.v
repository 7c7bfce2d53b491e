(** C59: what the command line client prints is what is in the files. Every selected
    repository with a wanted file is printed, once; of it every wanted file, in the order of
    the index; of a file exactly the lines within the asked distance of a matching line, each
    once, with their numbers, the matching ones marked ([output_shown], Spec/WholeSpec.v,
    which speaks of the files, the expression and the output only). This joins the request
    (C54), the index (C04), the search (C23), the transport of the answer (C58) and the
    output (C53).

    [_partial]: expressions without \A that are not matched by an empty last line only (C17) and whose
    analysis shares no storage (C01); texts and names in UTF-8 (C14, C58); at most 20 lines
    of context (C54); fewer lines than the limit (C18); no failing write; and the first line
    if it is empty and does not match (below). *)
From Verif Require Import Spec.ParsedSpec Model.Base Model.GoStr Model.Config Model.Writer Model.IndexRun Model.IndexDir Model.Query Model.Reader Model.Syntax Model.Matcher Model.Utf Model.Grep
  Model.Search Model.Api Model.Request Model.Json Model.Wire Model.Client Model.Present Model.Whole
  Spec.IndexSpec Spec.RunSpec Spec.Utf8Spec Spec.RegexSpec Spec.MatchSpec Spec.ExprSpec Spec.GrepSpec Spec.ApiSpec Spec.ClientSpec
  Spec.PresentSpec Spec.WireSpec Spec.TreeSpec Spec.WholeSpec Proofs.SplitProofs Proofs.MatchTop Proofs.GrepTop Proofs.GoStrProofs Proofs.ApiProofs Proofs.EndToEnd Proofs.TreeSearch Proofs.ExprSearch
  Proofs.Thompson Proofs.WholeSearch Proofs.WholeTop Proofs.WholeExample Props.C01_prefilter Props.C23_expressions.
From Coq Require Import Permutation Sorted Lia.
Local Open Scope N_scope.

(** [arr']: the answers of the searchers in the order in which they arrive; [order]: that in
    which the client ranges over its map. *)
Theorem C59_output_partial : forall fuel compile quote grow sf om ex P tq p re fe fp fre ctx,
  compiled grow sf om ex P tq p -> no_text_start ex -> ends_well sf ex ->
  depth_ok fuel p -> used fuel p re -> filter_compiled fuel sf om fe fp fre ->
  forall host pattern repos files ic st servers def w docs names en find listing,
  ~ In 35 host -> ~ In 63 host ->
  Forall (fun c => c < 256) pattern -> Forall (fun c => c < 256) repos -> Forall (fun c => c < 256) files -> (ctx <= 20)%nat ->
  compile (GetRegexpPattern pattern ic) = Some (tq, re) -> optional_filter compile files = Some fre ->
  trimmed repos w -> NoDup (map fst servers) ->
  (forall name r s, In (name, (r, s)) servers -> w = [42] \/ element w name ->
     valid_utf8 name /\ repoNameFor listing name = Some (names name) /\ ready sf ex fe def s (docs name)) ->
  (forall t, positions 0 (length t) (find t)) ->
  let q := read_search (form_of (search_url host pattern repos files (Z.of_nat ctx) ic st))
             (map (fun s => (fst s, fst (snd s))) servers) def in
  exists arr, run_searches fuel compile quote q servers (q_repos q) = Some arr /\
  forall arr' short msg dur, Permutation arr arr' -> int64_range dur -> int64_range (opened arr') ->
  exists rs stats, read_answer (search_body short msg (q_stats q) dur arr') = Some (mkRecv (Some rs) stats) /\
  forall order, Permutation rs order ->
  exists out plain, Present en find (fun _ _ => false) (Z.of_nat ctx) listing (shape order) = (out, Done) /\
    coloured plain (concat out) /\
    output_shown ctx sf ex fe docs names (fun r => In r (map fst servers) /\ (w = [42] \/ element w r)) plain.
Proof. exact whole_output. Qed.
Print Assumptions C59_output_partial.

(** The searchers of C59 from directories: the index of a directory ([stocked]) holds the
    texts of the regular files of the tree that are neither hidden nor excluded, each name
    once. *)
Theorem C59_directory : forall cap opt mk_ok cr_ok json_ok mem rname u es b raw excl rdr,
  (1 <= cap)%nat -> good_tree (NDir u es) ->
  index_all_files cap opt mk_ok cr_ok json_ok mem rname (NDir u es) = Some (Some (b, raw, excl)) -> serves rdr raw ->
  exists ix docs, ix_open b = Some ix /\ stocked ix rdr docs /\ NoDup (map fst docs) /\
    (forall name text, In (name, text) docs -> exists cs m pk evs,
       found opt rname (NDir u es) cs m (NFile (Some pk) (Some evs)) /\ joined cs name /\ ~ hidden opt m /\ text = ev_content evs) /\
    (forall cs m pk evs name, found opt rname (NDir u es) cs m (NFile pk (Some evs)) -> joined cs name ->
       ~ special opt m -> ev_ok evs -> ~ In name (map fst excl) -> In (name, ev_content evs) docs).
Proof. exact stocked_tree. Qed.
Print Assumptions C59_directory.

(** ** A concrete search: hound --context 1 --files a b, against the server of
    Proofs/WholeExample.v *)
Definition C59_request := read_search (form_of (search_url [104] [98] [42] [97] 1 false false))
  (map (fun s => (fst s, fst (snd s))) we_servers) 5000.
Definition C59_printed : option (list str * status) :=
  arr <- run_searches 300 we_compile (fun s => s) C59_request we_servers (q_repos C59_request) ;;
  r <- read_answer (search_body false [] (q_stats C59_request) 0 arr) ;;
  match r with
  | mkRecv (Some rs) _ => Some (Present false (fun _ => []) (fun _ _ => false) 1 [] (shape rs))
  | _ => None
  end.
Definition C59_out : list str :=
  [[114; 10]; [97; 10];
   [50; 58; 32; 32; 32; 32; 32; 98; 10]; [51; 45; 32; 32; 32; 32; 32; 99; 10]; [45; 45; 10];
   [53; 45; 32; 32; 32; 32; 32; 101; 10]; [54; 58; 32; 32; 32; 32; 32; 98; 10]; [45; 45; 10]; [10]].

(** All the hypotheses hold. *)
Example C59_example :
  compiled Model.Analyze.go_grow ascii_fold 4 (we_lit 98) (thompson (we_lit 98)) we_query (we_prog 98) /\
  no_text_start (we_lit 98) /\ ends_well ascii_fold (we_lit 98) /\
  depth_ok 300 (we_prog 98) /\ used 300 (we_prog 98) (we_matcher 98) /\
  filter_compiled 300 ascii_fold 4 (Some (we_lit 97)) (Some (we_prog 97)) (Some (we_matcher 97)) /\
  we_compile (GetRegexpPattern [98] false) = Some (we_query, we_matcher 98) /\
  optional_filter we_compile [97] = Some (Some (we_matcher 97)) /\
  trimmed [42] [42] /\ NoDup (map fst we_servers) /\
  (forall name r s, In (name, (r, s)) we_servers -> [42] = [42] \/ element [42] name ->
     valid_utf8 name /\ repoNameFor [] name = Some name /\ ready ascii_fold (we_lit 98) (Some (we_lit 97)) 5000 s we_docs) /\
  C59_printed = Some (C59_out, Done).
Proof.
  split; [apply we_compiled; auto|]. split; [exact I|]. split; [intros X; exfalso; exact (we_nonempty _ _ _ X)|]. split; [apply we_depth|]. split; [apply we_used; auto|].
  split. { split; [eexists _, _, _; apply we_compiled; auto|]. split; [apply we_depth|apply we_used; auto]. }
  split; [reflexivity|]. split; [reflexivity|]. split; [apply (trim_space_ok [42])|]. split; [repeat constructor; intros []|].
  split; [|vm_compute; reflexivity].
  intros name r s [E|[]] _. injection E as <- _ <-. split; [apply we_valid; repeat constructor|]. split; [reflexivity|exact we_ready].
Qed.

(** With the first line included the claim is false: the first line of "a" is empty, the
    second one matches, and one line of context is asked for; line 1 is not printed. *)
Theorem C59_first_line_refuted : exists text lines out,
  In ([97], text) we_docs /\ file_lines text lines /\ nth_error lines 0 = Some [] /\ expr_on_line ascii_fold (we_lit 98) text 1 /\
  (exists k, expr_on_line ascii_fold (we_lit 97) [97] k) /\
  C59_printed = Some (out, Done) /\
  forall s, row_text (1%Z, [], false) s -> ~ exists a b, concat out = a ++ s ++ b.
Proof.
  exists we_text, [[]; [98]; [99]; [100]; [101]; [98]], C59_out.
  split; [left; reflexivity|]. split.
  { eexists. split; [apply splits_iff; reflexivity|]. right. split; [reflexivity|discriminate]. }
  split; [reflexivity|].
  assert (forall c pre post, c < 0x80 -> rmatch ascii_fold (we_lit c) pre [c] post) as M.
  { intros c pre post L. cbn [rmatch we_lit spells]. exists c, [c], []. split; [reflexivity|]. split; [constructor; exact L|]. split; reflexivity. }
  split.
  { exists [10], [98], [10; 99; 10; 100; 10; 101; 10; 98]. split; [reflexivity|]. split; [reflexivity|].
    split; [intros [X|[]]; discriminate X|apply M; reflexivity]. }
  split.
  { exists 0%nat, [], [97], []. split; [reflexivity|]. split; [reflexivity|]. split; [intros [X|[]]; discriminate X|apply M; reflexivity]. }
  split; [vm_compute; reflexivity|].
  intros s (d & D & _ & ->) (a & b & E).
  assert (In 49 (concat C59_out)) as X.
  { rewrite E. apply in_or_app. right. apply in_or_app. left. apply in_or_app. left.
    destruct D as (N1 & DG & V). destruct (exists_last N1) as (d' & c & ->). rewrite fold_left_app in V. cbn [fold_left] in V.
    apply Forall_app in DG. destruct DG as [_ DG]. apply Forall_inv in DG. unfold digit in DG.
    apply in_or_app. right. left. change (Z.to_N 1) with 1 in V. lia. }
  cbn in X. decompose [or] X; try discriminate; contradiction.
Qed.
Print Assumptions C59_first_line_refuted.
