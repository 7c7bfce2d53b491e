(** C105: what is written at the sources is printed for whoever asks hound for it: C104, C59 and C98 together,
    from changes at the sources and the arguments of the program to its output. hound takes
    expressions only; a text is asked for by its quoted form. *)
From Verif Require Import Model.Base Model.GoStr Model.Query Model.Reader Model.Writer Model.IndexRun Model.Utf8 Model.Matcher Model.Analyze Model.Grep Model.Search Model.Api
  Model.Whole Model.GoRegexp Model.GoParse Model.IndexDir Model.PageAddress Model.PageView Model.PageForm Spec.Utf8Spec Spec.RunSpec Spec.IndexSpec Spec.AddressSpec Spec.ApiSpec Spec.FormSpec Spec.TypedSpec Spec.MatchSpec Spec.GrepSpec Spec.LiteralSpec
  Spec.WholeSpec Spec.TreeSpec Spec.CommitSpec Spec.LoadSpec Spec.PlainSpec Spec.WrittenSpec Spec.Names Proofs.EndToEnd Proofs.WholeSearch Proofs.WholeExample Proofs.SearchExample Proofs.LiteralTop Proofs.StrLemmas Proofs.Utf8Proofs Proofs.ApiProofs Proofs.AddressProofs Proofs.FormProofs Proofs.FormServe Proofs.PageServe Proofs.PageLoad Proofs.PageLiteral
  Proofs.TypedProofs Proofs.WrittenProofs Props.C01_prefilter Props.C23_expressions Props.C74_plain_text
  Model.Config Model.Server Model.Polling Model.Follow Spec.ServerSpec Spec.PollSpec Proofs.ServerExamples Proofs.PollExamples Proofs.FollowExamples Model.PageState Props.C91_page_text Props.C97_fresh Props.C98_commit Props.C101_typed Props.C102_written.
From Verif Require Import Model.Request Model.Json Model.Wire Model.Client Model.Present Spec.ClientSpec Spec.PresentSpec Spec.WireSpec Spec.PrintedSpec Proofs.ApiProofs Proofs.PrintedProofs Proofs.GoStrProofs.
From Verif Require Model.CmdLine Spec.CmdLineSpec Proofs.CmdLineProofs.
From Coq Require Import Permutation Lia ZArith.
Local Open Scope N_scope.


(** [asks_for a rs]: [a] is a search for the text [rs], of all files, printed the default way. *)
Definition asks_for (a : CmdLine.asks) (rs : list N) : Prop :=
  (exists chars, Forall2 utf8 rs chars /\ CmdLine.a_pattern a = QuoteMeta (List.concat chars)) /\ CmdLine.a_files a = [] /\ CmdLine.a_grep a = false /\
  (0 <= CmdLine.a_context a <= 20)%Z /\ Forall (fun c => c < 256) (CmdLine.a_repos a).
(** The search that is made and printed for [a], at [host] (C93): in whatever order the answers
    arrive and the client ranges over its map, the output is as said by [P], but for the colours. *)
Definition prints (grow : nat -> nat -> nat) (sf : N -> N) (om : nat) beyond (fuel : nat) (servers : list (str * (Config.repo * Whole.served))) (def : Z)
    (host : str) (a : CmdLine.asks) en find listing (P : str -> Prop) : Prop :=
  let q := read_search (form_of (search_url host (CmdLine.a_pattern a) (CmdLine.a_repos a) (CmdLine.a_files a) (CmdLine.a_context a) (CmdLine.a_case a) (CmdLine.a_stats a)))
             (map (fun s => (fst s, fst (snd s))) servers) def in
  exists arr, run_searches fuel (compile_pattern sf om grow fuel beyond) QuoteMeta q servers (q_repos q) = Some arr /\
  forall arr' short msg dur, Permutation arr arr' -> int64_range dur -> int64_range (opened arr') ->
  exists res stats, read_answer (search_body short msg (q_stats q) dur arr') = Some (mkRecv (Some res) stats) /\
  forall order, Permutation res order ->
  exists out plain, Present en find (fun _ _ => false) (CmdLine.a_context a) listing (shape order) = (out, Present.Done) /\ coloured plain (List.concat out) /\ P plain.

(** Missing: what C59 leaves out. *)
Theorem C105_printed_partial : forall grow sf om beyond fuel servers def src, folding sf om -> NoDup (map fst servers) -> made_of src servers -> sendable src servers ->
  forall built args a rs w host names listing en find, CmdLineSpec.says built args a -> asks_for a rs -> feasible sf om fuel (CmdLine.a_case a) rs ->
  (def <= 0)%Z \/ (forall r, In r (map fst servers) -> few_lines_in sf (CmdLine.a_case a) rs (src r) def) ->
  ~ In 35 host -> ~ In 63 host -> trimmed (CmdLine.a_repos a) w ->
  (forall r, In r (map fst servers) -> repoNameFor listing r = Some (names r)) -> (forall t, positions 0 (length t) (find t)) ->
  CmdLine.hound built args = Some (CmdLine.Asks a) /\
  prints grow sf om beyond fuel servers def host a en find listing
    (sources_printed (Z.to_nat (CmdLine.a_context a)) sf (CmdLine.a_case a) rs src names (fun r => In r (map fst servers) /\ (w = [42] \/ element w r))).
Proof.
  intros grow sf om beyond fuel servers def src FO ND MADE SEND built args a rs w host names listing en find SAYS ((chars & CH & PA) & FI & _ & CX & BR) FE LIM H1 H2 TR LN POS.
  split; [apply CmdLineProofs.hound_asks; exact SAYS|].
  pose proof (text_printed grow sf om beyond fuel servers def src FO ND MADE SEND (CmdLine.a_case a) rs chars (CmdLine.a_repos a) w (CmdLine.a_stats a) (Z.to_nat (CmdLine.a_context a)) host names listing
    en find CH FE LIM H1 H2 BR ltac:(lia) TR LN POS) as X. rewrite Znat.Z2Nat.id in X by lia. unfold prints. rewrite PA, FI. exact X.
Qed.
Print Assumptions C105_printed_partial.

(** Once the sources have come to rest, unless a searcher is stopped there comes a time after which
    the indices do not change, and hound prints what is at the sources. Missing: also what C97
    leaves out. *)
Theorem C105_in_the_end_partial : forall grow sf om beyond fuel def k c confs x, folding sf om -> (1 <= c)%nat -> is_execution x (initial k c (of_config confs)) -> fair x ->
  forall names num upstream vs out rev opt rname tree held left, NoDup names ->
  (forall r, In r names -> settles confs x (num r) (upstream r) (vs r) (out r) (rev r)) ->
  (forall r, In r names -> exists u es, tree r (rev r) = NDir u es /\ good_tree (tree r (rev r)) /\ utf8_tree (opt r) (rname r) (tree r (rev r)) /\
     countable (mkSource (opt r) (rname r) (tree r (rev r)) []) /\ valid_utf8 r /\ valid_utf8 (rev r) /\
     forall name c, file_in (mkSource (opt r) (rname r) (tree r (rev r)) []) name c -> (Z.of_nat (length c) < 2 ^ 63 - 1)%Z) ->
  (forall r j t, In r names -> serves (vs r j) = Some t -> made_from (opt r) (rname r) (tree r (upstream r t)) (upstream r t) (left r t) (held r t)) ->
  (exists r, In r names /\ stopped x (num r)) \/
  exists b now, (forall r, In r names -> upstream r (now r) = rev r /\ forall j, (b <= j)%nat -> serves (vs r j) = Some (now r)) /\
    let src := fun r => mkSource (opt r) (rname r) (tree r (rev r)) (left r (now r)) in
    (forall r, In r names -> left_out_well (opt r) (rname r) (tree r (rev r)) (left r (now r))) /\
    forall j servers, (b <= j)%nat -> searched names vs held j servers ->
    forall built args a rs w host shown listing en find, CmdLineSpec.says built args a -> asks_for a rs -> feasible sf om fuel (CmdLine.a_case a) rs ->
    (def <= 0)%Z \/ (forall r, In r names -> few_lines_in sf (CmdLine.a_case a) rs (mkSource (opt r) (rname r) (tree r (rev r)) []) def) ->
    ~ In 35 host -> ~ In 63 host -> trimmed (CmdLine.a_repos a) w ->
    (forall r, In r names -> repoNameFor listing r = Some (shown r)) -> (forall t, positions 0 (length t) (find t)) ->
    CmdLine.hound built args = Some (CmdLine.Asks a) /\
    prints grow sf om beyond fuel servers def host a en find listing
      (sources_printed (Z.to_nat (CmdLine.a_context a)) sf (CmdLine.a_case a) rs src shown (fun r => In r names /\ (w = [42] \/ element w r))).
Proof.
  intros grow sf om beyond fuel def k c confs x FO C1 EX FA names num upstream vs out rev opt rname tree held left ND SETT TREE MF.
  destruct (all_settle k c confs x C1 EX FA num upstream vs out rev names SETT) as [ST|(b & now & B)]; [left; exact ST|right].
  exists b, now. split; [exact B|]. intros src. split.
  { intros r I. destruct (TREE r I) as (u & es & TR & GT & _). destruct (B r I) as (U & S). specialize (MF r b (now r) I (S b (le_n b))). rewrite U, TR in MF. rewrite TR in *.
    destruct MF as (cap & mk & cr & mem & bb & raw & C & IA & _).
    destruct (DirTop.index_tree _ _ _ _ _ _ _ _ _ _ _ _ C GT IA) as (_ & _ & _ & _ & _ & _ & _ & _ & _ & X & _). exact X. }
  intros j servers L (SN & SV).
  assert (MADE : made_of src servers).
  { intros r s G. assert (I : In r names) by (rewrite <- SN; apply get_some; eauto). destruct (TREE r I) as (u & es & TR & GT & UT & CO & _). destruct (B r I) as (U & S).
    destruct (SV r s G) as (t & T & ->). rewrite (S j L) in T. injection T as <-. exists (rev r), u, es. cbn [src so_opt so_name so_tree so_left].
    split; [exact TR|]. split; [exact GT|]. split; [exact UT|]. split; [|exact CO]. specialize (MF r j (now r) I (S j L)). rewrite U in MF. exact MF. }
  assert (SEND : sendable src servers).
  { intros r s G. assert (I : In r names) by (rewrite <- SN; apply get_some; eauto). destruct (TREE r I) as (u & es & _ & _ & _ & _ & V1 & V2 & SZ). destruct (B r I) as (U & S).
    destruct (SV r s G) as (t & T & ->). rewrite (S j L) in T. injection T as <-. split; [exact V1|]. split; [|exact SZ].
    specialize (MF r j (now r) I (S j L)). destruct MF as (cap & mk & cr & mem & bb & raw & _ & _ & _ & _ & ->). rewrite U. exact V2. }
  intros built args a rs w host shown listing en find SAYS AF FE LIM H1 H2 TR LN POS. rewrite <- SN in ND, LIM, LN |- *.
  exact (C105_printed_partial grow sf om beyond fuel servers def src FO ND MADE SEND built args a rs w host shown listing en find SAYS AF FE LIM H1 H2 TR LN POS).
Qed.
Print Assumptions C105_in_the_end_partial.

(** ** The history of C98's example, and after it: hound -context=0 -ignore-case 'a\.b' *)
Definition pr_args : list str := [text "-context=0"; text "-ignore-case"; text "a\.b"].
Definition pr_asks : CmdLine.asks := CmdLine.mkAsks (text "a\.b") (text "h") (text "*") [] 0 true false false.
Definition pr_printed : option (list str * Present.status) :=
  let q := read_search (form_of (search_url (text "h") (text "a\.b") (text "*") [] 0 true false)) (map (fun s => (fst s, fst (snd s))) wr_servers) 10 in
  arr <- run_searches 3000 pt_compile QuoteMeta q wr_servers (q_repos q) ;;
  r <- read_answer (search_body false [] (q_stats q) 0 arr) ;;
  match r with
  | mkRecv (Some rs) _ => Some (Present false (fun _ => []) (fun _ _ => false) 0 [] (shape rs))
  | _ => None
  end.
Example C105_example :
  folding ascii_fold 4 /\ NoDup (map fst wr_servers) /\ (let src := fun _ => mkSource cm_opt [114] (cm_tree [98]) [] in made_of src wr_servers /\ sendable src wr_servers /\
    forall r, few_lines_in ascii_fold true [97; 46; 98] (src r) 10) /\
  CmdLineSpec.says (text "h") pr_args pr_asks /\ asks_for pr_asks [97; 46; 98] /\ feasible ascii_fold 4 3000 true [97; 46; 98] /\ trimmed (text "*") [42] /\
  (forall r, In r (map fst wr_servers) -> repoNameFor [] r = Some r) /\
  (forall r, In r [[114]] -> settles (fun _ => both) going 0 moved_on (vars_at moved_on true) (out_at true) [98]) /\
  searched [[114]] (fun _ => vars_at moved_on true) (fun _ => cm_held) 20 wr_servers /\
  held_in (mkSource cm_opt [114] (cm_tree [98]) []) [97] lt_text /\ with_text ascii_fold true [97; 46; 98] lt_text /\
  exists out, pr_printed = Some (out, Present.Done) /\
    List.concat out = text "r" ++ [10] ++ text "a" ++ [10] ++ text "2:     aa.b" ++ [10] ++ text "4:     A.b" ++ [10] ++ [10].
Proof.
  destruct C102_example as (SETT & _ & _ & SR & _ & HE & MD & _).
  destruct (C74_example true) as (FO & CH & OLD & BP & _).
  split; [exact FO|]. split; [repeat constructor; intros []|]. split.
  { split; [exact MD|]. split; [|intros r; apply wr_few]. intros r s G. destruct (MD r s G) as (rev & u & es & _ & _ & UT & _ & CN). split; [|split].
    - assert (I : In r (map fst wr_servers)) by (apply get_some; eauto). destruct I as [<-|[]]. apply we_valid. repeat constructor.
    - unfold wr_servers in G. cbn [get] in G. match type of G with (if ?b then _ else _) = _ => destruct b; [|discriminate] end. injection G as <-. cbn [snd].
      replace (sv_rev (cm_held 16)) with [98] by (vm_compute; reflexivity). apply we_valid. repeat constructor.
    - intros name c (cs & m & pk & evs & Fo & J & _ & ->). cbn [so_opt so_name so_tree] in Fo. destruct (cm_found _ _ _ _ _ _ Fo J) as (_ & ->). vm_compute. reflexivity. }
  split; [apply CmdLineProofs.hound_asks; vm_compute; reflexivity|].
  split. { split; [exists [[97]; [46]; [98]]; split; [exact CH|reflexivity]|]. split; [reflexivity|]. split; [reflexivity|]. split; [cbn; lia|]. repeat constructor. }
  split. { split; [exact OLD|]. split; [vm_compute; discriminate|exact BP]. }
  split; [apply (trim_space_ok [42])|]. split; [intros r [<-|[]]; reflexivity|]. split; [exact SETT|]. split; [exact SR|]. split; [exact HE|]. split.
  { exists 1%nat, [97; 97; 46; 98], [[120]; [97; 97; 46; 98]; [97; 120; 98]; [65; 46; 98]]. split; [exact pt_lines|]. split; [reflexivity|].
    exists [97], [97; 46; 98], []. split; [reflexivity|]. cbn [RegexSpec.spells].
    exists 97, [97], [46; 98]. split; [reflexivity|]. split; [constructor; reflexivity|]. split; [|exists 0%nat; reflexivity].
    exists 46, [46], [98]. split; [reflexivity|]. split; [constructor; reflexivity|]. split; [|exists 0%nat; reflexivity].
    exists 98, [98], []. split; [reflexivity|]. split; [constructor; reflexivity|]. split; [reflexivity|exists 0%nat; reflexivity]. }
  eexists. split; vm_compute; reflexivity.
Qed.
