(** C102: what is written at the sources is on the page for whoever types it. C98 and C101
    together, for several repositories: from changes at the sources to the rows of the page. *)
From Verif Require Import Model.Base Model.GoStr Model.Query Model.Reader Model.Writer Model.IndexRun Model.Utf8 Model.Matcher Model.Analyze Model.Grep Model.Search Model.Api
  Model.Whole Model.GoRegexp Model.GoParse Model.IndexDir Model.PageAddress Model.PageView Model.PageForm Spec.Utf8Spec Spec.RunSpec Spec.IndexSpec Spec.AddressSpec Spec.ApiSpec Spec.FormSpec Spec.TypedSpec Spec.MatchSpec Spec.GrepSpec Spec.LiteralSpec
  Spec.WholeSpec Spec.TreeSpec Spec.CommitSpec Spec.LoadSpec Spec.PlainSpec Spec.WrittenSpec Spec.Names Proofs.EndToEnd Proofs.WholeSearch Proofs.WholeExample Proofs.SearchExample Proofs.LiteralTop Proofs.StrLemmas Proofs.Utf8Proofs Proofs.ApiProofs Proofs.AddressProofs Proofs.FormProofs Proofs.FormServe Proofs.PageServe Proofs.PageLoad Proofs.PageLiteral
  Proofs.TypedProofs Proofs.WrittenProofs Props.C01_prefilter Props.C23_expressions Props.C74_plain_text
  Model.Config Model.Server Model.Polling Model.Follow Spec.ServerSpec Spec.PollSpec Proofs.ServerExamples Proofs.PollExamples Proofs.FollowExamples Model.PageState Props.C91_page_text Props.C97_fresh Props.C98_commit Props.C101_typed.
From Coq Require Import Lia ZArith.
Local Open Scope N_scope.

(** With indices made from the working copies [src]: whatever results are shown after the form was
    sent are those of the sources. Missing: what C101 leaves out. *)
Theorem C102_shown_partial : forall grow sf om beyond fuel servers def msg src ok, folding sf om ->
  (forall p p', same_search p p' -> ok p = ok p') ->
  (forall r, In r (map fst servers) -> trimmed r r /\ ~ In 44 r) -> made_of src servers ->
  (forall p, ok p = true -> exists ic rs, plain_search p ic rs /\ feasible sf om fuel ic rs /\
     ((def <= 0)%Z \/ forall r, In r (map fst servers) -> few_lines_in sf ic rs (src r) def)) ->
  forall locale serve, msg <> [] ->
  (forall p, get_param p (text "limit") = None -> sends fuel (compile_pattern sf om grow fuel beyond) QuoteMeta servers def msg p (serve p)) ->
  forall f rs pb, plain_form f rs -> Forall2 same_pair (getParams f) pb ->
  forall s res, visit_of ok locale serve s (Some pb) -> displays s res ->
  page_of_sources sf src (fun r => In r (map fst servers)) pb (sf_i f) rs res /\
  (sf_repos f = [] -> forall r, LoadSpec.asked (fun r => In r (map fst servers)) pb r <-> In r (map fst servers)).
Proof. exact written_shown. Qed.
Print Assumptions C102_shown_partial.

(** ** Over time *)
(** The source of searcher [i] comes to rest at [r]: from a time [m] on pulls and builds succeed, and
    there is polling, or a push request is taken; no swap ever fails. *)
Definition settles (confs : nat -> Config.repo) (x : execution) (i : nat) (upstream : nat -> str) (vs : nat -> vars) (out : nat -> outcome) (r : str) : Prop :=
  follows upstream x i vs out /\ (forall j, out j <> SwapFailed) /\ exists m, rests upstream m r /\ goes_well out m /\
  ((exists m0 ss errs, In (Return ss errs) (ev x m0) /\ In i ss /\ r_poll (confs i) <> Some false /\ (0 <= r_ms (confs i) <= 9223372036854)%Z) \/
   (In (Ack i) (ev x m) /\ In (Started i) (before x m) /\ ~ In (Done i) (before x m))).
(** What is searched at time [j]. *)
Definition searched (names : list str) (vs : str -> nat -> vars) (held : str -> nat -> Whole.served) (j : nat) (servers : list (str * (Config.repo * Whole.served))) : Prop :=
  map fst servers = names /\ forall r s, get servers r = Some s -> exists t, serves (vs r j) = Some t /\ snd s = held r t.

Lemma all_settle : forall k c confs x, (1 <= c)%nat -> is_execution x (initial k c (of_config confs)) -> fair x ->
  forall num upstream vs out rev names, (forall r, In r names -> settles confs x (num r) (upstream r) (vs r) (out r) (rev r)) ->
  (exists r, In r names /\ stopped x (num r)) \/
  exists b (now : str -> nat), forall r, In r names -> upstream r (now r) = rev r /\ forall j, (b <= j)%nat -> serves (vs r j) = Some (now r).
Proof.
  intros k c confs x C1 EX FA num upstream vs out rev names. induction names as [|r0 names IH]; intros H; [right; exists 0%nat, (fun _ => 0%nat); intros r []|].
  destruct IH as [(r & I & ST)|(b & now & B)]; [intros r I; apply H; right; exact I|left; exists r; split; [right; exact I|exact ST]|].
  assert (Z : ends_with (upstream r0) (vs r0) (rev r0) \/ stopped x (num r0)).
  { destruct (H r0 (or_introl eq_refl)) as (FOL & NS & m & RE & GO & [(m0 & ss & errs & R & I & P & M)|(A & STD & ND)]).
    - exact (C97_polled_partial k c confs x (num r0) m0 ss errs _ _ _ m _ C1 EX FA FOL R I P M RE GO NS).
    - exact (C97_pushed_partial k c confs x (num r0) _ _ _ m _ C1 EX FA FOL A STD ND RE GO NS). }
  destruct Z as [(b0 & t0 & U & B0)|ST]; [right|left; exists r0; split; [left; reflexivity|exact ST]].
  exists (Nat.max b b0), (fun r => if str_eqb r r0 then t0 else now r). intros r I. destruct (str_eqb r r0) eqn:E.
  - apply str_eqb_eq in E. subst r. split; [exact U|]. intros j L. apply B0. lia.
  - destruct I as [-> |I]; [rewrite str_eqb_refl in E; discriminate|]. destruct (B r I) as (U' & B'). split; [exact U'|]. intros j L. apply B'. lia.
Qed.

(** Once the sources have come to rest, unless a searcher is stopped there comes a time after which
    the indices do not change, and every text typed leads to a page with exactly its lines in the
    files of the sources, as far as those could be read and were not left out; the latter for a
    reason (C24). [tree r rev]: the working copy of repository [r] at [rev]; [held r t], [left r t]:
    its index of the revision of time t, and what was left out of it. Missing: what C97 and C101
    leave out. *)
Theorem C102_in_the_end_partial : forall grow sf om beyond fuel def msg ok k c confs x, folding sf om -> msg <> [] ->
  (forall p p', same_search p p' -> ok p = ok p') -> (1 <= c)%nat -> is_execution x (initial k c (of_config confs)) -> fair x ->
  forall names num upstream vs out rev opt rname tree held left, (forall r, In r names -> trimmed r r /\ ~ In 44 r) ->
  (forall r, In r names -> settles confs x (num r) (upstream r) (vs r) (out r) (rev r)) ->
  (forall r, In r names -> exists u es, tree r (rev r) = NDir u es /\ good_tree (tree r (rev r)) /\ utf8_tree (opt r) (rname r) (tree r (rev r)) /\
     countable (mkSource (opt r) (rname r) (tree r (rev r)) [])) ->
  (forall r j t, In r names -> serves (vs r j) = Some t -> made_from (opt r) (rname r) (tree r (upstream r t)) (upstream r t) (left r t) (held r t)) ->
  (forall p, ok p = true -> exists ic rs, plain_search p ic rs /\ feasible sf om fuel ic rs /\
     ((def <= 0)%Z \/ forall r, In r names -> few_lines_in sf ic rs (mkSource (opt r) (rname r) (tree r (rev r)) []) def)) ->
  (exists r, In r names /\ stopped x (num r)) \/
  exists b now, (forall r, In r names -> upstream r (now r) = rev r /\ forall j, (b <= j)%nat -> serves (vs r j) = Some (now r)) /\
    let src := fun r => mkSource (opt r) (rname r) (tree r (rev r)) (left r (now r)) in
    (forall r, In r names -> left_out_well (opt r) (rname r) (tree r (rev r)) (left r (now r))) /\
    forall j servers locale serve, (b <= j)%nat -> searched names vs held j servers ->
    (forall p, get_param p (text "limit") = None -> sends fuel (compile_pattern sf om grow fuel beyond) QuoteMeta servers def msg p (serve p)) ->
    forall f rs, plain_form f rs -> rs <> [] ->
    exists pb, Forall2 same_pair (getParams f) pb /\
      (forall s res, visit_of ok locale serve s (Some pb) -> displays s res -> page_of_sources sf src (fun r => In r names) pb (sf_i f) rs res) /\
      (sf_repos f = [] -> forall r, LoadSpec.asked (fun r => In r names) pb r <-> In r names) /\
      forall s last, visit_of ok locale serve s last -> pg_pending s = [] -> ok pb = true -> (forall req, same_search req pb -> serve req <> Broke) ->
      exists s1 s2 res, page_step locale s (Search pb) s1 /\ goes serve locale s1 s2 /\ displays s2 res /\
        page_of_sources sf src (fun r => In r names) pb (sf_i f) rs res /\ all_of_sources sf src (fun r => In r names) pb (sf_i f) rs res.
Proof.
  intros grow sf om beyond fuel def msg ok k c confs x FO MS SAME C1 EX FA names num upstream vs out rev opt rname tree held left NAMES SETT TREE MF PLAIN.
  destruct (all_settle k c confs x C1 EX FA num upstream vs out rev names SETT) as [ST|(b & now & B)]; [left; exact ST|right].
  exists b, now. split; [exact B|]. intros src. split.
  { intros r I. destruct (TREE r I) as (u & es & TR & GT & _). destruct (B r I) as (U & S). specialize (MF r b (now r) I (S b (le_n b))). rewrite U, TR in MF. rewrite TR in *.
    destruct MF as (cap & mk & cr & mem & bb & raw & C & IA & _).
    destruct (DirTop.index_tree _ _ _ _ _ _ _ _ _ _ _ _ C GT IA) as (_ & _ & _ & _ & _ & _ & _ & _ & _ & X & _). exact X. }
  intros j servers locale serve L (SN & SV) SE.
  assert (NAMES' : forall r, In r (map fst servers) -> trimmed r r /\ ~ In 44 r) by (rewrite SN; exact NAMES).
  assert (MADE : made_of src servers).
  { intros r s G. assert (I : In r names) by (rewrite <- SN; apply get_some; eauto). destruct (TREE r I) as (u & es & TR & GT & UT & CO). destruct (B r I) as (U & S).
    destruct (SV r s G) as (t & T & ->). rewrite (S j L) in T. injection T as <-. exists (rev r), u, es. cbn [src so_opt so_name so_tree so_left].
    split; [exact TR|]. split; [exact GT|]. split; [exact UT|]. split; [|exact CO]. specialize (MF r j (now r) I (S j L)). rewrite U in MF. exact MF. }
  assert (PLAIN' : forall p, ok p = true -> exists ic rs, plain_search p ic rs /\ feasible sf om fuel ic rs /\
     ((def <= 0)%Z \/ forall r, In r (map fst servers) -> few_lines_in sf ic rs (src r) def)) by (rewrite SN; exact PLAIN).
  intros f rs PF NE.
  destruct (written_all grow sf om beyond fuel servers def msg src ok FO SAME NAMES' MADE PLAIN' locale serve MS SE f rs PF NE) as (pb & F & ALL).
  pose proof (written_shown grow sf om beyond fuel servers def msg src ok FO SAME NAMES' MADE PLAIN' locale serve MS SE f rs pb PF F) as SH.
  rewrite SN in ALL, SH. exists pb. split; [exact F|]. split; [intros s res V D; exact (proj1 (SH s res V D))|]. split; [|exact ALL].
  intros E r. destruct (form_text f rs PF) as (reps & TR & F'). pose proof (same_pairs_one _ _ _ F F') as ->. exact (repos_all f rs reps _ r TR E).
Qed.
Print Assumptions C102_in_the_end_partial.

(** ** The history of C98's example, and a visit after it: " a.b " is typed as in C101's *)
Definition wr_servers : list (str * (Config.repo * Whole.served)) := [([114], (Config.mkRepo [] [] 0 [] None None false None None None, cm_held 16))].
Definition wr_serve (p : params) : reply :=
  match run_searches 3000 pt_compile QuoteMeta (request wr_servers 10 p) wr_servers (q_repos (request wr_servers 10 p)) with
  | Some arr => match searchAll arr with
                | inl (m, _) => Results (answered m) (q_stats (request wr_servers 10 p))
                | inr _ => Error [33]
                end
  | None => Broke
  end.
Lemma wr_few : forall l ic rs, few_lines_in ascii_fold ic rs (mkSource cm_opt [114] (cm_tree [98]) l) 10.
Proof.
  intros l0 ic rs l ND IN. apply (pt_few ascii_fold ic rs l ND). intros name k I. destruct (IN name k I) as (c & line & (cs & m & pk & evs & Fo & J & _ & ->) & L).
  cbn [so_opt so_name so_tree] in Fo. destruct (cm_found _ _ _ _ _ _ Fo J) as (-> & E). rewrite E in L. exists pt_text, line. split; [left; reflexivity|exact L].
Qed.
Lemma wr_countable : forall l, countable (mkSource cm_opt [114] (cm_tree [98]) l).
Proof.
  intros l0 l ND IN. assert (X : incl l [[97]]).
  { intros name I. destruct (IN name I) as (c & cs & m & pk & evs & Fo & J & _). cbn [so_opt so_name so_tree] in Fo. destruct (cm_found _ _ _ _ _ _ Fo J) as (-> & _). left. reflexivity. }
  apply (NoDup_incl_length ND) in X. cbn [length] in X. lia.
Qed.
Example C102_example :
  (forall r, In r [[114]] -> settles (fun _ => both) going 0 moved_on (vars_at moved_on true) (out_at true) [98]) /\
  (exists u es, cm_tree [98] = NDir u es /\ good_tree (cm_tree [98]) /\ utf8_tree cm_opt [114] (cm_tree [98]) /\ countable (mkSource cm_opt [114] (cm_tree [98]) [])) /\
  (forall p, ty_ok p = true -> exists ic rs, plain_search p ic rs /\ feasible ascii_fold 4 3000 ic rs /\
     ((10 <= 0)%Z \/ forall r, In r [[114]] -> few_lines_in ascii_fold ic rs (mkSource cm_opt [114] (cm_tree [98]) []) 10)) /\
  searched [[114]] (fun _ => vars_at moved_on true) (fun _ => cm_held) 20 wr_servers /\
  (forall p, sends 3000 pt_compile QuoteMeta wr_servers 10 [33] p (wr_serve p)) /\
  held_in (mkSource cm_opt [114] (cm_tree [98]) []) [97] lt_text /\ made_of (fun _ => mkSource cm_opt [114] (cm_tree [98]) []) wr_servers /\
  exists s x f, visit_of ty_ok (fun _ _ => 0%Z) wr_serve s (Some ty_params) /\ displays s [x] /\ r_repo x = [114] /\
    r_matches x = [f] /\ fm_name f = [97] /\ CoalesceMatches (fm_hits f) = Some pt_shown.
Proof.
  destruct C97_example as (_ & _ & FOL & _ & A & ST & ND & RE & GO & NS & _). destruct C98_example as (_ & GT & UT & MF & _).
  split. { intros r _. split; [exact FOL|]. split; [exact NS|]. exists 11%nat. split; [exact RE|]. split; [exact GO|]. right. auto. }
  split. { do 2 eexists. split; [reflexivity|]. split; [exact GT|]. split; [exact UT|apply wr_countable]. }
  split. { intros p O. destruct (ty_all p O) as (ic & rs & PS & FE & _). exists ic, rs. split; [exact PS|]. split; [exact FE|]. right. intros r _. apply wr_few. }
  split. { split; [reflexivity|]. intros r s G. exists 16%nat. split; [vm_compute; reflexivity|]. unfold wr_servers in G. cbn [get] in G.
    match type of G with (if ?b then _ else _) = _ => destruct b; [|discriminate] end. injection G as <-. reflexivity. }
  split. { intros p. unfold sends, wr_serve. destruct (run_searches _ _ _ _ _ _) as [arr|] eqn:E; [right|left; reflexivity].
    exists arr, arr. split; [reflexivity|]. split; [apply Sorting.Permutation.Permutation_refl|]. destruct (searchAll arr) as [[m n]|e]; reflexivity. }
  split. { exists [[97]], [97]. do 2 eexists. cbn [so_opt so_name so_tree so_left]. split; [|split; [constructor|split; [|split; [|split; [intros []|]]]]].
    - unfold cm_tree. eapply found_sub; [|left; reflexivity|apply found_here].
      intros [[X|[]]|(_ & r & X)]; discriminate.
    - intros [X|[]]; discriminate.
    - reflexivity.
    - reflexivity. }
  split. { intros r s G. unfold wr_servers in G. cbn [get] in G. match type of G with (if ?b then _ else _) = _ => destruct b; [|discriminate] end. injection G as <-. cbn [snd].
    exists [98]. do 2 eexists. split; [reflexivity|]. split; [exact GT|]. split; [exact UT|]. split; [|apply wr_countable]. apply (MF 20%nat 16%nat). vm_compute. reflexivity. }
  assert (V1 : exists s1, visit_of ty_ok (fun _ _ => 0%Z) wr_serve s1 (Some ty_params) /\ do_search ty_params page0 = Some s1).
  { eexists. split; [|reflexivity]. eapply (vo_step _ _ _ page0 None (Search ty_params)); [constructor| | |constructor; reflexivity].
    - split; [reflexivity|]. repeat (split; [reflexivity || discriminate|]). reflexivity.
    - intros p E. injection E as <-. reflexivity. }
  destruct V1 as (s1 & V1 & E1). vm_compute in E1. injection E1 as <-.
  eapply (vo_step _ _ _ _ _ (Arrive (PSearch (search_params ty_params)) (wr_serve (search_params ty_params)))) in V1;
    [|left; reflexivity|discriminate|apply (ps_arrive _ _ [] []); vm_compute; reflexivity].
  cbv beta iota in V1. eexists. eexists. eexists. split; [exact V1|]. split. { split; [reflexivity|]. eexists. split; [reflexivity|]. constructor; [reflexivity|constructor]. }
  repeat (split; [reflexivity|]). vm_compute. reflexivity.
Qed.
