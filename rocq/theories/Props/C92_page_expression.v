(** C92: an expression and filters on names that are looked for on the page (C91 is the case of a
    plain text, where the parser is a model too). [stands_for] (Proofs/PageExpr.v): the texts of
    the search are parsed as [ex], [fe] and [xe], and compiled and analysed as the models of
    toByteProg and RegexpQuery do. *)
From Verif Require Import Model.Base Model.GoStr Model.Config Model.IndexRun Model.Query Model.Reader Model.Utf8 Model.Syntax Model.Matcher Model.Analyze Model.Grep Model.Search Model.Api
  Model.Request Model.Whole Model.PageState Model.PageView Spec.IndexSpec Spec.RunSpec Spec.Utf8Spec Spec.MatchSpec Spec.GrepSpec Spec.RuneProgSpec Spec.RegexSpec Spec.ExprSpec Spec.ParsedSpec
  Spec.WholeSpec Spec.PresentSpec Spec.ViewSpec Spec.ApiSpec Spec.SearchSpec Spec.LoadSpec Spec.Names Spec.PlainSpec Spec.ExprPageSpec
  Proofs.StrLemmas Proofs.GrepTop Proofs.SplitProofs Proofs.GoStrProofs Proofs.MatchTop Proofs.SearchTop Proofs.EndToEnd Proofs.ExprSearch Proofs.Thompson Proofs.WholeSearch Proofs.WholeTop Proofs.WholeExample Proofs.PageServe Proofs.PageLoad Proofs.PageExpr Props.C01_prefilter Props.C23_expressions.
From Coq Require Import Lia Permutation.
Local Open Scope N_scope.

(** Whenever results are shown, they are those of the last search: the repositories asked for
    that have a file that is looked for; of each the first such files, at least one, in the order
    of the index, and how many there are; of each file rows that are its lines, in order and with
    their numbers, and the rows marked are exactly the lines that match. Left out: expressions
    with \A and those that match an empty last line only (C17) or whose analysis shares storage
    (C01); files and names that are not UTF-8 (C14); names that start with a newline (C22); a user
    who does not wait for answers (C77); a configured limit that is reached. *)
Theorem C92_page_partial : forall fuel compile quote grow sf om servers def msg docs ok ex fe xe,
  (forall p p', same_search p p' -> ok p = ok p') ->
  (forall r, In r (map fst servers) -> trimmed r r /\ ~ In 44 r) ->
  (forall r s, get servers r = Some s -> stocked (sv_ix (snd s)) (sv_raw (snd s)) (docs r) /\ NoDup (map fst (docs r)) /\
     Forall (fun d => valid_utf8 (fst d) /\ valid_utf8 (snd d)) (docs r) /\ Forall (fun d => plain_name (fst d)) (docs r) /\ (Z.of_nat (length (docs r)) < 2 ^ 63)%Z) ->
  (forall p, ok p = true -> stands_for fuel compile quote grow sf om p (ex p) (fe p) (xe p) /\
     ((def <= 0)%Z \/ forall r, In r (map fst servers) -> few sf (ex p) (fe p) (docs r) def)) ->
  forall locale serve, msg <> [] ->
  (forall p, get_param p (text "limit") = None -> sends fuel compile quote servers def msg p (serve p)) ->
  forall s last res, visit_of ok locale serve s last -> displays s res ->
  exists p, last = Some p /\ page_lists (looked_for sf (ex p) (fe p) (xe p)) (listed_as sf (ex p)) docs (fun r => In r (map fst servers)) p res.
Proof. exact page_expr. Qed.
Print Assumptions C92_page_partial.

(** And everything can be brought on the page: a search leads to a page with all the files that
    are looked for, if the server replies. *)
Theorem C92_all_partial : forall fuel compile quote grow sf om servers def msg docs ok ex fe xe,
  (forall p p', same_search p p' -> ok p = ok p') ->
  (forall r, In r (map fst servers) -> trimmed r r /\ ~ In 44 r) ->
  (forall r s, get servers r = Some s -> stocked (sv_ix (snd s)) (sv_raw (snd s)) (docs r) /\ NoDup (map fst (docs r)) /\
     Forall (fun d => valid_utf8 (fst d) /\ valid_utf8 (snd d)) (docs r) /\ Forall (fun d => plain_name (fst d)) (docs r) /\ (Z.of_nat (length (docs r)) < 2 ^ 63)%Z) ->
  (forall p, ok p = true -> stands_for fuel compile quote grow sf om p (ex p) (fe p) (xe p) /\
     ((def <= 0)%Z \/ forall r, In r (map fst servers) -> few sf (ex p) (fe p) (docs r) def)) ->
  forall locale serve, msg <> [] ->
  (forall p, get_param p (text "limit") = None -> sends fuel compile quote servers def msg p (serve p)) ->
  forall s last p, visit_of ok locale serve s last -> polite serve s (Search p) -> ok p = true ->
  (forall req, same_search req p -> serve req <> Broke) ->
  exists s1 s2 res, page_step locale s (Search p) s1 /\ goes serve locale s1 s2 /\ displays s2 res /\
    page_lists (looked_for sf (ex p) (fe p) (xe p)) (listed_as sf (ex p)) docs (fun r => In r (map fst servers)) p res /\
    Forall (fun x => r_files x = Z.of_nat (length (r_matches x))) res.
Proof. exact page_expr_all. Qed.
Print Assumptions C92_all_partial.

(** ** A visit: b, but not in files with an a in their names *)
Definition pe_search : params := [(text "q", [98]); (text "excludeFiles", [97])].
Definition opt_eqb (a b : option str) : bool := match a, b with Some a, Some b => str_eqb a b | None, None => true | _, _ => false end.
Definition pe_ok (p : params) : bool :=
  opt_eqb (get_param p (text "q")) (Some [98]) && opt_eqb (get_param p (text "literal")) None &&
  opt_eqb (get_param p (text "i")) None && opt_eqb (get_param p (text "files")) None && opt_eqb (get_param p (text "excludeFiles")) (Some [97]).
Definition pe_docs (r : str) : list (str * str) := if str_eqb r [114] then we_docs else [].
Definition pe_quote (s : str) : str := s.
Definition pe_serve (p : params) : reply :=
  match run_searches 300 we_compile pe_quote (request we_servers 5000 p) we_servers (q_repos (request we_servers 5000 p)) with
  | None => Broke
  | Some arr => match searchAll arr with
                | inr _ => Error [33]
                | inl (m, _) => Results (answered m) (q_stats (request we_servers 5000 p))
                end
  end.
Lemma opt_eqb_eq : forall a b, opt_eqb a b = true -> a = b.
Proof. intros [a|] [b|] E; try discriminate; [apply str_eqb_eq in E; congruence|reflexivity]. Qed.
Lemma pe_few : few ascii_fold (we_lit 98) None we_docs 5000.
Proof.
  intros l ND H. assert (incl l (list_prod [[97]; [99]] (seq 0 11))) as IN.
  { intros [name k] I. destruct (H name k I) as (text & lines & D & _ & FL & L & _). apply in_prod.
    - destruct D as [D|[D|[]]]; injection D as <- <-; cbn; auto.
    - apply in_seq. apply lines_length in FL. destruct D as [D|[D|[]]]; injection D as <- <-; cbn in FL; lia. }
  pose proof (NoDup_incl_length ND IN) as L. change (length (list_prod [[97]; [99]] (seq 0 11))) with 22%nat in L. lia.
Qed.
Lemma pe_means : forall p, pe_ok p = true -> stands_for 300 we_compile pe_quote go_grow ascii_fold 4 p (we_lit 98) None (Some (we_lit 97)).
Proof.
  intros p H. unfold pe_ok in H. repeat (apply andb_prop in H; destruct H as [H ?]). repeat match goal with X : opt_eqb _ _ = true |- _ => apply opt_eqb_eq in X end.
  exists [98], [], [97], false, false, we_query, (we_matcher 98), (thompson (we_lit 98)), (we_prog 98), None, None, (Some (we_prog 97)), (Some (we_matcher 97)).
  split; [left; assumption|]. split; [right; auto|]. split; [left; assumption|].
  split; [split; [discriminate|intros (v & E & _); congruence]|]. split; [split; [discriminate|intros (v & E & _); congruence]|].
  split; [reflexivity|]. split; [apply we_compiled; auto|]. split; [exact I|]. split; [intros X; exfalso; exact (we_nonempty _ _ _ X)|].
  split; [apply we_depth|]. split; [apply we_used; auto|]. split; [reflexivity|]. split; [exact I|]. split; [reflexivity|].
  split; [eexists _, _, _; apply we_compiled; auto|]. split; [apply we_depth|apply we_used; auto].
Qed.

Example C92_example :
  (forall p p', same_search p p' -> pe_ok p = pe_ok p') /\
  (forall r, In r (map fst we_servers) -> trimmed r r /\ ~ In 44 r) /\
  (forall r s, get we_servers r = Some s -> stocked (sv_ix (snd s)) (sv_raw (snd s)) (pe_docs r) /\ NoDup (map fst (pe_docs r)) /\
     Forall (fun d => valid_utf8 (fst d) /\ valid_utf8 (snd d)) (pe_docs r) /\ Forall (fun d => plain_name (fst d)) (pe_docs r) /\ (Z.of_nat (length (pe_docs r)) < 2 ^ 63)%Z) /\
  (forall p, pe_ok p = true -> stands_for 300 we_compile pe_quote go_grow ascii_fold 4 p (we_lit 98) None (Some (we_lit 97)) /\
     ((5000 <= 0)%Z \/ forall r, In r (map fst we_servers) -> few ascii_fold (we_lit 98) None (pe_docs r) 5000)) /\
  (forall p, get_param p (text "limit") = None -> sends 300 we_compile pe_quote we_servers 5000 [33] p (pe_serve p)) /\
  exists s x f, visit_of pe_ok (fun _ _ => 0%Z) pe_serve s (Some pe_search) /\ displays s [x] /\ r_repo x = [114] /\ r_files x = 1%Z /\
    r_matches x = [f] /\ fm_name f = [99] /\ CoalesceMatches (fm_hits f) = Some [[(1%Z, [98], true)]].
Proof.
  split. { intros p p' S. unfold pe_ok. rewrite !(S (text "q")), !(S (text "literal")), !(S (text "i")), !(S (text "files")), !(S (text "excludeFiles")) by discriminate. reflexivity. }
  split. { intros r [<-|[]]. split; [exact (trim_space_ok [114])|]. intros [X|[]]. discriminate. }
  split. { intros r s G. unfold we_servers in G. cbn [get] in G. match type of G with (if ?b then _ else _) = _ => destruct b eqn:E; [|discriminate] end.
    apply str_eqb_eq in E. subst r. injection G as <-. cbn [snd]. change (pe_docs [114]) with we_docs. split; [exact we_stocked|].
    split. { cbn. constructor; [intros [X|[]]; discriminate X|]. constructor; [intros []|constructor]. }
    split. { repeat (apply Forall_cons; [split; apply we_valid; repeat constructor|]). constructor. }
    split; [repeat constructor; discriminate|reflexivity]. }
  split. { intros p O. split; [exact (pe_means p O)|]. right. intros r [<-|[]]. exact pe_few. }
  split. { intros p _. unfold sends, pe_serve. destruct (run_searches _ _ _ _ _ _) as [arr|] eqn:E; [right|left; reflexivity].
    exists arr, arr. split; [reflexivity|]. split; [apply Permutation_refl|]. destruct (searchAll arr) as [[m n]|e]; reflexivity. }
  assert (V1 : exists s1, visit_of pe_ok (fun _ _ => 0%Z) pe_serve s1 (Some pe_search) /\ do_search pe_search page0 = Some s1).
  { eexists. split; [|reflexivity]. eapply (vo_step _ _ _ page0 None (Search pe_search)); [constructor| | |constructor; reflexivity].
    - split; [reflexivity|]. repeat (split; [reflexivity || discriminate|]). reflexivity.
    - intros p E. injection E as <-. reflexivity. }
  destruct V1 as (s1 & V1 & E1). vm_compute in E1. injection E1 as <-.
  eapply (vo_step _ _ _ _ _ (Arrive (PSearch (search_params pe_search)) (pe_serve (search_params pe_search)))) in V1;
    [|left; reflexivity|discriminate|apply (ps_arrive _ _ [] []); vm_compute; reflexivity].
  cbv beta iota in V1. eexists. eexists. eexists. split; [exact V1|]. split. { split; [reflexivity|]. eexists. split; [reflexivity|]. constructor; [reflexivity|constructor]. }
  repeat (split; [reflexivity|]). vm_compute. reflexivity.
Qed.

(** The server of the visit always replies. *)
Example C92_all_example : polite pe_serve page0 (Search pe_search) /\ pe_ok pe_search = true /\ forall req, same_search req pe_search -> pe_serve req <> Broke.
Proof.
  destruct C92_example as (SAME & NA & ST & PL & SE & _).
  split; [split; [reflexivity|]; repeat (split; [reflexivity || discriminate|]); reflexivity|]. split; [reflexivity|]. intros req S.
  assert (O : pe_ok req = true) by (rewrite (SAME _ _ S); reflexivity).
  assert (R : run_searches 300 we_compile pe_quote (request we_servers 5000 req) we_servers (q_repos (request we_servers 5000 req)) <> None).
  { apply runs. intros r I. destruct (asked_known _ _ _ _ I) as (s & G). exists s. split; [exact G|].
    apply (expr_found 300 we_compile pe_quote go_grow ascii_fold 4 we_servers 5000 pe_docs pe_ok (fun _ => we_lit 98) (fun _ => None) (fun _ => Some (we_lit 97)) ST PL req r s O G). }
  unfold pe_serve. destruct (run_searches _ _ _ _ _ _) as [arr|]; [|congruence]. destruct (searchAll arr) as [[m n]|e]; discriminate.
Qed.
