(** C91: a plain text that is looked for on the page. From the text in the box to the rows on the
    page: the request of the page (Model/PageState.v), the handler (Model/Api.v), QuoteMeta, the
    parser, the analysis, the index, the matcher and Search (C74), the answer, loading more (C77)
    and CoalesceMatches (Model/PageView.v, C75). The specification (Spec/PlainSpec.v) knows files,
    lines and characters. *)
From Verif Require Import Model.Base Model.GoStr Model.Config Model.Query Model.Reader Model.Utf8 Model.Matcher Model.Analyze Model.Grep Model.Search Model.Api
  Model.Request Model.Whole Model.GoRegexp Model.GoParse Model.PageState Model.PageView Spec.IndexSpec Spec.RunSpec Spec.Utf8Spec Spec.MatchSpec Spec.GrepSpec Spec.RuneProgSpec Spec.ExprSpec Spec.ParsedSpec Spec.LiteralSpec
  Spec.WholeSpec Spec.PresentSpec Spec.ViewSpec Spec.ApiSpec Spec.SearchSpec Spec.LoadSpec Spec.Names Spec.PlainSpec
  Proofs.StrLemmas Proofs.GrepTop Proofs.SplitProofs Proofs.GoStrProofs Proofs.MatchTop Proofs.EndToEnd Proofs.WholeSearch Proofs.WholeExample Proofs.LiteralTop Proofs.UtfTop Proofs.PageServe Proofs.PageLoad Proofs.PageLiteral Props.C01_prefilter Props.C23_expressions Props.C74_plain_text.
From Coq Require Import Lia Permutation.
Local Open Scope N_scope.

(** Whenever results are shown, they are those of the last search: the repositories asked for
    that have a file with the text; of each the first files with it, at least one, in the order
    of the index, and how many there are; of each file rows that are its lines, in order and with
    their numbers, and the rows marked are exactly the lines with the text. Left out: what C74
    leaves out (letters beyond U+1044F when case is ignored, files that are not UTF-8, filters on
    names, overlong texts); a user who does not wait for answers (C77); a configured limit on the
    number of lines that is reached (C22); names of repositories with commas or spaces at the
    ends, which cannot be asked for. *)
Theorem C91_page_partial : forall grow sf om beyond fuel servers def msg docs ok, folding sf om ->
  (forall p p', same_search p p' -> ok p = ok p') ->
  (forall r, In r (map fst servers) -> trimmed r r /\ ~ In 44 r) ->
  (forall r s, get servers r = Some s -> stocked (sv_ix (snd s)) (sv_raw (snd s)) (docs r) /\ NoDup (map fst (docs r)) /\
     Forall (fun d => valid_utf8 (fst d) /\ valid_utf8 (snd d)) (docs r) /\ (Z.of_nat (length (docs r)) < 2 ^ 63)%Z) ->
  (forall p, ok p = true -> exists ic rs, plain_search p ic rs /\ feasible sf om fuel ic rs /\
     ((def <= 0)%Z \/ forall r, In r (map fst servers) -> few_lines sf ic rs (docs r) def)) ->
  forall locale serve, msg <> [] ->
  (forall p, get_param p (text "limit") = None -> sends fuel (compile_pattern sf om grow fuel beyond) QuoteMeta servers def msg p (serve p)) ->
  forall s last res, visit_of ok locale serve s last -> displays s res ->
  exists p ic rs, last = Some p /\ plain_search p ic rs /\ page_shows sf docs (fun r => In r (map fst servers)) p ic rs res.
Proof. exact page_text. Qed.
Print Assumptions C91_page_partial.

(** And everything can be brought on the page: a search leads to a page with all the files that
    have the text, if the server replies. *)
Theorem C91_all_partial : forall grow sf om beyond fuel servers def msg docs ok, folding sf om ->
  (forall p p', same_search p p' -> ok p = ok p') ->
  (forall r, In r (map fst servers) -> trimmed r r /\ ~ In 44 r) ->
  (forall r s, get servers r = Some s -> stocked (sv_ix (snd s)) (sv_raw (snd s)) (docs r) /\ NoDup (map fst (docs r)) /\
     Forall (fun d => valid_utf8 (fst d) /\ valid_utf8 (snd d)) (docs r) /\ (Z.of_nat (length (docs r)) < 2 ^ 63)%Z) ->
  (forall p, ok p = true -> exists ic rs, plain_search p ic rs /\ feasible sf om fuel ic rs /\
     ((def <= 0)%Z \/ forall r, In r (map fst servers) -> few_lines sf ic rs (docs r) def)) ->
  forall locale serve, msg <> [] ->
  (forall p, get_param p (text "limit") = None -> sends fuel (compile_pattern sf om grow fuel beyond) QuoteMeta servers def msg p (serve p)) ->
  forall s last p, visit_of ok locale serve s last -> polite serve s (Search p) -> ok p = true ->
  (forall req, same_search req p -> serve req <> Broke) ->
  exists s1 s2 res ic rs, page_step locale s (Search p) s1 /\ goes serve locale s1 s2 /\ displays s2 res /\
    plain_search p ic rs /\ page_shows sf docs (fun r => In r (map fst servers)) p ic rs res /\ Forall (fun x => r_files x = Z.of_nat (length (r_matches x))) res.
Proof. exact page_text_all. Qed.
Print Assumptions C91_all_partial.

(** ** A visit: "a.b", up to case, in a repository with one file *)
Definition pt_text : str := lt_text.
Definition pt_servers : list (str * (repo * served)) := [([114], (mkRepo [] [] 0 [] None None false None None None, lt_server pt_text))].
Definition pt_docs (r : str) : list (str * str) := if str_eqb r [114] then [([97], pt_text)] else [].
Definition pt_search : params := [(text "q", [97; 46; 98]); (text "literal", text "fosho"); (text "i", text "fosho")].
Definition opt_eqb (a b : option str) : bool := match a, b with Some a, Some b => str_eqb a b | None, None => true | _, _ => false end.
Definition pt_ok (p : params) : bool :=
  opt_eqb (get_param p (text "q")) (Some [97; 46; 98]) && opt_eqb (get_param p (text "literal")) (Some (text "fosho")) &&
  opt_eqb (get_param p (text "i")) (Some (text "fosho")) && opt_eqb (get_param p (text "files")) None && opt_eqb (get_param p (text "excludeFiles")) None.
Definition pt_compile := compile_pattern ascii_fold 4 go_grow 3000 (fun _ => None).
Definition pt_serve (p : params) : reply :=
  match run_searches 3000 pt_compile QuoteMeta (request pt_servers 10 p) pt_servers (q_repos (request pt_servers 10 p)) with
  | None => Broke
  | Some arr => match searchAll arr with
                | inr _ => Error [33]
                | inl (m, _) => Results (answered m) (q_stats (request pt_servers 10 p))
                end
  end.
Definition pt_shown : list (list row) := [[(1%Z, [120], false); (2%Z, [97; 97; 46; 98], true); (3%Z, [97; 120; 98], false); (4%Z, [65; 46; 98], true)]].

Lemma opt_eqb_eq : forall a b, opt_eqb a b = true -> a = b.
Proof. intros [a|] [b|] E; try discriminate; [apply str_eqb_eq in E; congruence|reflexivity]. Qed.
Lemma pt_lines : file_lines pt_text [[120]; [97; 97; 46; 98]; [97; 120; 98]; [65; 46; 98]].
Proof.
  exists [[120]; [97; 97; 46; 98]; [97; 120; 98]; [65; 46; 98]]. split; [apply splits_iff; reflexivity|]. right. split; [reflexivity|discriminate].
Qed.
Lemma pt_few : forall sf ic rs, few_lines sf ic rs [([97], pt_text)] 10.
Proof.
  intros sf ic rs l ND IN. assert (X : incl l (map (fun k => ([97] : str, k)) (seq 0 4))).
  { intros [name k] I. destruct (IN name k I) as (t & line & [E|[]] & lines & FL & EN & _).
    assert (E1 : name = [97]) by congruence. assert (E2 : t = pt_text) by congruence. subst name t. clear E.
    destruct (file_lines_total pt_text) as (l0 & _ & U). rewrite (U _ FL), <- (U _ pt_lines) in EN.
    apply in_map_iff. exists k. split; [reflexivity|]. apply in_seq. assert (k < 4)%nat; [|lia]. apply (nth_error_Some [[120]; [97; 97; 46; 98]; [97; 120; 98]; [65; 46; 98]] k). rewrite EN. discriminate. }
  apply (NoDup_incl_length ND) in X. rewrite map_length, seq_length in X. lia.
Qed.
Lemma pt_sends : forall p, sends 3000 pt_compile QuoteMeta pt_servers 10 [33] p (pt_serve p).
Proof.
  intros p. unfold sends, pt_serve. destruct (run_searches _ _ _ _ _ _) as [arr|] eqn:E; [right|left; reflexivity].
  exists arr, arr. split; [reflexivity|]. split; [apply Permutation_refl|]. destruct (searchAll arr) as [[m n]|e]; reflexivity.
Qed.
Lemma pt_plain : forall p, pt_ok p = true -> plain_search p true [97; 46; 98].
Proof.
  intros p H. unfold pt_ok in H. repeat (apply andb_prop in H; destruct H as [H ?]). repeat match goal with X : opt_eqb _ _ = true |- _ => apply opt_eqb_eq in X end.
  assert (Y : yes (text "fosho")) by (right; right; unfold any_case; repeat constructor).
  split; [exists [[97]; [46]; [98]]; split; [repeat constructor; reflexivity|exact H]|]. split; [eauto|]. split; [split; eauto|]. split; auto.
Qed.

Example C91_example :
  folding ascii_fold 4 /\ (forall p p', same_search p p' -> pt_ok p = pt_ok p') /\
  (forall r, In r (map fst pt_servers) -> trimmed r r /\ ~ In 44 r) /\
  (forall r s, get pt_servers r = Some s -> stocked (sv_ix (snd s)) (sv_raw (snd s)) (pt_docs r) /\ NoDup (map fst (pt_docs r)) /\
     Forall (fun d => valid_utf8 (fst d) /\ valid_utf8 (snd d)) (pt_docs r) /\ (Z.of_nat (length (pt_docs r)) < 2 ^ 63)%Z) /\
  (forall p, pt_ok p = true -> exists ic rs, plain_search p ic rs /\ feasible ascii_fold 4 3000 ic rs /\
     ((10 <= 0)%Z \/ forall r, In r (map fst pt_servers) -> few_lines ascii_fold ic rs (pt_docs r) 10)) /\
  (forall p, get_param p (text "limit") = None -> sends 3000 pt_compile QuoteMeta pt_servers 10 [33] p (pt_serve p)) /\
  exists s x f, visit_of pt_ok (fun _ _ => 0%Z) pt_serve s (Some pt_search) /\ displays s [x] /\ r_repo x = [114] /\ r_files x = 1%Z /\
    r_matches x = [f] /\ fm_name f = [97] /\ CoalesceMatches (fm_hits f) = Some pt_shown.
Proof.
  split; [exact ascii_folding|]. split.
  { intros p p' S. unfold pt_ok. rewrite !(S (text "q")), !(S (text "literal")), !(S (text "i")), !(S (text "files")), !(S (text "excludeFiles")) by discriminate. reflexivity. }
  split. { intros r [<-|[]]. split; [exact (trim_space_ok [114])|]. intros [X|[]]. discriminate. }
  split. { intros r s G. unfold pt_servers in G. cbn [get] in G. match type of G with (if ?b then _ else _) = _ => destruct b eqn:E; [|discriminate] end. apply str_eqb_eq in E. subst r. injection G as <-.
    cbn [snd]. change (pt_docs [114]) with [([97] : str, pt_text)].
    split; [apply lt_stocked; [repeat constructor|eexists; vm_compute; reflexivity]|]. split; [constructor; [intros []|constructor]|].
    split; [constructor; [split; apply we_valid; repeat constructor|constructor]|reflexivity]. }
  split. { intros p O. exists true, [97; 46; 98]. split; [exact (pt_plain p O)|]. split.
    - split; [intros _ r [<-|[<-|[<-|[]]]] L; discriminate L|]. split; [vm_compute; discriminate|].
      eexists. split; [vm_compute; reflexivity|]. split; [reflexivity|]. unfold depth_ok. apply Nat.ltb_lt. vm_compute. reflexivity.
    - right. intros r [<-|[]]. change (pt_docs _) with [([97] : str, pt_text)]. apply pt_few. }
  split; [intros p _; apply pt_sends|].
  assert (V1 : exists s1, visit_of pt_ok (fun _ _ => 0%Z) pt_serve s1 (Some pt_search) /\ do_search pt_search page0 = Some s1).
  { eexists. split; [|reflexivity]. eapply (vo_step _ _ _ page0 None (Search pt_search)); [constructor| | |constructor; reflexivity].
    - split; [reflexivity|]. repeat (split; [reflexivity || discriminate|]). reflexivity.
    - intros p E. injection E as <-. reflexivity. }
  destruct V1 as (s1 & V1 & E1). vm_compute in E1. injection E1 as <-.
  eapply (vo_step _ _ _ _ _ (Arrive (PSearch (search_params pt_search)) (pt_serve (search_params pt_search)))) in V1;
    [|left; reflexivity|discriminate|apply (ps_arrive _ _ [] []); vm_compute; reflexivity].
  cbv beta iota in V1. eexists. eexists. eexists. split; [exact V1|]. split. { split; [reflexivity|]. eexists. split; [reflexivity|]. constructor; [reflexivity|constructor]. }
  repeat (split; [reflexivity|]). vm_compute. reflexivity.
Qed.

(** The server of the visit always replies. *)
Example C91_all_example : polite pt_serve page0 (Search pt_search) /\ pt_ok pt_search = true /\ forall req, same_search req pt_search -> pt_serve req <> Broke.
Proof.
  destruct C91_example as (FO & SAME & NA & ST & PL & SE & _).
  split; [split; [reflexivity|]; repeat (split; [reflexivity || discriminate|]); reflexivity|]. split; [reflexivity|]. intros req S.
  assert (O : pt_ok req = true) by (rewrite (SAME _ _ S); reflexivity). destruct (PL req O) as (ic & rs & PS & FE & _).
  assert (R : run_searches 3000 pt_compile QuoteMeta (request pt_servers 10 req) pt_servers (q_repos (request pt_servers 10 req)) <> None).
  { apply runs. intros r I. destruct (asked_known _ _ _ _ I) as (s & G). exists s. split; [exact G|].
    apply (plain_files go_grow ascii_fold 4 (fun _ => None) 3000 pt_servers 10 pt_docs FO ST req ic rs r s PS FE G). }
  unfold pt_serve. destruct (run_searches _ _ _ _ _ _) as [arr|]; [|congruence]. destruct (searchAll arr) as [[m n]|e]; discriminate.
Qed.
