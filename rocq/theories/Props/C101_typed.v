(** C101: the text typed into the search bar is the text whose lines are on the page. This puts
    together the form and the request (C93) and the search of the page (C91): from the characters
    in the box to the rows, with the form in UTF-16 and the files in UTF-8. *)
From Verif Require Import Model.Base Model.GoStr Model.Config Model.Query Model.Reader Model.Utf8 Model.Matcher Model.Analyze Model.Grep Model.Search Model.Api
  Model.Whole Model.GoRegexp Model.GoParse Model.PageState Model.PageAddress Model.PageView Model.PageForm Spec.Utf8Spec Spec.AddressSpec Spec.ApiSpec Spec.FormSpec Spec.TypedSpec Spec.MatchSpec Spec.LiteralSpec
  Spec.WholeSpec Spec.LoadSpec Spec.PlainSpec Spec.Names Proofs.EndToEnd Proofs.WholeSearch Proofs.WholeExample Proofs.LiteralTop Proofs.StrLemmas Proofs.Utf8Proofs Proofs.ApiProofs Proofs.AddressProofs Proofs.FormProofs Proofs.PageServe Proofs.PageLoad Proofs.PageLiteral Proofs.TypedProofs
  Props.C01_prefilter Props.C23_expressions Props.C74_plain_text Props.C91_page_text.
From Coq Require Import Lia.
Local Open Scope N_scope.

(** Results that are shown after the form was sent are the lines with the characters typed, up to
    case if the box for it is checked; they are from all the repositories if none is chosen.
    Left out: what C91 leaves out, and white space around the text, which is not looked for
    (C93_spaces_refuted). *)
Theorem C101_shown_partial : forall grow sf om beyond fuel servers def msg docs ok, folding sf om ->
  (forall p p', same_search p p' -> ok p = ok p') ->
  (forall r, In r (map fst servers) -> trimmed r r /\ ~ In 44 r) ->
  (forall r s, get servers r = Some s -> stocked (sv_ix (snd s)) (sv_raw (snd s)) (docs r) /\ NoDup (map fst (docs r)) /\
     Forall (fun d => valid_utf8 (fst d) /\ valid_utf8 (snd d)) (docs r) /\ (Z.of_nat (length (docs r)) < 2 ^ 63)%Z) ->
  (forall p, ok p = true -> exists ic rs, plain_search p ic rs /\ feasible sf om fuel ic rs /\
     ((def <= 0)%Z \/ forall r, In r (map fst servers) -> few_lines sf ic rs (docs r) def)) ->
  forall locale serve, msg <> [] ->
  (forall p, get_param p (text "limit") = None -> sends fuel (compile_pattern sf om grow fuel beyond) QuoteMeta servers def msg p (serve p)) ->
  forall f rs pb, plain_form f rs -> Forall2 same_pair (getParams f) pb ->
  forall s res, visit_of ok locale serve s (Some pb) -> displays s res ->
  page_shows sf docs (fun r => In r (map fst servers)) pb (sf_i f) rs res /\
  (sf_repos f = [] -> forall r, asked (fun r => In r (map fst servers)) pb r <-> In r (map fst servers)).
Proof. exact typed_shown. Qed.
Print Assumptions C101_shown_partial.

(** And they can all be brought on the page. The form gives the parameters of a search, the
    request for it is read by the handler as the page means it, and if the server replies the
    search leads to a page with every file that has the text. *)
Theorem C101_all_partial : forall grow sf om beyond fuel servers def msg docs ok, folding sf om ->
  (forall p p', same_search p p' -> ok p = ok p') ->
  (forall r, In r (map fst servers) -> trimmed r r /\ ~ In 44 r) ->
  (forall r s, get servers r = Some s -> stocked (sv_ix (snd s)) (sv_raw (snd s)) (docs r) /\ NoDup (map fst (docs r)) /\
     Forall (fun d => valid_utf8 (fst d) /\ valid_utf8 (snd d)) (docs r) /\ (Z.of_nat (length (docs r)) < 2 ^ 63)%Z) ->
  (forall p, ok p = true -> exists ic rs, plain_search p ic rs /\ feasible sf om fuel ic rs /\
     ((def <= 0)%Z \/ forall r, In r (map fst servers) -> few_lines sf ic rs (docs r) def)) ->
  forall locale serve, msg <> [] ->
  (forall p, get_param p (text "limit") = None -> sends fuel (compile_pattern sf om grow fuel beyond) QuoteMeta servers def msg p (serve p)) ->
  forall f rs, plain_form f rs -> rs <> [] ->
  exists pb, Forall2 same_pair (getParams f) pb /\
    (forall o, object_of (search_params (getParams f)) o -> exists form, seen_by_server o = Some form /\
       request servers def (search_params pb) = read_search form (map (fun s => (fst s, fst (snd s))) servers) def) /\
    forall s last, visit_of ok locale serve s last -> pg_pending s = [] -> ok pb = true -> (forall req, same_search req pb -> serve req <> Broke) ->
    exists s1 s2 res, page_step locale s (Search pb) s1 /\ goes serve locale s1 s2 /\ displays s2 res /\
      page_shows sf docs (fun r => In r (map fst servers)) pb (sf_i f) rs res /\
      Forall (fun x => r_files x = Z.of_nat (length (r_matches x))) res.
Proof. exact typed_all. Qed.
Print Assumptions C101_all_partial.

(** ** A visit: " a.b " is typed, a space is left in the field for names. The server and what is
    assumed of it are those of C91_example. *)
Definition ty_form : search_form := mkForm (text " a.b ") true true (text " ") [] [].
Definition ty_params : params := [(text "q", text "a.b"); (text "files", []); (text "excludeFiles", []); (text "repos", []); (text "i", text "fosho"); (text "literal", text "fosho")].
Definition ty_ok (p : params) : bool :=
  opt_eqb (get_param p (text "q")) (Some (text "a.b")) && opt_eqb (get_param p (text "literal")) (Some (text "fosho")) &&
  opt_eqb (get_param p (text "i")) (Some (text "fosho")) && opt_eqb (get_param p (text "files")) (Some []) && opt_eqb (get_param p (text "excludeFiles")) (Some []).
Lemma ty_plain : forall p, ty_ok p = true -> plain_search p true [97; 46; 98].
Proof.
  intros p H. unfold ty_ok in H. repeat (apply andb_prop in H; destruct H as [H ?]). repeat match goal with X : opt_eqb _ _ = true |- _ => apply opt_eqb_eq in X end.
  assert (Y : yes (text "fosho")) by (right; right; unfold any_case; repeat constructor).
  split; [exists [[97]; [46]; [98]]; split; [repeat constructor; reflexivity|exact H]|]. split; [eauto|]. split; [split; eauto|]. split; auto.
Qed.
Lemma ty_same : forall p p', same_search p p' -> ty_ok p = ty_ok p'.
Proof.
  intros p p' S. unfold ty_ok. rewrite !(S (text "q")), !(S (text "literal")), !(S (text "i")), !(S (text "files")), !(S (text "excludeFiles")) by discriminate. reflexivity.
Qed.
Lemma ty_all : forall p, ty_ok p = true -> exists ic rs, plain_search p ic rs /\ feasible ascii_fold 4 3000 ic rs /\
  ((10 <= 0)%Z \/ forall r, In r (map fst pt_servers) -> few_lines ascii_fold ic rs (pt_docs r) 10).
Proof.
  intros p O. destruct C91_example as (_ & _ & _ & _ & PL & _). destruct (PL pt_search eq_refl) as (ic & rs & PS & R).
  destruct (plain_one _ _ _ _ _ PS (pt_plain pt_search eq_refl)) as (-> & ->). exists true, [97; 46; 98]. split; [exact (ty_plain p O)|exact R].
Qed.
Example C101_example :
  plain_form ty_form [97; 46; 98] /\ Forall2 same_pair (getParams ty_form) ty_params /\ (forall p p', same_search p p' -> ty_ok p = ty_ok p') /\
  (forall p, ty_ok p = true -> exists ic rs, plain_search p ic rs /\ feasible ascii_fold 4 3000 ic rs /\
     ((10 <= 0)%Z \/ forall r, In r (map fst pt_servers) -> few_lines ascii_fold ic rs (pt_docs r) 10)) /\
  ty_ok ty_params = true /\ (forall req, same_search req ty_params -> pt_serve req <> Broke) /\
  exists s x f, visit_of ty_ok (fun _ _ => 0%Z) pt_serve s (Some ty_params) /\ displays s [x] /\ r_repo x = [114] /\ r_files x = 1%Z /\
    r_matches x = [f] /\ fm_name f = [97] /\ CoalesceMatches (fm_hits f) = Some pt_shown.
Proof.
  split.
  { assert (W : FormSpec.white 32) by (unfold FormSpec.white; cbn [In]; auto 8).
    split; [|split; [reflexivity|split; [constructor; [exact W|constructor]|split; [constructor|constructor]]]].
    exists (text "a.b"). split.
    - exact (trim_ok (sf_q ty_form)).
    - exists [[97]; [46]; [98]]. split; [|reflexivity]. do 3 (apply Forall2_cons; [apply utf16_1; [left|]; lia|]). apply Forall2_nil. }
  split. { repeat (constructor; [split; apply names_ascii; reflexivity|]). constructor. }
  split; [exact ty_same|]. split; [exact ty_all|]. split; [reflexivity|]. split.
  { intros req S. destruct C91_example as (FO & _ & _ & ST & _ & _).
    assert (O : ty_ok req = true) by (rewrite (ty_same _ _ S); reflexivity). destruct (ty_all req O) as (ic & rs & PS & FE & _).
    assert (R : run_searches 3000 pt_compile QuoteMeta (request pt_servers 10 req) pt_servers (q_repos (request pt_servers 10 req)) <> None).
    { apply runs. intros r I. destruct (asked_known _ _ _ _ I) as (s & G). exists s. split; [exact G|].
      apply (plain_files go_grow ascii_fold 4 (fun _ => None) 3000 pt_servers 10 pt_docs FO ST req ic rs r s PS FE G). }
    unfold pt_serve. destruct (run_searches _ _ _ _ _ _) as [arr|]; [|congruence]. destruct (searchAll arr) as [[m n]|e]; discriminate. }
  assert (V1 : exists s1, visit_of ty_ok (fun _ _ => 0%Z) pt_serve s1 (Some ty_params) /\ do_search ty_params page0 = Some s1).
  { eexists. split; [|reflexivity]. eapply (vo_step _ _ _ page0 None (Search ty_params)); [constructor| | |constructor; reflexivity].
    - split; [reflexivity|]. repeat (split; [reflexivity || discriminate|]). reflexivity.
    - intros p E. injection E as <-. reflexivity. }
  destruct V1 as (s1 & V1 & E1). vm_compute in E1. injection E1 as <-.
  eapply (vo_step _ _ _ _ _ (Arrive (PSearch (search_params ty_params)) (pt_serve (search_params ty_params)))) in V1;
    [|left; reflexivity|discriminate|apply (ps_arrive _ _ [] []); vm_compute; reflexivity].
  cbv beta iota in V1. eexists. eexists. eexists. split; [exact V1|]. split. { split; [reflexivity|]. eexists. split; [reflexivity|]. constructor; [reflexivity|constructor]. }
  repeat (split; [reflexivity|]). vm_compute. reflexivity.
Qed.

(** Missing: the spaces around what is typed. A line without any is marked when " a.b " is looked for. *)
Theorem C101_spaces_refuted : exists f pb s x m blocks k line, sf_q f = text " a.b " /\ sf_literal f = true /\ Forall2 same_pair (getParams f) pb /\
  visit_of ty_ok (fun _ _ => 0%Z) pt_serve s (Some pb) /\ displays s [x] /\ r_matches x = [m] /\ CoalesceMatches (fm_hits m) = Some blocks /\
  In (k, line, true) (List.concat blocks) /\ ~ exists a b, line = a ++ sf_q f ++ b.
Proof.
  destruct C101_example as (_ & SP & _ & _ & _ & _ & s & x & m & V & D & _ & _ & M & _ & CM).
  exists ty_form, ty_params, s, x, m, pt_shown, 2%Z, [97; 97; 46; 98]. split; [reflexivity|]. split; [reflexivity|]. split; [exact SP|]. split; [exact V|].
  split; [exact D|]. split; [exact M|]. split; [exact CM|]. split; [right; left; reflexivity|]. intros (a & b & E).
  apply (f_equal (@length N)) in E. rewrite !app_length in E. change (length (sf_q ty_form)) with 5%nat in E. cbn [length] in E. lia.
Qed.
Print Assumptions C101_spaces_refuted.
