(** From the text in the box to the rows on the page. *)
From Verif Require Import Model.Base Model.GoStr Model.Config Model.Query Model.Reader Model.Utf8 Model.Matcher Model.Analyze Model.Grep Model.Search Model.Api
  Model.Whole Model.GoRegexp Model.GoParse Model.PageState Model.PageAddress Model.PageView Model.PageForm Spec.Utf8Spec Spec.AddressSpec Spec.ApiSpec Spec.FormSpec Spec.TypedSpec Spec.MatchSpec Spec.LiteralSpec
  Spec.WholeSpec Spec.LoadSpec Spec.PlainSpec Spec.Names Proofs.EndToEnd Proofs.WholeSearch Proofs.LiteralTop Proofs.StrLemmas Proofs.Utf8Proofs Proofs.ApiProofs Proofs.AddressProofs Proofs.FormProofs Proofs.FormServe Proofs.PageServe Proofs.PageLoad Proofs.PageLiteral.
From Coq Require Import Lia.
Local Open Scope N_scope.

Lemma characters_same : forall t rs, characters t rs -> same_text t (bytes_of rs) /\ Forall scalar rs.
Proof.
  intros t rs (us & F & <-). induction F as [|r u rs us U _ (IH & S1)]; [split; constructor|]. split.
  - unfold bytes_of. cbn [flat_map List.concat]. apply (st_char r u); [exact U|exact (encode_rune_utf8 _ (utf16_scalar _ _ U))|exact IH].
  - constructor; [exact (utf16_scalar _ _ U)|exact S1].
Qed.
Lemma bytes_chars : forall rs, Forall scalar rs -> Forall2 utf8 rs (map encode_rune rs) /\ List.concat (map encode_rune rs) = bytes_of rs.
Proof.
  intros rs F. split; [|symmetry; apply flat_map_concat_map]. induction F as [|r rs S1 _ IH]; [constructor|]. constructor; [exact (encode_rune_utf8 _ S1)|exact IH].
Qed.
Lemma chars_bytes : forall rs chars, Forall2 utf8 rs chars -> List.concat chars = bytes_of rs /\ Forall scalar rs.
Proof.
  intros rs chars F. induction F as [|r c rs chars U _ (IH & S1)]; [split; [reflexivity|constructor]|].
  assert (SC : scalar r) by exact (utf8_scalar _ _ U). split; [|constructor; assumption].
  unfold bytes_of. cbn [flat_map List.concat]. rewrite IH. f_equal. exact (utf8_fun _ _ _ U (encode_rune_utf8 _ SC)).
Qed.

(** A plain search is for one text. *)
Lemma plain_one : forall p ic rs ic' rs', plain_search p ic rs -> plain_search p ic' rs' -> ic = ic' /\ rs = rs'.
Proof.
  intros p ic rs ic' rs' ((ch & F & Q) & _ & I1 & _) ((ch' & F' & Q') & _ & I2 & _). split.
  - destruct ic, ic'; try reflexivity; [destruct (proj2 I2 (proj1 I1 eq_refl))|destruct (proj2 I1 (proj1 I2 eq_refl))]; reflexivity.
  - destruct (chars_bytes _ _ F) as (E & S1). destruct (chars_bytes _ _ F') as (E' & S2). apply bytes_inj; congruence.
Qed.

Lemma blank_trim : forall s, Forall FormSpec.white s -> trim s = [].
Proof.
  intros s F. apply trim_within. exists s, []. cbn [app]. rewrite app_nil_r. repeat (split; [reflexivity || assumption || constructor|]).
  split; intros c r E; [discriminate|]. destruct r; discriminate.
Qed.

Definition params_of (f : search_form) (rs : list N) (reps : str) : params :=
  [(n_q, bytes_of rs); (n_files, []); (n_exclude, []); (n_repos, reps); (n_i, box (sf_i f)); (n_literal, box true)].
Lemma form_text : forall f rs, plain_form f rs -> exists reps, same_text (sf_repos f) reps /\ Forall2 same_pair (getParams f) (params_of f rs reps).
Proof.
  intros f rs ((t & W & C) & L & BF & BX & R). destruct (formed_same _ R) as (reps & TR). exists reps. split; [exact TR|].
  unfold getParams, form_params, params_of. cbn [sf_q sf_i sf_literal sf_files sf_exclude sf_repos].
  rewrite (blank_trim _ BF), (blank_trim _ BX), L, (trim_within _ _ W).
  repeat (constructor; [split; [apply names_ascii; reflexivity|]; first [exact (proj1 (characters_same _ _ C))|apply box_ascii|exact TR|constructor]|]). constructor.
Qed.
Lemma same_pairs_one : forall p pb pb', Forall2 same_pair p pb -> Forall2 same_pair p pb' -> pb = pb'.
Proof.
  intros p pb pb' F. revert pb'. induction F as [|kv [k v] p pb (A & B) _ IH]; intros pb' F'; inversion F' as [|? [k' v'] ? pb2 (A' & B') F2]; [reflexivity|].
  subst. cbn [fst snd] in *. rewrite (same_fun _ _ _ A A'), (same_fun _ _ _ B B'), (IH _ F2). reflexivity.
Qed.
Lemma box_yes : forall b, yes (box b) <-> b = true.
Proof. intros b. rewrite <- yes_ok. destruct b; split; try reflexivity; intros H; vm_compute in H; discriminate. Qed.
Lemma params_plain : forall f rs reps, Forall scalar rs -> plain_search (params_of f rs reps) (sf_i f) rs.
Proof.
  intros f rs reps S1. destruct (bytes_chars rs S1) as (F & E). split; [exists (map encode_rune rs); rewrite E; split; [exact F|reflexivity]|].
  split; [exists (box true); split; [reflexivity|apply box_yes; reflexivity]|]. split; [|split; right; reflexivity].
  change (get_param (params_of f rs reps) (text "i")) with (Some (box (sf_i f))). rewrite <- box_yes. split; [eauto|]. intros (v & E1 & Y). congruence.
Qed.
Lemma typed_scalar : forall s rs, typed s rs -> Forall scalar rs.
Proof. intros s rs (t & _ & C). exact (proj2 (characters_same _ _ C)). Qed.
Lemma search_same : forall p pb, Forall2 same_pair p pb -> Forall2 same_pair (search_params p) (search_params pb).
Proof.
  intros p pb F. assert (A : forall a b, forallb (fun c => c <? 128) (a ++ b) = true -> same_pair (a, b) (a, b)).
  { intros a b H. rewrite forallb_app in H. apply Bool.andb_true_iff in H. destruct H. split; apply names_ascii; assumption. }
  assert (M : Forall2 same_pair (p ++ [(n_stats, fosho); (n_repos, star); (n_rng, first_page)]) (pb ++ [(n_stats, fosho); (n_repos, star); (n_rng, first_page)])).
  { apply Forall2_app; [exact F|]. repeat (constructor; [apply A; reflexivity|]). constructor. }
  unfold search_params, merge. cbv zeta. pose proof (get_same _ _ n_repos n_repos M (names_ascii n_repos eq_refl)) as G.
  destruct (get_param (p ++ _) n_repos) as [v|], (get_param (pb ++ _) n_repos) as [vb|]; try contradiction; [|exact M].
  destruct v as [|c v].
  - pose proof (same_fun _ _ _ G st_nil) as ->. apply Forall2_app; [|exact M]. constructor; [apply A; reflexivity|constructor].
  - destruct vb as [|cb vb]; [|exact M]. pose proof (same_inj _ _ _ st_nil G). discriminate.
Qed.
Lemma repos_all : forall f rs reps (known : str -> Prop) r, same_text (sf_repos f) reps -> sf_repos f = [] -> (asked known (params_of f rs reps) r <-> known r).
Proof.
  intros f rs reps known r T E. rewrite E in T. pose proof (same_fun _ _ _ T st_nil) as ->. split; [intros (K & _); exact K|]. intros K. split; [exact K|]. right; left. reflexivity.
Qed.

Section Page.
Variable grow : nat -> nat -> nat.
Variable sf : N -> N.
Variable om : nat.
Variable beyond : str -> option (Model.Query.query * matcher).
Variable fuel : nat.
Variable servers : list (str * (repo * served)).
Variable def : Z.
Variable msg : str.
Variable docs : str -> list (str * str).
Variable ok : params -> bool.
Hypothesis FO : folding sf om.
Hypothesis SAME : forall p p', same_search p p' -> ok p = ok p'.
Hypothesis NAMES : forall r, In r (map fst servers) -> trimmed r r /\ ~ In 44 r.
Hypothesis STOCK : forall r s, get servers r = Some s -> stocked (sv_ix (snd s)) (sv_raw (snd s)) (docs r) /\ NoDup (map fst (docs r)) /\
  Forall (fun d => valid_utf8 (fst d) /\ valid_utf8 (snd d)) (docs r) /\ (Z.of_nat (length (docs r)) < 2 ^ 63)%Z.
Hypothesis PLAIN : forall p, ok p = true -> exists ic rs, plain_search p ic rs /\ feasible sf om fuel ic rs /\
  ((def <= 0)%Z \/ forall r, In r (map fst servers) -> few_lines sf ic rs (docs r) def).
Let known := fun r => In r (map fst servers).

Theorem typed_shown : forall locale serve, msg <> [] ->
  (forall p, get_param p (text "limit") = None -> sends fuel (compile_pattern sf om grow fuel beyond) QuoteMeta servers def msg p (serve p)) ->
  forall f rs pb, plain_form f rs -> Forall2 same_pair (getParams f) pb ->
  forall s res, visit_of ok locale serve s (Some pb) -> displays s res ->
  page_shows sf docs known pb (sf_i f) rs res /\ (sf_repos f = [] -> forall r, asked known pb r <-> known r).
Proof.
  intros locale serve MS SE f rs pb PF F s res V D. destruct (form_text f rs PF) as (reps & TR & F'). pose proof (same_pairs_one _ _ _ F F') as ->.
  destruct (page_text grow sf om beyond fuel servers def msg docs ok FO SAME NAMES STOCK PLAIN locale serve MS SE s _ res V D) as (p & ic & rs' & E & PS & SH).
  assert (p = params_of f rs reps) by congruence. subst p.
  destruct (plain_one _ _ _ _ _ PS (params_plain f rs reps (typed_scalar _ _ (proj1 PF)))) as (-> & ->).
  split; [exact SH|]. intros E0 r. exact (repos_all f rs reps known r TR E0).
Qed.

Theorem typed_all : forall locale serve, msg <> [] ->
  (forall p, get_param p (text "limit") = None -> sends fuel (compile_pattern sf om grow fuel beyond) QuoteMeta servers def msg p (serve p)) ->
  forall f rs, plain_form f rs -> rs <> [] ->
  exists pb, Forall2 same_pair (getParams f) pb /\
    (forall o, object_of (search_params (getParams f)) o -> exists form, seen_by_server o = Some form /\
       request servers def (search_params pb) = read_search form (map (fun s => (fst s, fst (snd s))) servers) def) /\
    forall s last, visit_of ok locale serve s last -> pg_pending s = [] -> ok pb = true -> (forall req, same_search req pb -> serve req <> Broke) ->
    exists s1 s2 res, page_step locale s (Search pb) s1 /\ goes serve locale s1 s2 /\ displays s2 res /\ page_shows sf docs known pb (sf_i f) rs res /\
      Forall (fun x => r_files x = Z.of_nat (length (r_matches x))) res.
Proof.
  intros locale serve MS SE f rs PF NE. destruct (form_text f rs PF) as (reps & TR & F). exists (params_of f rs reps). split; [exact F|]. split.
  { intros o O1. destruct (same_request_read _ _ o (search_same _ _ F) O1) as (form & E & _ & R). exists form. split; [exact E|apply R]. }
  intros s last V PE O NB. pose proof (typed_scalar _ _ (proj1 PF)) as SC.
  assert (PO : polite serve s (Search (params_of f rs reps))).
  { split; [exact PE|]. split; [reflexivity|]. split; [reflexivity|]. split; [|reflexivity].
    change (Some (bytes_of rs) <> Some []). intros E. apply NE. apply (bytes_inj rs []); [exact SC|apply Forall_nil|change (bytes_of []) with (@nil N); congruence]. }
  destruct (page_text_all grow sf om beyond fuel servers def msg docs ok FO SAME NAMES STOCK PLAIN locale serve MS SE s last _ V PO O NB) as (s1 & s2 & res & ic & rs' & ST & G & D & PS & SH & AL).
  destruct (plain_one _ _ _ _ _ PS (params_plain f rs reps SC)) as (-> & ->). exists s1, s2, res. auto 6.
Qed.
End Page.
