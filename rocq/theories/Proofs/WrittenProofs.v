(** From the working copies of several repositories to the page. *)
From Verif Require Import Model.Base Model.GoStr Model.Config Model.Query Model.Reader Model.Writer Model.IndexRun Model.Utf8 Model.Matcher Model.Analyze Model.Grep Model.Search Model.Api
  Model.Whole Model.GoRegexp Model.GoParse Model.IndexDir Model.PageState Model.PageAddress Model.PageView Model.PageForm Spec.Utf8Spec Spec.RunSpec Spec.IndexSpec Spec.AddressSpec Spec.ApiSpec Spec.FormSpec Spec.TypedSpec Spec.MatchSpec Spec.LiteralSpec
  Spec.WholeSpec Spec.TreeSpec Spec.CommitSpec Spec.LoadSpec Spec.PlainSpec Spec.WrittenSpec Spec.Names Proofs.EndToEnd Proofs.WholeSearch Proofs.LiteralTop Proofs.StrLemmas Proofs.Utf8Proofs Proofs.ApiProofs Proofs.AddressProofs Proofs.FormProofs Proofs.FormServe Proofs.PageServe Proofs.PageLoad Proofs.PageLiteral
  Proofs.IndexProofs Proofs.DirProofs Proofs.DirTop Proofs.CommitProofs Proofs.TypedProofs.
Local Open Scope N_scope.

(** The files of the index of a working copy. *)
Definition kept_of (w : source) (s : served) (docs : list (str * str)) : Prop :=
  stocked (sv_ix s) (sv_raw s) docs /\ NoDup (map fst docs) /\ Forall (fun d => valid_utf8 (fst d) /\ valid_utf8 (snd d)) docs /\
  (forall name c, In (name, c) docs -> file_in w name c) /\ (forall name c, held_in w name c -> In (name, c) docs).

Lemma made_kept : forall w rev s u es, so_tree w = NDir u es -> good_tree (so_tree w) -> utf8_tree (so_opt w) (so_name w) (so_tree w) ->
  made_from (so_opt w) (so_name w) (so_tree w) rev (so_left w) s -> exists docs, kept_of w s docs.
Proof.
  intros [opt rname nd excl] rev s u es TR G UT (cap & mk & cr & mem & b & raw & C & IA & OP & RW & RV). cbn [so_opt so_name so_tree so_left] in *. subst nd.
  destruct (index_tree _ _ _ _ _ _ _ _ _ _ _ _ C G IA) as (files & vs & docs & BI & FOK & KE & ND & _ & DO & EX & ALL & _).
  exists docs. split; [|split; [|split; [|split]]].
  - exists cap, mem, files, vs, b. split; [exact C|]. split; [exact FOK|]. split; [exact BI|]. split; [exact KE|]. split; [exact OP|].
    intros [name c] Id. destruct (DO name c Id) as [IR _]. exact (RW name c IR).
  - exact (nodup_first _ _ ND).
  - apply Forall_forall. intros [name c] Id. destruct (DO name c Id) as (_ & cs & m & pk & evs & Fo & J & _ & _ & _ & -> & _). cbn [fst snd].
    exact (UT cs m (Some pk) evs name Fo J).
  - intros name c Id. destruct (DO name c Id) as (_ & cs & m & pk & evs & Fo & J & NH & _ & _ & -> & _). exists cs, m, (Some pk), evs. auto.
  - intros name c (cs & m & pk & evs & Fo & J & NS & OK & NX & ->). cbn [so_opt so_name so_tree so_left] in *.
    destruct (ALL cs m pk (Some evs) name Fo J NS) as [(c & Id)|[(why & Ie)|(evs' & E & NOK)]].
    + destruct (DO name c Id) as (_ & cs' & m' & pk' & evs' & Fo' & J' & _ & _ & OK' & -> & _).
      assert (cs' = cs).
      { apply joined_iff in J. apply joined_iff in J'. destruct J as [N1 J], J' as [N2 J'].
        apply join_inj; try assumption; [apply (found_good _ _ _ _ _ _ Fo' G)|apply (found_good _ _ _ _ _ _ Fo G)|congruence]. }
      subst cs'. destruct (found_fun _ _ _ _ _ _ Fo G _ _ Fo') as [_ EQ]. injection EQ as -> <-. exact Id.
    + exfalso. apply NX. apply (in_map fst) in Ie. exact Ie.
    + injection E as <-. contradiction.
Qed.

Lemma get_some : forall {A} (m : list (str * A)) r, In r (map fst m) <-> exists s, get m r = Some s.
Proof.
  intros A m r. induction m as [|[k v] m IH]; cbn [map fst get In]; [split; [intros []|intros (s & E); discriminate]|].
  destruct (str_eqb r k) eqn:E.
  - apply str_eqb_eq in E. subst k. split; eauto.
  - rewrite IH. split; [intros [-> |X]; [rewrite str_eqb_refl in E; discriminate|exact X]|auto].
Qed.
Lemma choose : forall {A B} (P : str -> A -> list B -> Prop) (m : list (str * A)), (forall r s, get m r = Some s -> exists d, P r s d) ->
  exists docs, forall r s, get m r = Some s -> P r s (docs r).
Proof.
  intros A B P m H. assert (Z : forall ks, exists docs, forall r s, In r ks -> get m r = Some s -> P r s (docs r)).
  { intros ks. induction ks as [|k ks (docs & IH)]; [exists (fun _ => []); intros r s []|].
    destruct (get m k) as [v|] eqn:G.
    - destruct (H k v G) as (d & Hd). exists (fun r => if str_eqb r k then d else docs r). intros r s I Gr. destruct (str_eqb r k) eqn:E.
      + apply str_eqb_eq in E. subst r. congruence.
      + destruct I as [-> |I]; [rewrite str_eqb_refl in E; discriminate|auto].
    - exists docs. intros r s [-> |I] Gr; [congruence|auto]. }
  destruct (Z (map fst m)) as (docs & D). exists docs. intros r s G. apply D; [|exact G]. apply get_some. eauto.
Qed.

Lemma few_kept : forall w s docs, kept_of w s docs -> countable w -> (Z.of_nat (length docs) < 2 ^ 63)%Z.
Proof.
  intros w s docs (_ & ND & _ & IN & _) C. rewrite <- (map_length fst). apply C; [exact ND|].
  intros name I. apply in_map_iff in I. destruct I as ([n c] & <- & I). exists c. apply IN. exact I.
Qed.
Lemma few_lines_kept : forall sf ic rs w s docs n, kept_of w s docs -> few_lines_in sf ic rs w n -> few_lines sf ic rs docs n.
Proof.
  intros sf ic rs w s docs n (_ & _ & _ & IN & _) F l ND H. apply F; [exact ND|]. intros name k I. destruct (H name k I) as (t & line & Id & L). exists t, line. auto.
Qed.

Section Sources.
Variable sf : N -> N.
Variable src : str -> source.
Variable servers : list (str * (repo * served)).
Variable docs : str -> list (str * str).
Hypothesis KEPT : forall r s, get servers r = Some s -> kept_of (src r) (snd s) (docs r).
Let known := fun r => In r (map fst servers).

Lemma f2_in_r : forall {A B} (R : A -> B -> Prop) l m b, Forall2 R l m -> In b m -> exists a, In a l /\ R a b.
Proof. intros A B R l m b F. induction F as [|x y l m H _ IH]; [intros []|]. intros [<-|I]; [exists x; split; [left; reflexivity|exact H]|]. destruct (IH I) as (a & I' & Z). exists a. split; [right; exact I'|exact Z]. Qed.
Lemma f2_in_l : forall {A B} (R : A -> B -> Prop) l m a, Forall2 R l m -> In a l -> exists b, In b m /\ R a b.
Proof. intros A B R l m b F. induction F as [|x y l m H _ IH]; [intros []|]. intros [<-|I]; [exists y; split; [left; reflexivity|exact H]|]. destruct (IH I) as (a & I' & Z). exists a. split; [right; exact I'|exact Z]. Qed.

Lemma known_kept : forall p r, asked known p r -> exists s, kept_of (src r) s (docs r).
Proof. intros p r (K & _). apply get_some in K. destruct K as (s & G). exists (snd s). exact (KEPT r s G). Qed.

Lemma page_sources : forall p ic rs res, page_shows sf docs known p ic rs res -> page_of_sources sf src known p ic rs res.
Proof.
  intros p ic rs res (ND & WHO & ALL). split; [exact ND|]. split.
  - intros x I. rewrite Forall_forall in ALL. destruct (ALL x I) as (w & sel & rest & W & FW & NE & _ & F2).
    destruct (proj1 (WHO (r_repo x)) (in_map _ _ _ I)) as (AS & _). destruct (known_kept _ _ AS) as (s & K). split; [exact AS|]. split; [|split].
    + intros E. rewrite E in F2. inversion F2; subst. contradiction.
    + assert (NM : map fm_name (r_matches x) = map fst sel) by (clear - F2; induction F2 as [|d f ds fs (E & _) _ IH]; [reflexivity|]; cbn [map]; congruence).
      rewrite NM. apply (nodup_first _ (map fst rest)). rewrite <- map_app, <- FW. apply nodup_kept. apply K.
    + intros f If. destruct (f2_in_r _ _ _ _ F2 If) as ([n c] & Id & E & SH). cbn [fst snd] in *.
      assert (Iw : In (n, c) (filter w (docs (r_repo x)))) by (rewrite FW; apply in_app_iff; left; exact Id). apply filter_In in Iw. destruct Iw as (Id' & Wt).
      exists c. rewrite E. split; [apply K; exact Id'|]. split; [apply (W _ Id'); exact Wt|exact SH].
  - intros r name c k line AS HE L. apply WHO. split; [exact AS|]. destruct (known_kept _ _ AS) as (s & K). exists (name, c), k, line. split; [apply K; exact HE|exact L].
Qed.
Lemma page_sources_all : forall p ic rs res, page_shows sf docs known p ic rs res -> Forall (fun x => r_files x = Z.of_nat (length (r_matches x))) res -> all_of_sources sf src known p ic rs res.
Proof.
  intros p ic rs res (ND & WHO & ALL) FU r name c k line AS HE L. destruct (known_kept _ _ AS) as (s & K).
  assert (Id : In (name, c) (docs r)) by (apply K; exact HE).
  assert (I : In r (map r_repo res)) by (apply WHO; split; [exact AS|]; exists (name, c), k, line; auto).
  apply in_map_iff in I. destruct I as (x & <- & I). rewrite Forall_forall in ALL, FU. destruct (ALL x I) as (w & sel & rest & W & FW & NE & NF & F2). specialize (FU x I).
  assert (rest = []).
  { pose proof (f2_len _ _ _ F2) as LE. rewrite FU, <- LE, app_length in NF. destruct rest; [reflexivity|]. exfalso. cbn [length] in NF. Lia.lia. }
  subst rest. rewrite app_nil_r in FW.
  assert (Is : In (name, c) sel) by (rewrite <- FW; apply filter_In; split; [exact Id|]; apply (W _ Id); exists k, line; exact L).
  destruct (f2_in_l _ _ _ _ F2 Is) as (f & If & E & SH). exists x, f. auto.
Qed.
End Sources.

(** ** What is typed *)
(** The repositories and their indices, made from the working copies of [src]. *)
Definition made_of (src : str -> source) (servers : list (str * (repo * served))) : Prop := forall r s, get servers r = Some s ->
  exists rev u es, so_tree (src r) = NDir u es /\ good_tree (so_tree (src r)) /\ utf8_tree (so_opt (src r)) (so_name (src r)) (so_tree (src r)) /\
    made_from (so_opt (src r)) (so_name (src r)) (so_tree (src r)) rev (so_left (src r)) (snd s) /\ countable (src r).

Section Typed.
Variable grow : nat -> nat -> nat.
Variable sf : N -> N.
Variable om : nat.
Variable beyond : str -> option (Model.Query.query * matcher).
Variable fuel : nat.
Variable servers : list (str * (repo * served)).
Variable def : Z.
Variable msg : str.
Variable src : str -> source.
Variable ok : params -> bool.
Hypothesis FO : folding sf om.
Hypothesis SAME : forall p p', same_search p p' -> ok p = ok p'.
Hypothesis NAMES : forall r, In r (map fst servers) -> trimmed r r /\ ~ In 44 r.
Hypothesis MADE : made_of src servers.
Hypothesis PLAIN : forall p, ok p = true -> exists ic rs, plain_search p ic rs /\ feasible sf om fuel ic rs /\
  ((def <= 0)%Z \/ forall r, In r (map fst servers) -> few_lines_in sf ic rs (src r) def).
Let known := fun r => In r (map fst servers).

Lemma made_docs : exists docs, (forall r s, get servers r = Some s -> kept_of (src r) (snd s) (docs r)) /\
  (forall r s, get servers r = Some s -> stocked (sv_ix (snd s)) (sv_raw (snd s)) (docs r) /\ NoDup (map fst (docs r)) /\
     Forall (fun d => valid_utf8 (fst d) /\ valid_utf8 (snd d)) (docs r) /\ (Z.of_nat (length (docs r)) < 2 ^ 63)%Z) /\
  (forall p, ok p = true -> exists ic rs, plain_search p ic rs /\ feasible sf om fuel ic rs /\
     ((def <= 0)%Z \/ forall r, In r (map fst servers) -> few_lines sf ic rs (docs r) def)).
Proof.
  destruct (choose (fun r s d => kept_of (src r) (snd s) d) servers) as (docs & KD).
  { intros r s G. destruct (MADE r s G) as (rev & u & es & TR & GT & UT & MF & _). exact (made_kept _ _ _ _ _ TR GT UT MF). }
  exists docs. split; [exact KD|]. split.
  - intros r s G. pose proof (KD r s G) as K. destruct (MADE r s G) as (rev & u & es & _ & _ & _ & _ & CO). pose proof (few_kept _ _ _ K CO) as FK.
    destruct K as (K1 & K2 & K3 & _). auto.
  - intros p O. destruct (PLAIN p O) as (ic & rs & PS & FE & FW). exists ic, rs. split; [exact PS|]. split; [exact FE|].
    destruct FW as [FW|FW]; [left; exact FW|right]. intros r I. pose proof I as I'. apply get_some in I'. destruct I' as (s & G). exact (few_lines_kept _ _ _ _ _ _ _ (KD r s G) (FW r I)).
Qed.

Theorem written_shown : forall locale serve, msg <> [] ->
  (forall p, get_param p (text "limit") = None -> sends fuel (compile_pattern sf om grow fuel beyond) QuoteMeta servers def msg p (serve p)) ->
  forall f rs pb, plain_form f rs -> Forall2 same_pair (getParams f) pb ->
  forall s res, visit_of ok locale serve s (Some pb) -> displays s res ->
  page_of_sources sf src known pb (sf_i f) rs res /\ (sf_repos f = [] -> forall r, asked known pb r <-> known r).
Proof.
  intros locale serve MS SE f rs pb PF F s res V D. destruct made_docs as (docs & KD & ST & PL).
  destruct (typed_shown grow sf om beyond fuel servers def msg docs ok FO SAME NAMES ST PL locale serve MS SE f rs pb PF F s res V D) as (SH & AL).
  split; [|exact AL]. exact (page_sources sf src servers docs KD _ _ _ _ SH).
Qed.
Theorem written_all : forall locale serve, msg <> [] ->
  (forall p, get_param p (text "limit") = None -> sends fuel (compile_pattern sf om grow fuel beyond) QuoteMeta servers def msg p (serve p)) ->
  forall f rs, plain_form f rs -> rs <> [] ->
  exists pb, Forall2 same_pair (getParams f) pb /\
    forall s last, visit_of ok locale serve s last -> pg_pending s = [] -> ok pb = true -> (forall req, same_search req pb -> serve req <> Broke) ->
    exists s1 s2 res, page_step locale s (Search pb) s1 /\ goes serve locale s1 s2 /\ displays s2 res /\
      page_of_sources sf src known pb (sf_i f) rs res /\ all_of_sources sf src known pb (sf_i f) rs res.
Proof.
  intros locale serve MS SE f rs PF NE. destruct made_docs as (docs & KD & ST & PL).
  destruct (typed_all grow sf om beyond fuel servers def msg docs ok FO SAME NAMES ST PL locale serve MS SE f rs PF NE) as (pb & F & _ & K).
  exists pb. split; [exact F|]. intros s last V PE O NB. destruct (K s last V PE O NB) as (s1 & s2 & res & S1 & S2 & DI & SH & AL).
  exists s1, s2, res. split; [exact S1|]. split; [exact S2|]. split; [exact DI|]. split; [exact (page_sources sf src servers docs KD _ _ _ _ SH)|exact (page_sources_all sf src servers docs KD _ _ _ _ SH AL)].
Qed.
End Typed.
