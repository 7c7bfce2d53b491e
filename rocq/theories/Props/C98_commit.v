(** C98: a text written at the source is found. C97, C24 and C74 together: from a change at the
    source to the lines in the answer to a search. *)
From Verif Require Import Model.Base Model.GoStr Model.Writer Model.IndexRun Model.Query Model.Reader Model.Utf8 Model.Syntax Model.Matcher Model.Utf Model.Analyze Model.Grep Model.Search Model.Api
  Model.Request Model.Whole Model.GoRegexp Model.GoParse Model.IndexDir Spec.IndexSpec Spec.RunSpec Spec.Utf8Spec Spec.RegexSpec Spec.MatchSpec Spec.GrepSpec Spec.RuneProgSpec Spec.ExprSpec Spec.ParsedSpec Spec.LiteralSpec
  Spec.TreeSpec Spec.CommitSpec Proofs.GrepTop Proofs.MatchTop Proofs.WholeExample Proofs.SearchExample Proofs.LiteralParse Proofs.LiteralTop Proofs.CommitProofs Props.C01_prefilter Props.C23_expressions Props.C74_plain_text
  Model.Config Model.Server Model.Polling Model.Follow Spec.ServerSpec Spec.PollSpec Proofs.ServerExamples Proofs.PollExamples Proofs.FollowExamples Props.C97_fresh.
From Coq Require Import Lia ZArith.
Local Open Scope nat_scope.

(** A request for the text with the characters [chars]: taken literally, up to case if [ic], without
    filters, window or limit. *)
Definition asks_for (ic : bool) (chars : list str) (q : search_request) : Prop :=
  q_literal q = true /\ q_query q = List.concat chars /\ q_icase q = ic /\ q_files q = [] /\ q_exclude q = [] /\
  q_offset q = 0%Z /\ q_limit q = 0%Z /\ (q_max q <= 0)%Z.
(** In the end every answer is the same, of revision [r], and has exactly the lines of its files with the text. *)
Definition found_in_the_end (search : Whole.served -> option (option response)) opt rname (nd : node) r (held : nat -> Whole.served) (left : nat -> list (str * reason)) (vs : nat -> vars) sf ic rs : Prop :=
  exists b t res, (forall j, b <= j -> serves (vs j) = Some t) /\ search (held t) = Some (Some res) /\ rs_rev res = r /\
    finds_text opt rname nd (left t) sf ic rs res /\ left_out_well opt rname nd (left t).

(** [tree rev]: the working copy at a revision; [held t], [left t]: the index of the revision of
    time t and the files that were left out of it. Missing: what C97 and C74 leave out. *)
Theorem C98_polled_partial : forall grow sf om beyond ic runes chars, folding sf om -> Forall2 utf8 runes chars ->
  (ic = true -> forall r, In r runes -> (0x1044f < r)%N -> sf r = r) -> (3 * N.of_nat (length runes) <= 2^25)%N ->
  exists p, byte_program sf om (text_expr sf om ic runes) = Some p /\
  ((N.of_nat (length (p_inst p)) < 2^32 - 1)%N -> forall fuel, depth_ok fuel p ->
   forall k c confs x i m0 ss errs upstream vs out m r,
   1 <= c -> is_execution x (initial k c (of_config confs)) -> fair x -> follows upstream x i vs out ->
   In (Return ss errs) (ev x m0) -> In i ss -> r_poll (confs i) <> Some false -> (0 <= r_ms (confs i) <= 9223372036854)%Z ->
   rests upstream m r -> goes_well out m -> (forall j, out j <> SwapFailed) ->
   forall q opt rname tree u es held left, asks_for ic chars q -> tree r = NDir u es -> good_tree (tree r) -> utf8_tree opt rname (tree r) ->
   (forall j t, serves (vs j) = Some t -> made_from opt rname (tree (upstream t)) (upstream t) (left t) (held t)) ->
   found_in_the_end (search_repo fuel (compile_pattern sf om grow fuel beyond) QuoteMeta q) opt rname (tree r) r held left vs sf ic runes \/ stopped x i).
Proof.
  intros grow sf om beyond ic runes chars FO CH OLD SM. destruct (commit_found grow sf om beyond ic runes chars FO CH OLD SM) as (p & BP & K).
  exists p. split; [exact BP|]. intros SZ fuel D k c confs x i m0 ss errs upstream vs out m r C1 EX FA FOL R I P M RE GO NS q opt rname tree u es held left (Q1 & Q2 & Q3 & Q4 & Q5 & Q6 & Q7 & Q8) TR G UT MF.
  destruct (C97_polled_partial k c confs x i m0 ss errs upstream vs out m r C1 EX FA FOL R I P M RE GO NS) as [(b & t & U & B)|ST]; [left|right; exact ST].
  specialize (MF b t (B b (le_n b))). rewrite U, TR in MF. rewrite TR in G, UT |- *.
  destruct (K SZ fuel D q opt rname u es r (left t) (held t) Q1 Q2 Q3 Q4 Q5 Q6 Q7 Q8 G UT MF) as (res & S & RV & X & Y). exists b, t, res. auto.
Qed.
Print Assumptions C98_polled_partial.

(** The same after a push request, whether polled or not. *)
Theorem C98_pushed_partial : forall grow sf om beyond ic runes chars, folding sf om -> Forall2 utf8 runes chars ->
  (ic = true -> forall r, In r runes -> (0x1044f < r)%N -> sf r = r) -> (3 * N.of_nat (length runes) <= 2^25)%N ->
  exists p, byte_program sf om (text_expr sf om ic runes) = Some p /\
  ((N.of_nat (length (p_inst p)) < 2^32 - 1)%N -> forall fuel, depth_ok fuel p ->
   forall k c confs x i upstream vs out m r,
   1 <= c -> is_execution x (initial k c (of_config confs)) -> fair x -> follows upstream x i vs out ->
   In (Ack i) (ev x m) -> In (Started i) (before x m) -> ~ In (Done i) (before x m) ->
   rests upstream m r -> goes_well out m -> (forall j, out j <> SwapFailed) ->
   forall q opt rname tree u es held left, asks_for ic chars q -> tree r = NDir u es -> good_tree (tree r) -> utf8_tree opt rname (tree r) ->
   (forall j t, serves (vs j) = Some t -> made_from opt rname (tree (upstream t)) (upstream t) (left t) (held t)) ->
   found_in_the_end (search_repo fuel (compile_pattern sf om grow fuel beyond) QuoteMeta q) opt rname (tree r) r held left vs sf ic runes \/ stopped x i).
Proof.
  intros grow sf om beyond ic runes chars FO CH OLD SM. destruct (commit_found grow sf om beyond ic runes chars FO CH OLD SM) as (p & BP & K).
  exists p. split; [exact BP|]. intros SZ fuel D k c confs x i upstream vs out m r C1 EX FA FOL A ST ND RE GO NS q opt rname tree u es held left (Q1 & Q2 & Q3 & Q4 & Q5 & Q6 & Q7 & Q8) TR G UT MF.
  destruct (C97_pushed_partial k c confs x i upstream vs out m r C1 EX FA FOL A ST ND RE GO NS) as [(b & t & U & B)|STO]; [left|right; exact STO].
  specialize (MF b t (B b (le_n b))). rewrite U, TR in MF. rewrite TR in G, UT |- *.
  destruct (K SZ fuel D q opt rname u es r (left t) (held t) Q1 Q2 Q3 Q4 Q5 Q6 Q7 Q8 G UT MF) as (res & S & RV & X & Y). exists b, t, res. auto.
Qed.
Print Assumptions C98_pushed_partial.

(** ** The history of C97's example: the file a gets a line with "a.b" *)
Definition cm_text (rev : str) : str := match rev with [97%N] => [120; 10]%N | _ => lt_text end.
Definition cm_tree (rev : str) : node := NDir false [([97%N], NFile (Some (RChunk (cm_text rev) true REof)) (Some [(cm_text rev, ErrEOF)]))].
Definition cm_opt : iopts := mkIOpts true [[46; 103]%N].
Definition cm_held (t : nat) : Whole.served :=
  match index_all_files 5 cm_opt (fun _ => true) (fun _ => true) true (fun _ => 0%N) [114%N] (cm_tree (moved_on t)) with
  | Some (Some (b, _, _)) => mkServed (match ix_open b with Some ix => ix | None => sv_ix (lt_server []) end)
      (fun name => if str_eqb name [97%N] then Some (RChunk (cm_text (moved_on t)) true REof) else None) [] (moved_on t)
  | _ => lt_server []
  end.
Lemma cm_built : forall rev, rev = [97%N] \/ rev = [98%N] -> exists b ix,
  index_all_files 5 cm_opt (fun _ => true) (fun _ => true) true (fun _ => 0%N) [114%N] (cm_tree rev) = Some (Some (b, [([97%N], cm_text rev)], [])) /\ ix_open b = Some ix.
Proof. intros rev [-> | ->]; do 2 eexists; (split; [vm_compute; reflexivity|vm_compute; reflexivity]). Qed.
Lemma cm_found : forall rev cs m pk evs name, found cm_opt [114%N] (cm_tree rev) cs m (NFile pk (Some evs)) -> TreeSpec.joined cs name -> name = [97%N] /\ ev_content evs = cm_text rev.
Proof.
  intros rev cs m pk evs name F J. unfold cm_tree in F. inversion F as [|a b n y cs' m' z _ I F']; subst. destruct I as [I|[]].
  assert (n = [97%N]) by congruence. assert (y = NFile (Some (RChunk (cm_text rev) true REof)) (Some [(cm_text rev, ErrEOF)])) by congruence. subst n y.
  inversion F'; subst. inversion J as [|? ? ? X]; subst; [|inversion X]. split; [reflexivity|]. destruct (cm_text rev); cbn; rewrite ?app_nil_r; reflexivity.
Qed.
Example C98_example :
  asks_for false [[97]; [46]; [98]]%N (mkReq false [[114]] [97; 46; 98] 0 0 [] [] false true 0 1)%N /\
  good_tree (cm_tree [98%N]) /\ utf8_tree cm_opt [114%N] (cm_tree [98%N]) /\
  (forall j t, serves (vars_at moved_on true j) = Some t -> made_from cm_opt [114%N] (cm_tree (moved_on t)) (moved_on t) [] (cm_held t)) /\
  line_with ascii_fold false [97; 46; 98]%N (cm_text [98%N]) 1 [97; 97; 46; 98]%N /\
  ~ exists k line, line_with ascii_fold false [97; 46; 98]%N (cm_text [97%N]) k line.
Proof.
  split; [unfold asks_for; cbn [q_literal q_query q_icase q_files q_exclude q_offset q_limit q_max]; repeat (split; [reflexivity|]); lia|]. split; [|split; [|split; [|split]]].
  - constructor; [constructor; [intros []|constructor]|]. intros n x [E|[]]. injection E as <- <-. split; [discriminate|]. split; [intros [X|[]]; discriminate|].
    constructor. intros evs E. injection E as <-. vm_compute. repeat constructor.
  - intros cs m pk evs name F J. destruct (cm_found _ _ _ _ _ _ F J) as (-> & ->). split; apply we_valid; vm_compute; repeat constructor.
  - intros j t _. assert (Z : moved_on t = [97%N] \/ moved_on t = [98%N]) by (unfold moved_on; destruct (Nat.ltb t 11); auto).
    destruct (cm_built _ Z) as (b & ix & B & O). exists 5, (fun _ => true), (fun _ => true), (fun _ => 0%N), b, [([97%N], cm_text (moved_on t))].
    unfold cm_held. rewrite B, O. cbn [sv_ix sv_raw sv_rev]. split; [lia|]. split; [reflexivity|]. split; [reflexivity|]. split; [|reflexivity].
    intros name c [E|[]]. assert (name = [97%N]) by congruence. assert (c = cm_text (moved_on t)) by congruence. subst name c. eexists. split; [reflexivity|].
    destruct Z as [-> | ->]; vm_compute; auto.
  - exists [[120]; [97; 97; 46; 98]; [97; 120; 98]; [65; 46; 98]]%N. split; [|split; [reflexivity|]].
    + exists [[120]; [97; 97; 46; 98]; [97; 120; 98]; [65; 46; 98]]%N. split; [apply SplitProofs.splits_iff; reflexivity|right; split; [reflexivity|discriminate]].
    + apply (C74_same_bytes ascii_fold [97; 46; 98]%N [[97]; [46]; [98]]%N); [repeat constructor; reflexivity|]. exists [97%N], []. reflexivity.
  - intros (k & line & lines & FL & N & CT). apply (C74_same_bytes ascii_fold [97; 46; 98]%N [[97]; [46]; [98]]%N) in CT; [|repeat constructor; reflexivity].
    destruct CT as (a & b & E). destruct FL as (ps & SP & Y). apply SplitProofs.splits_iff in SP. vm_compute in SP. subst ps.
    assert (L : line = [120%N] \/ line = []).
    { assert (I : In line [[120%N]; []]); [|destruct I as [I|[I|[]]]; auto]. destruct Y as [Y|(Y & _)]; rewrite Y; [apply in_app_iff; left|]; exact (nth_error_In _ _ N). }
    destruct L as [-> | ->]; destruct a as [|? [|? a]]; discriminate.
Qed.
