(** From a working copy to the answer to a search for a text. *)
From Verif Require Import Model.Base Model.GoStr Model.Writer Model.IndexRun Model.Query Model.Reader Model.Utf8 Model.Syntax Model.Matcher Model.Utf Model.Analyze Model.Grep Model.Search Model.Api
  Model.Request Model.Whole Model.GoRegexp Model.GoParse Model.IndexDir Spec.IndexSpec Spec.RunSpec Spec.Utf8Spec Spec.RegexSpec Spec.MatchSpec Spec.GrepSpec Spec.RuneProgSpec Spec.ExprSpec Spec.ParsedSpec Spec.LiteralSpec
  Spec.TreeSpec Spec.CommitSpec
  Proofs.GrepTop Proofs.MatchTop Proofs.EndToEnd Proofs.IndexProofs Proofs.DirProofs Proofs.DirTop Proofs.SearchTop Proofs.WholeSearch Proofs.LiteralParse Proofs.LiteralTop.
Local Open Scope N_scope.

Lemma nodup_first : forall {A} (a b : list A), NoDup (a ++ b) -> NoDup a.
Proof. intros A a b. induction a as [|x a IH]; intros D; [constructor|]. inversion D; subst. constructor; [|auto]. intros I. apply H1. apply in_app_iff. left. exact I. Qed.
Lemma nodup_kept : forall {A B} (f : A -> B) w l, NoDup (map f l) -> NoDup (map f (filter w l)).
Proof.
  intros A B f w l. induction l as [|x l IH]; intros D; [constructor|]. inversion D; subst. cbn [filter]. destruct (w x); [|auto]. cbn [map]. constructor; [|auto].
  intros I. apply H1. apply in_map_iff in I. destruct I as (y & E & I). apply filter_In in I. apply in_map_iff. exists y. tauto.
Qed.

Lemma answer_rev : forall fuel compile quote q s r, search_repo fuel compile quote q s = Some (Some r) -> rs_rev r = sv_rev s.
Proof.
  intros fuel compile quote q s r H. unfold search_repo in H.
  destruct (compile _) as [(tq & re)|]; [|discriminate]. destruct (optional_filter compile (q_files q)); [|discriminate].
  destruct (optional_filter compile (q_exclude q)); [|discriminate]. unfold search in H.
  destruct (posting_query _ _ _); [|discriminate]. cbn [bind] in H. destruct (search_files _ _ _ _ _ _ _) as [[e|st]|]; [discriminate| |discriminate].
  cbn [bind] in H. injection H as <-. reflexivity.
Qed.

Lemma commit_found : forall grow sf om beyond ic rs chars, folding sf om -> Forall2 utf8 rs chars ->
  (ic = true -> forall r, In r rs -> 0x1044f < r -> sf r = r) -> 3 * N.of_nat (length rs) <= 2^25 ->
  exists p, byte_program sf om (text_expr sf om ic rs) = Some p /\
  (N.of_nat (length (p_inst p)) < 2^32 - 1 -> forall fuel, depth_ok fuel p ->
   forall q opt rname u es rev excl s, q_literal q = true -> q_query q = List.concat chars -> q_icase q = ic -> q_files q = [] -> q_exclude q = [] ->
   q_offset q = 0%Z -> q_limit q = 0%Z -> (q_max q <= 0)%Z ->
   good_tree (NDir u es) -> utf8_tree opt rname (NDir u es) -> made_from opt rname (NDir u es) rev excl s ->
   exists r, search_repo fuel (compile_pattern sf om grow fuel beyond) QuoteMeta q s = Some (Some r) /\ rs_rev r = rev /\
     finds_text opt rname (NDir u es) excl sf ic rs r /\ left_out_well opt rname (NDir u es) excl).
Proof.
  intros grow sf om beyond ic rs chars FO CH OLD SM. destruct (literal_repo grow sf om beyond ic rs chars FO CH OLD SM) as (p & BP & K).
  exists p. split; [exact BP|]. intros SZ fuel D q opt rname u es rev excl s Q1 Q2 Q3 Q4 Q5 Q6 Q7 Q8 G UT (cap & mk & cr & mem & b & raw & C & IA & OP & RW & RV).
  destruct (index_tree _ _ _ _ _ _ _ _ _ _ _ _ C G IA) as (files & vs & docs & BI & FOK & KE & ND & _ & DO & EX & ALL & _).
  assert (HO : holding sf ic rs (q_max q) s docs).
  { constructor.
    - exists cap, mem, files, vs, b. split; [exact C|]. split; [exact FOK|]. split; [exact BI|]. split; [exact KE|]. split; [exact OP|].
      intros [name c] Id. destruct (DO name c Id) as [IR _]. exact (RW name c IR).
    - exact (nodup_first _ _ ND).
    - apply Forall_forall. intros [name c] Id. destruct (DO name c Id) as (_ & cs & m & pk & evs & Fo & J & _ & _ & _ & -> & _). cbn [fst snd].
      exact (UT cs m (Some pk) evs name Fo J).
    - left. exact Q8. }
  destruct (K SZ fuel D q s docs Q1 Q2 Q3 Q4 Q5 Q6 Q7 HO) as (r & SR & w & W & F). exists r. split; [exact SR|].
  split; [rewrite (answer_rev _ _ _ _ _ _ SR); exact RV|]. split; [|exact EX].
  assert (NM : map fm_name (rs_matches r) = map fst (filter w docs)).
  { clear - F. induction F as [|d f ds fs (E & _) _ IH]; [reflexivity|]. cbn [map]. congruence. }
  split; [|split].
  - rewrite NM. apply nodup_kept. exact (nodup_first _ _ ND).
  - intros f k line If R. assert (Z : exists d, In d docs /\ fm_name f = fst d /\ line_with sf ic rs (snd d) k line).
    { assert (X : forall ds fs, Forall2 (fun d f => fm_name f = fst d /\ forall k line, reported (fm_hits f) k line <-> line_with sf ic rs (snd d) k line) ds fs ->
        In f fs -> exists d, In d ds /\ fm_name f = fst d /\ line_with sf ic rs (snd d) k line).
      { clear - R. intros ds fs X. induction X as [|d f' ds fs (E & B) _ IH]; [intros []|]. intros [<-|I].
        - exists d. split; [left; reflexivity|]. split; [exact E|]. apply B. exact R.
        - destruct (IH I) as (d' & I' & Y). exists d'. split; [right; exact I'|exact Y]. }
      destruct (X _ _ F If) as (d & I & Y). apply filter_In in I. exists d. tauto. }
    destruct Z as ([name c] & Id & E & L). cbn [fst snd] in *. destruct (DO name c Id) as (_ & cs & m & pk & evs & Fo & J & NH & _ & _ & -> & _).
    exists cs, m, (Some pk), evs. rewrite E. auto.
  - intros cs m pk evs name k line Fo J NS OK NX L.
    destruct (ALL cs m pk (Some evs) name Fo J NS) as [(c & Id)|[(why & Ie)|(evs' & E & NOK)]].
    + destruct (DO name c Id) as (_ & cs' & m' & pk' & evs' & Fo' & J' & _ & _ & OK' & -> & _).
      assert (cs' = cs).
      { apply joined_iff in J. apply joined_iff in J'. destruct J as [N1 J], J' as [N2 J'].
        apply join_inj; try assumption; [apply (found_good _ _ _ _ _ _ Fo' G)|apply (found_good _ _ _ _ _ _ Fo G)|congruence]. }
      subst cs'. destruct (found_fun _ _ _ _ _ _ Fo G _ _ Fo') as [_ EQ]. injection EQ as -> <-.
      assert (Iw : In (name, ev_content evs) (filter w docs)) by (apply filter_In; split; [exact Id|]; apply (W _ Id); exists k, line; exact L).
      clear - F Iw L. induction F as [|d f ds fs (E & B) _ IH]; [destruct Iw|]. destruct Iw as [-> |I].
      * exists f. split; [left; reflexivity|]. split; [exact E|]. apply B. exact L.
      * destruct (IH I) as (f' & I' & X). exists f'. split; [right; exact I'|exact X].
    + exfalso. apply NX. apply (in_map fst) in Ie. exact Ie.
    + injection E as <-. contradiction.
Qed.
