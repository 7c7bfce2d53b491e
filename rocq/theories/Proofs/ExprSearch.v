(** Build an index, search it for an expression. *)
From Verif Require Import Model.Base Model.Writer Model.IndexRun Model.Query Model.Reader Model.Syntax Model.Analyze
  Model.Matcher Model.Utf Model.Grep Model.Search Spec.IndexSpec Spec.RunSpec Spec.QuerySpec Spec.Utf8Spec Spec.RegexSpec
  Spec.MatchSpec Spec.RuneProgSpec Spec.ExprSpec Spec.GrepSpec Spec.SearchSpec Proofs.SplitProofs Proofs.GrepProofs Proofs.GrepPos
  Proofs.GrepTop Proofs.MatchTop Proofs.FillProofs Proofs.SearchProofs Proofs.SearchTop Proofs.LookupProofs Proofs.IndexProofs
  Proofs.UtfTop Proofs.AnalyzeTop Proofs.AnalyzeBytes Proofs.EndToEnd Proofs.ExprLines.
From Coq Require Import Sorted.
Local Open Scope N_scope.

(** The files that Search opens are those for which the query holds. *)
Lemma picked : forall (Q : doc -> Prop) docs (ids : list N) sub,
  (forall i, In i ids <-> exists d, nth_error docs (N.to_nat i) = Some d /\ Q d) ->
  Forall2 (fun i d => nth_error docs (N.to_nat i) = Some d) ids sub ->
  forall d, In d sub <-> In d docs /\ Q d.
Proof.
  intros Q docs ids sub H F d. split.
  - intros I. assert (exists i, In i ids /\ nth_error docs (N.to_nat i) = Some d) as (i & Ii & E).
    { clear H. induction F as [|i e ids sub E F IH]; [destruct I|]. destruct I as [->|I]; [exists i; split; [left; reflexivity|exact E]|].
      destruct (IH I) as (j & J & E'). exists j. split; [right; exact J|exact E']. }
    apply H in Ii. destruct Ii as (d' & E' & X). assert (d' = d) by congruence. subst d'. split; [eapply nth_error_In, E|exact X].
  - intros (I & X). apply In_nth_error in I. destruct I as (n & E).
    assert (In (N.of_nat n) ids) as Ii by (apply H; exists d; rewrite Nat2N.id; auto).
    clear H. induction F as [|i e ids sub E' F IH]; [destruct Ii|]. destruct Ii as [->|Ii]; [|right; apply IH, Ii].
    left. rewrite Nat2N.id in E'. congruence.
Qed.

Lemma opened_files : forall cap mem files vs b fuel nctx p q raw auto rev re,
  (1 <= cap)%nat -> files_ok files -> build_index cap mem [] files = Some (vs, b) ->
  wf_prog p -> depth_ok fuel p -> used fuel p re -> wf_query q -> bytes_query q ->
  exists docs ix sub, kept files vs docs /\ ix_open b = Some ix /\
    (forall d, In d sub <-> In d docs /\ sat (fun t => exists u v, snd d = u ++ t ++ v) q) /\
    (raw_ok raw docs ->
      exists r, search fuel (unlimited nctx) raw auto rev ix q re None None = Some (Some r) /\
        rs_matches r = filter has_hits (map (doc_entry fuel nctx p auto) sub) /\ rs_rev r = rev).
Proof.
  intros cap mem files vs b fuel nctx p q raw auto rev re C FO BI WF D U WQ BQ.
  destruct (names_roundtrip cap mem [] files vs b C FO (Forall_nil _) BI) as (docs & ix & K & OP & _ & NM & _).
  destruct (lookup_exact cap mem [] files vs b q None C FO BI WQ BQ) as (docs' & ix' & K' & OP' & LK).
  rewrite OP in OP'. injection OP' as <-. rewrite <- (kept_fun _ _ _ K _ K') in LK. clear K' docs'.
  destruct (LK I) as (ids & EQ & SS & HI).
  destruct (pick_docs (fun d => sat (fun t => exists p s, snd d = p ++ t ++ s) q) docs 0 (slice_list ids) SS) as (sub & F2 & _).
  { intros i. rewrite HI. rewrite N.sub_0_r. split; [intros [_ H]; split; [lia|exact H]|intros [_ H]; auto]. }
  exists docs, ix, sub. split; [assumption|]. split; [assumption|]. split.
  - apply (picked _ docs (slice_list ids)).
    + intros i. rewrite HI. split; [intros [_ H]; exact H|intros H; split; [exact I|exact H]].
    + eapply Forall2_imp; [|exact F2]. cbn beta. intros i d (_ & E). rewrite N.sub_0_r in E. exact E.
  - intros RO. assert (searchable fuel p None None ix raw q re None None sub) as S.
    { constructor; try assumption; try exact I. exists ids. split; [assumption|].
      eapply Forall2_imp; [|exact F2]. cbn beta. intros i d (_ & E). rewrite N.sub_0_r in E. split.
      + specialize (NM (N.to_nat i) d E). rewrite Nnat.N2Nat.id in NM. exact NM.
      + apply RO. eapply nth_error_In. exact E. }
    destruct (search_pure fuel (unlimited nctx) p None None auto rev ix raw q re None None sub S) as (r & E & R & _ & _ & RV).
    exists r. split; [assumption|]. split; [|assumption]. rewrite R.
    destruct (pfold_nomax (unlimited nctx) (map (entry fuel (unlimited nctx) p auto) (sel_docs fuel None None sub)) (Z.le_refl 0)) as (A & _).
    rewrite A, sel_none. reflexivity.
Qed.

(** Without \A the start of the text does not differ from the start of a line. *)
Fixpoint no_text_start (re : regexp) : Prop :=
  let fix all (l : list regexp) : Prop := match l with [] => True | r :: l' => no_text_start r /\ all l' end in
  match re with
  | RZero ZBeginText => False
  | RCapture r | RStar r | RPlus r | RQuest r | RRepeat _ _ r => no_text_start r
  | RConcat l | RAlternate l => all l
  | _ => True
  end.
Lemma no_start_all : forall l, (fix all (l : list regexp) : Prop := match l with [] => True | r :: l' => no_text_start r /\ all l' end) l ->
  Forall no_text_start l.
Proof. induction l as [|r l IH]; intros H; constructor; [apply H|apply IH, H]. Qed.

Definition at_start (p : str) : Prop := before p = None \/ before p = Some 10.
Definition alike (p p' : str) : Prop := before p = before p' \/ (at_start p /\ at_start p').
Lemma alike_app : forall p p' u, alike p p' -> alike (p ++ u) (p' ++ u).
Proof.
  intros p p' u [E|(A & B)]; [left; apply before_app, E|]. destruct u as [|c u _] using rev_ind; [rewrite !app_nil_r; right; auto|].
  left. unfold before. rewrite !app_assoc, !rev_app_distr. reflexivity.
Qed.
Lemma alike_line : forall p p', alike p p' -> (p = [] \/ (exists q, p = q ++ [10])) -> p' = [] \/ exists q, p' = q ++ [10].
Proof.
  intros p p' A H. rewrite before_nil, before_some in *. destruct A as [E|(_ & A)]; [rewrite <- E; exact H|exact A].
Qed.
Lemma alike_word : forall p p', alike p p' -> (ends_word p <-> ends_word p').
Proof.
  intros p p' [E|(A & B)]; [apply ends_word_ctx, E|].
  assert (forall p, at_start p -> ~ ends_word p) as G.
  { intros x X (y & c & -> & W). assert (before (y ++ [c]) = Some c) as Y by (apply before_some; exists y; reflexivity).
    destruct X as [X|X]; rewrite X in Y; [discriminate|]. injection Y as <-. unfold word_byte in W. lia. }
  split; intros X; exfalso; [exact (G p A X)|exact (G p' B X)].
Qed.
Definition start_free (R : str -> str -> str -> Prop) : Prop := forall p p' q w, alike p p' -> R p w q -> R p' w q.
Lemma times_start : forall R, start_free R -> forall k, start_free (times R k).
Proof.
  intros R C. induction k as [|k IH]; intros p p' q w P M; cbn [times] in *; [exact M|].
  destruct M as (u & v & E & M1 & M2). exists u, v. split; [exact E|]. split; [eapply C; eauto|].
  eapply IH; [|exact M2]. apply alike_app, P.
Qed.
Lemma rmatch_start : forall sf re, no_text_start re -> start_free (rmatch sf re).
Proof.
  intros sf. induction re using regexp_ind'; intros NS p p' q w P M; try exact M.
  - destruct M as (-> & M). split; [reflexivity|]. destruct z; cbn [assertion] in *; try exact M.
    + eapply alike_line; eauto.
    + contradiction.
    + rewrite <- (alike_word _ _ P). exact M.
    + rewrite <- (alike_word _ _ P). exact M.
  - exact (IHre NS _ _ _ _ P M).
  - destruct M as (k & M). exists k. eapply times_start; [apply IHre, NS|exact P|exact M].
  - destruct M as (k & M). exists k. eapply times_start; [apply IHre, NS|exact P|exact M].
  - destruct M as [M|M]; [left; exact M|right; eapply IHre; eauto].
  - destruct M as (k & M & L). exists k. split; [|exact L]. eapply times_start; [apply IHre, NS|exact P|exact M].
  - apply AnalyzeSound.rmatch_cat in M. apply AnalyzeSound.rmatch_cat. cbn [no_text_start] in NS. apply no_start_all in NS.
    revert p p' w P M. induction H as [|r rs Hr _ IH]; intros p p' w P M; [exact M|].
    apply Forall_cons_iff in NS. destruct NS as (N1 & NS).
    destruct M as (u & v & E & M1 & M2). exists u, v. split; [exact E|]. split; [eapply Hr; eauto|].
    eapply IH; [exact NS| |exact M2]. apply alike_app, P.
  - apply AnalyzeSound.rmatch_alt in M. apply AnalyzeSound.rmatch_alt. cbn [no_text_start] in NS. apply no_start_all in NS.
    rewrite Forall_forall in H, NS. rewrite Exists_exists in *.
    destruct M as (r & I & M). exists r. split; [exact I|]. eapply H; eauto.
Qed.
Lemma in_line_start : forall sf re b b' e line, no_text_start re -> in_line sf re b e line -> in_line sf re b' e line.
Proof.
  intros sf re b b' e line NS (u & w & v & E & M). exists u, w, v. split; [exact E|]. eapply rmatch_start; [exact NS| |exact M].
  apply alike_app. right. unfold at_start. destruct b, b'; cbn; auto.
Qed.

(** What Go computes for an expression, given the output of the standard library. *)
Record compiled (grow : nat -> nat -> nat) (sf : N -> N) (om : nat) (ex : regexp) (P : xprog) (q : query) (p : prog) : Prop := {
  c_fold : ascii_case sf;
  c_re : wf_re sf om ex;
  c_prog : wf_xprog sf om P;
  c_faithful : faithful sf ex P;
  c_bytes : toByteProg sf om P = Some p;
  c_small : N.of_nat (length (p_inst p)) < 2^32 - 1;
  c_query : exists h, regexp_query grow sf om ex = (h, q) /\ st_shared h = false }.

Lemma compiled_wf : forall grow sf om ex P q p, compiled grow sf om ex P q p ->
  wf_prog p /\ wf_query q /\ bytes_query q /\
  (forall bot eot line, ~ In 10 line -> in_line sf ex bot eot line -> line_match p bot eot line) /\
  (forall bot eot line, ~ In 10 line -> no_surrogates line -> line_match p bot eot line -> in_line sf ex bot eot line) /\
  (forall text k, expr_on_line sf ex text k -> sat (fun t => exists u v, text = u ++ t ++ v) q).
Proof.
  intros grow sf om ex P q p [AC WR WX FA TB SM (h & EQ & SH)].
  destruct (byte_prog_ok sf om P AC WX) as (p1 & E1 & W1 & L1). rewrite TB in E1. injection E1 as <-.
  destruct (byte_prog_utf8 sf om P AC WX) as (p2 & E2 & L2). rewrite TB in E2. injection E2 as <-.
  split; [apply W1, SM|]. split; [eapply prefilter_wf; eauto|]. split; [eapply query_bytes; eauto|]. split; [|split].
  - intros bot eot line NL M. apply L1; [exact NL|]. apply FA in M; [|exact NL].
    eapply rune_match_mono; [|exact M]. intros r u w v _ X. left. exact X.
  - intros bot eot line NL NS M. apply FA; [exact NL|]. apply L2; assumption.
  - intros text k (pre & w & post & -> & _ & _ & M). eapply EndToEnd.sat_mono; [|eapply prefilter; eauto].
    intros t (_ & X). exact X.
Qed.

Definition finds (sf : N -> N) (ex : regexp) (d : doc) (hits : list hit) : Prop :=
  StronglySorted lt (map h_no hits) /\
  forall lines, file_lines (snd d) lines ->
    (forall k line, reported hits k line ->
       (nth_error lines k = Some line /\ (no_surrogates line -> expr_on_line sf ex (snd d) k))) /\
    (forall k line, nth_error lines k = Some line -> expr_on_line sf ex (snd d) k -> reported hits k line).

Lemma hits_find : forall grow sf om ex P q p fuel nctx d, compiled grow sf om ex P q p ->
  no_text_start ex -> ends_well sf ex -> wf_prog p -> depth_ok fuel p ->
  finds sf ex d (hits_of fuel nctx p (snd d)).
Proof.
  intros grow sf om ex P q p fuel nctx d CO NS NE WF D. destruct (compiled_wf _ _ _ _ _ _ _ CO) as (_ & _ & _ & FW & BW & _).
  assert (exists m, used fuel p m) as (m & U).
  { destruct (matcher_init fuel p) as [m|] eqn:E; [|exfalso; eapply init_total; eassumption]. exists m. apply used_init, E. }
  destruct (grep_exact fuel p nctx m (snd d) WF D U) as (m' & out & E & _ & SS & X).
  destruct (grep_text_ok fuel p nctx m (snd d) WF D U) as (m2 & E2 & _). rewrite E in E2. injection E2 as _ <-.
  split; [exact SS|]. intros lines FL. destruct FL as (pieces & SP & FL). specialize (X pieces SP).
  assert (forall k line, nth_error pieces k = Some line -> ~ In 10 line) as NN.
  { intros k line H. destruct SP as (_ & F & _). rewrite Forall_forall in F. apply F. eapply nth_error_In, H. }
  assert (forall k line, nth_error lines k = Some line -> nth_error pieces k = Some line) as LP.
  { intros k line H. destruct FL as [->|(-> & _)]; [|exact H]. rewrite nth_error_app1; [exact H|]. apply nth_error_Some. congruence. }
  split.
  - intros k line R. apply X in R. destruct R as (Nk & M & NP). pose proof (NN k line Nk) as NL.
    assert (no_surrogates line -> in_line sf ex (Nat.eqb k 0) (Nat.eqb (S k) (length pieces)) line) as IL.
    { intros NSu. eapply in_line_start; [exact NS|]. apply BW; [exact NL|exact NSu|exact M]. }
    split.
    + destruct FL as [->|(-> & _)]; [|exact Nk]. destruct (Nat.lt_ge_cases k (length lines)) as [L|L].
      * rewrite nth_error_app1 in Nk by assumption. exact Nk.
      * exfalso. assert (k = length lines) as ->.
        { assert (HL : (k < length (lines ++ [[]]))%nat) by (apply nth_error_Some; congruence). rewrite app_length in HL. cbn [length] in HL. lia. }
        rewrite nth_error_app2, Nat.sub_diag in Nk by lia. injection Nk as <-.
        assert (no_surrogates []) as X0 by (intros r u w v H; destruct H; destruct u; discriminate).
        specialize (IL X0). rewrite app_length in IL. cbn [length] in IL. rewrite (proj2 (Nat.eqb_eq (S (length lines)) _)) in IL by lia.
        apply NP. split; [rewrite app_length; cbn [length]; lia|]. split; [reflexivity|]. unfold fresh.
        destruct lines as [|l0 lines0] eqn:EL; [reflexivity|]. rewrite <- EL in *. destruct (length lines) as [|k1] eqn:LN; [subst lines; discriminate|].
        apply orb_true_iff. right. apply existsb_exists. exists (S k1). split; [|apply Nat.eqb_refl].
        destruct (nth_error lines k1) as [l1|] eqn:N1; [|apply nth_error_None in N1; lia].
        assert (Np : nth_error (lines ++ [[]]) k1 = Some l1) by (rewrite nth_error_app1; [exact N1|lia]).
        assert (RP : reported out k1 l1).
        { apply X. split; [exact Np|]. rewrite app_length, LN. cbn [length]. split; [|intros (LL & _); lia].
          rewrite (proj2 (Nat.eqb_neq (S k1) (S k1 + 1))) by lia. apply FW; [eapply NN, Np|]. eapply in_line_start; [exact NS|].
          apply (NE (in_line_start _ _ _ false _ _ NS IL)). eapply NN, Np. }
        destruct RP as (h & Ih & Eh & _). rewrite <- Eh. apply in_map, Ih.
    + intros NSu. apply expr_lines. exists pieces, line. split; [exact SP|]. split; [exact Nk|]. apply IL, NSu.
  - intros k line Nk M. pose proof (LP k line Nk) as Np. apply X. split; [exact Np|]. split.
    + apply FW; [eapply NN, Np|]. apply expr_lines in M. destruct M as (pc & l & SP' & Nl & M).
      assert (pc = pieces) as -> by (apply splits_iff in SP; apply splits_iff in SP'; congruence).
      rewrite Np in Nl. injection Nl as <-. eapply in_line_start; [exact NS|exact M].
    + intros (LL & -> & FR). destruct FL as [->|(-> & NLast)].
      * rewrite app_length in LL. cbn [length] in LL. assert (HL : (k < length lines)%nat) by (apply nth_error_Some; congruence). lia.
      * apply NLast. apply nth_error_split in Nk. destruct Nk as (a & c & -> & <-). rewrite app_length in LL. cbn [length] in LL.
        destruct c; [|cbn [length] in LL; lia]. apply last_last.
Qed.

Theorem expression_search : forall cap mem files vs b grow sf om ex P q p fuel nctx raw auto rev re,
  (1 <= cap)%nat -> files_ok files -> build_index cap mem [] files = Some (vs, b) ->
  compiled grow sf om ex P q p -> no_text_start ex -> ends_well sf ex ->
  depth_ok fuel p -> used fuel p re ->
  exists docs ix, kept files vs docs /\ ix_open b = Some ix /\
    (raw_ok raw docs ->
      exists r, search fuel (unlimited nctx) raw auto rev ix q re None None = Some (Some r) /\
        (forall f, In f (rs_matches r) -> exists d, In d docs /\ fm_name f = fst d /\ fm_hits f <> [] /\ finds sf ex d (fm_hits f)) /\
        (forall d lines k line, In d docs -> file_lines (snd d) lines -> nth_error lines k = Some line ->
           expr_on_line sf ex (snd d) k ->
           exists f, In f (rs_matches r) /\ fm_name f = fst d /\ reported (fm_hits f) k line)).
Proof.
  intros cap mem files vs b grow sf om ex P q p fuel nctx raw auto rev re C FO BI CO NS NE D U.
  destruct (compiled_wf _ _ _ _ _ _ _ CO) as (WF & WQ & BQ & _ & _ & PF).
  destruct (opened_files cap mem files vs b fuel nctx p q raw auto rev re C FO BI WF D U WQ BQ) as (docs & ix & sub & K & OP & SU & S).
  exists docs, ix. split; [assumption|]. split; [assumption|]. intros RO. destruct (S RO) as (r & ES & R & _). exists r. split; [exact ES|].
  pose proof (fun d => hits_find _ _ _ _ _ _ _ fuel nctx d CO NS NE WF D) as HF. split.
  - intros f If. rewrite R in If. apply filter_In in If. destruct If as (If & HH). apply in_map_iff in If. destruct If as (d & <- & Id).
    exists d. split; [apply SU, Id|]. split; [reflexivity|]. split; [|apply HF].
    unfold has_hits in HH. cbn [doc_entry fm_hits] in *. destruct (hits_of fuel nctx p (snd d)); [discriminate|discriminate].
  - intros d lines k line Id FL Nk M. destruct (HF d) as (_ & HF'). destruct (HF' lines FL) as (_ & RP). specialize (RP k line Nk M).
    exists (doc_entry fuel nctx p auto d). split; [|split; [reflexivity|exact RP]].
    rewrite R. apply filter_In. split; [apply in_map, SU; split; [exact Id|eapply PF, M]|].
    unfold has_hits. cbn [doc_entry fm_hits]. destruct RP as (h & Ih & _). destruct (hits_of fuel nctx p (snd d)); [destruct Ih|reflexivity].
Qed.
