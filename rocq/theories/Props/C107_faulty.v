(** C107: texts that are no patterns are refused, and the answer is an error. The parser of
    regexp/syntax, Search and searchAll are models; what a fault is, is said in Spec/FaultSpec.v. *)
From Verif Require Import Model.Base Model.GoStr Model.Json Model.Config Model.Query Model.Utf8 Model.Syntax Model.Matcher Model.Utf Model.Analyze Model.Grep Model.Search Model.Api
  Model.Request Model.Wire Model.Whole Model.GoRegexp Model.GoParse Spec.Utf8Spec Spec.RegexSpec Spec.RuneProgSpec Spec.ParsedSpec Spec.LiteralSpec Spec.Names Spec.PatternSpec Spec.FaultSpec
  Props.C01_prefilter Proofs.UtfTop Proofs.ExprSearch Proofs.PatternParse Proofs.FaultProofs Props.C106_patterns.
From Coq Require Import Lia Permutation.
Local Open Scope N_scope.

(** The text has a fault. Left out: more than 997 bytes, and what C106 leaves out for the patterns
    before the fault. *)
Definition fault_in (sf : N -> N) (om : nat) (ic : bool) (s : str) : Prop :=
  exists ps, faulty ps s /\ (length s <= 997)%nat /\ forall p, In p ps -> (ic = true -> forall r, In r (chars_of p) -> 0x1044f < r -> sf r = r) /\ classes_ok sf om ic p.

Theorem C107_refused_partial : forall sf om ic s, folding sf om ->
  (fault_in sf om ic s -> Parse sf om (GetRegexpPattern s ic) = Refused) /\ (fault_in sf om false s -> Parse sf om s = Refused).
Proof.
  intros sf om ic s FO. split; intros (ps & FA & L & OK).
  - apply (fault_search sf om ic ps s FO FA); [|exact L]. apply Forall_forall. intros p I. destruct (OK p I) as (A & B). split; [intros r R E; apply A; assumption|exact B].
  - apply (fault_filter sf om ps s FO FA); [|exact L]. apply Forall_forall. intros p I. apply (OK p I).
Qed.
Print Assumptions C107_refused_partial.

(** A search with a fault in the pattern or in a filter, whatever the others are: every repository
    gives an error. *)
Definition fault_of (sf : N -> N) (om : nat) (q : search_request) : Prop :=
  (q_literal q = false /\ fault_in sf om (q_icase q) (q_query q)) \/ fault_in sf om false (q_files q) \/ fault_in sf om false (q_exclude q).
Lemma fault_nonempty : forall ps s, faulty ps s -> s <> [].
Proof.
  intros ps s FA E. apply (f_equal (@length N)) in E. destruct FA as [pt s rest B|pt q ps s B|x rest X|ps s x rest B X|ps s pt a x y rest B W X Y|ps s pt a b rest B W BC|ps s B]; rewrite ?app_length in E; cbn [length] in E.
  - lia.
  - inversion B; subst; rewrite !app_length in E; cbn [length] in E; lia.
  - lia.
  - lia.
  - lia.
  - destruct BC; rewrite !app_length in E; cbn [length] in E; lia.
  - lia.
Qed.
Theorem C107_repo_partial : forall grow sf om beyond fuel, folding sf om -> forall q s, fault_of sf om q ->
  search_repo fuel (compile_pattern sf om grow fuel beyond) QuoteMeta q s = Some None.
Proof.
  intros grow sf om beyond fuel FO q s H. unfold search_repo.
  assert (FI : forall t, fault_in sf om false t -> optional_filter (compile_pattern sf om grow fuel beyond) t = None).
  { intros t F. destruct (C107_refused_partial sf om false t FO) as (_ & R). specialize (R F). destruct F as (ps & FA & _). unfold optional_filter. destruct t as [|c t]; [destruct (fault_nonempty ps [] FA eq_refl)|].
    unfold compile_pattern. rewrite R. reflexivity. }
  destruct H as [(QL & F)|[F|F]].
  - rewrite QL. unfold compile_pattern at 1. rewrite (proj1 (C107_refused_partial sf om _ _ FO) F). reflexivity.
  - destruct (compile_pattern sf om grow fuel beyond (GetRegexpPattern _ _)) as [(tq, re)|]; [|reflexivity]. rewrite (FI _ F). reflexivity.
  - destruct (compile_pattern sf om grow fuel beyond (GetRegexpPattern _ _)) as [(tq, re)|]; [|reflexivity]. destruct (optional_filter _ (q_files q)); [|reflexivity]. rewrite (FI _ F). reflexivity.
Qed.
Print Assumptions C107_repo_partial.

(** The answer of the server to it is the error, in whatever order the searches end. *)
Theorem C107_answer_partial : forall grow sf om beyond fuel, folding sf om -> forall q servers, fault_of sf om q ->
  q_repos q <> [] -> (forall r, In r (q_repos q) -> get servers r <> None) ->
  exists arr, run_searches fuel (compile_pattern sf om grow fuel beyond) QuoteMeta q servers (q_repos q) = Some arr /\
    forall arr', Permutation arr arr' -> forall short msg dur, search_body short msg (q_stats q) dur arr' = write_json short (enc_error msg).
Proof.
  intros grow sf om beyond fuel FO q servers H NE KN.
  assert (R : forall l, (forall r, In r l -> get servers r <> None) -> run_searches fuel (compile_pattern sf om grow fuel beyond) QuoteMeta q servers l = Some (map (fun r => (r, inr tt)) l)).
  { induction l as [|r l IH]; intros K; [reflexivity|]. cbn [run_searches map]. destruct (get servers r) as [s|] eqn:G; [|destruct (K r (or_introl eq_refl) G)]. cbn [bind].
    rewrite (C107_repo_partial grow sf om beyond fuel FO q (snd s) H). cbn [bind]. rewrite IH by (intros r' I; apply K; right; exact I). reflexivity. }
  eexists. split; [apply R, KN|]. intros arr' P short msg dur. destruct arr' as [|(r, x) arr'].
  - apply Permutation_sym, Permutation_nil, map_eq_nil in P. contradiction.
  - assert (I : In (r, x) (map (fun r => (r, inr tt)) (q_repos q))) by (eapply Permutation_in; [apply Permutation_sym, P|left; reflexivity]).
    apply in_map_iff in I. destruct I as (r' & E & _). injection E as _ <-. reflexivity.
Qed.
Print Assumptions C107_answer_partial.

(** Faults: (a, a)b, *a, (+, a**, a{1001}, (a{2,1} and a\. *)
Lemma a_written : written Atom (PChar 97) [97].
Proof. apply wr_char; [apply utf8_1; lia|]. intros I. cbn in I. repeat (destruct I as [I|I]; [discriminate I|]). exact I. Qed.
Lemma a_seq : written Seq (PThen (PChar 97) PEmpty) [97].
Proof. apply (wr_cons _ _ [97] []); [apply wr_once, a_written|apply wr_nil]. Qed.
Lemma digits_decimal : forall n s vs, s <> [] -> (forall s', s = 48 :: s' -> s' = []) -> Forall2 decimal_digit s vs -> n = fold_left (fun r v => 10 * r + v) vs 0 -> decimal n s.
Proof. intros n s vs A B C D. split; [exact A|]. split; [exact B|]. exists vs. auto. Qed.
Ltac all := repeat (apply Forall_cons; [cbn; auto|]); apply Forall_nil.
Example C107_faults : fault_in ascii_fold 4 true (text "(a") /\ fault_in ascii_fold 4 true (text "a)b") /\ fault_in ascii_fold 4 true (text "*a") /\ fault_in ascii_fold 4 true (text "a(+") /\
  fault_in ascii_fold 4 true (text "a**") /\ fault_in ascii_fold 4 true (text "a{1001}") /\ fault_in ascii_fold 4 true (text "(a{2,1}") /\ fault_in ascii_fold 4 true (text "a\").
Proof.
  assert (OK : forall ps s, faulty ps s -> (length s <= 997)%nat -> Forall (fun p => chars_of p = [97] \/ chars_of p = []) ps -> Forall (fun p => classes_of p = []) ps -> fault_in ascii_fold 4 true s).
  { intros ps s FA L C D. exists ps. split; [exact FA|]. split; [exact L|]. rewrite Forall_forall in C, D. intros p I. split.
    - intros _ r R G. destruct (C p I) as [E|E]; rewrite E in R; [destruct R as [<-|[]]; lia|destruct R].
    - intros neg ms X. rewrite (D p I) in X. destruct X. }
  assert (B : begun [PThen (PChar 97) PEmpty] [97]) by apply be_first, a_seq. assert (B0 : begun [PEmpty] []) by apply be_first, wr_nil.
  repeat split.
  - eapply OK; [apply (fa_unclosed (PThen (PChar 97) PEmpty) PEmpty []), (be_group [PEmpty] _ [] [97] B0 a_seq)|cbn; lia|all|all].
  - eapply OK; [apply (fa_close _ [97] [98] B)|cbn; lia|all|all].
  - eapply OK; [apply (fa_nothing 42 [97]); left; reflexivity|cbn; lia|all|all].
  - eapply OK; [apply (fa_nothing_in _ [97] 43 [] B); right; left; reflexivity|cbn; lia|all|all].
  - eapply OK; [apply (fa_twice _ [] _ [97] 42 42 [] B0 a_written); left; reflexivity|cbn; lia|all|all].
  - eapply OK; [apply (fa_count _ [] _ [97] ([123] ++ [49; 48; 48; 49] ++ [125]) [] B0 a_written), (bc_exact 1001 [49; 48; 48; 49]); [|lia]|cbn; lia|all|all].
    apply (digits_decimal _ _ [1; 0; 0; 1]); [discriminate|intros s' E; discriminate E| |reflexivity]. repeat constructor; lia.
  - eapply OK; [apply (fa_count _ [40] _ [97] ([123] ++ [50] ++ [44] ++ [49] ++ [125]) [] (be_group [PEmpty] _ [] [] B0 wr_nil) a_written), (bc_between 2 1 [50] [49]); [| |lia]|cbn; lia|all|all].
    + apply (digits_decimal _ _ [2]); [discriminate|intros s' E; discriminate E| |reflexivity]. repeat constructor; lia.
    + apply (digits_decimal _ _ [1]); [discriminate|intros s' E; discriminate E| |reflexivity]. repeat constructor; lia.
  - eapply OK; [apply (fa_backslash _ [97] B)|cbn; lia|all|all].
Qed.
