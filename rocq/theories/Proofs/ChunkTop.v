(** The chunked line scan with the real matcher. *)
From Verif Require Import Model.Base Model.Grep Model.GrepChunk Model.Matcher Spec.MatchSpec Spec.GrepSpec Spec.ChunkSpec
  Proofs.SplitProofs Proofs.GrepProofs Proofs.GrepPos Proofs.FillProofs Proofs.MatchTop Proofs.GrepTop Proofs.ChunkProofs.
From Coq Require Import Sorted.
Local Open Scope nat_scope.

Definition ans2 (fuel : nat) (p : prog) (bt et : bool) (b : bytes) : option nat :=
  match matcher_init fuel p with
  | None => None
  | Some m => match match_bytes fuel m b bt et with Some (_, r) => r | None => None end
  end.
Lemma match2_ok : forall fuel p, wf_prog p -> depth_ok fuel p ->
  forall m b bt et, used fuel p m -> exists m', match_bytes fuel m b bt et = Some (m', ans2 fuel p bt et b) /\ used fuel p m'.
Proof.
  intros fuel p WF D m b bt et U. unfold ans2.
  destruct (matcher_init fuel p) as [m0|] eqn:E0; [|exfalso; eapply init_total; eassumption].
  assert (U0 : used fuel p m0) by (constructor; assumption).
  destruct (match_first_line fuel p m b bt et WF D U) as (m' & r & E & _).
  destruct (match_first_line fuel p m0 b bt et WF D U0) as (m0' & r0 & E' & _).
  exists m'. rewrite E'. rewrite (match_reuse _ _ _ _ _ _ _ _ _ _ _ WF D U U0 E E') in E.
  split; [assumption|]. exact (used_match fuel p m b bt et m' r0 U E).
Qed.
Lemma ans2_first : forall fuel p, wf_prog p -> depth_ok fuel p -> forall b bt et, first_hit (line_match p) bt et b (ans2 fuel p bt et b).
Proof.
  intros fuel p WF D b bt et. unfold ans2.
  destruct (matcher_init fuel p) as [m0|] eqn:E0; [|exfalso; eapply init_total; eassumption].
  assert (U0 : used fuel p m0) by (constructor; assumption).
  destruct (match_first_line fuel p m0 b bt et WF D U0) as (m0' & r0 & E' & H). rewrite E'. exact H.
Qed.

Section Numbers.
Variable P : bool -> bool -> bytes -> Prop.
Variable ans : bool -> bool -> bytes -> option nat.
Hypothesis ans_ok : forall b bt et, first_hit P bt et b (ans bt et b).

Lemma hits_in : forall ls bt base l n, Forall nonl ls ->
  (In (l, n) (hits ans true bt base ls) <-> exists k w, n = base + k /\ nth_error ls k = Some w /\ l = w ++ [10%N] /\ P (bt && Nat.eqb k 0) false w).
Proof.
  induction ls as [|w ls IH]; intros bt base l n F.
  - split; [intros []|]. intros (k & w & _ & X & _). destruct k; discriminate.
  - apply Forall_cons_iff in F. destruct F as (Fw & F). cbn [hits]. rewrite in_app_iff, IH by exact F. cbn [counted]. split.
    + intros [H|(k & v & -> & Hk & -> & HP)].
      * destruct (hitb ans bt false w) eqn:E; [|destruct H]. destruct H as [H|[]]. injection H as <- <-. exists 0, w.
        rewrite Nat.add_0_r. repeat split. cbn [Nat.eqb]. rewrite andb_true_r. apply (hitb_iff P ans ans_ok); assumption.
      * exists (S k), v. split; [lia|]. split; [exact Hk|]. split; [reflexivity|]. cbn [Nat.eqb]. rewrite andb_false_r. exact HP.
    + intros ([|k] & v & -> & Hk & -> & HP).
      * left. injection Hk as <-. cbn [Nat.eqb] in HP. rewrite andb_true_r in HP. apply (hitb_iff P ans ans_ok) in HP; [|exact Fw]. rewrite HP.
        rewrite Nat.add_0_r. left. reflexivity.
      * right. exists k, v. split; [lia|]. split; [exact Hk|]. split; [reflexivity|]. cbn [Nat.eqb] in HP. rewrite andb_false_r in HP. exact HP.
Qed.
Lemma hits_sorted : forall ls bt base, StronglySorted lt (map snd (hits ans true bt base ls)) /\
  Forall (fun n => base <= n < base + length ls) (map snd (hits ans true bt base ls)).
Proof.
  induction ls as [|w ls IH]; intros bt base; [split; constructor|]. cbn [hits counted length]. destruct (IH false (base + 1)) as (A & B).
  assert (C : Forall (fun n => base <= n < base + S (length ls)) (map snd (hits ans true false (base + 1) ls))).
  { eapply Forall_impl; [|exact B]. cbn beta. lia. }
  destruct (hitb ans bt false w); cbn [app map snd]; [|auto]. split; constructor; try assumption; [|lia].
  eapply Forall_impl; [|exact B]. cbn beta. lia.
Qed.

Definition calls (bt : bool) (ls : list bytes) (x : bytes) : list (bytes * nat) :=
  hits ans true bt 1 ls ++ tail ans (bt && is_nil ls) true (1 + length ls) x.

Lemma raw_cut : forall ls x rl, Forall nonl (ls ++ [x]) -> raw_lines (nlf ls ++ x) rl ->
  rl = map (fun w => w ++ [10%N]) ls ++ (if is_nil x then [] else [x]).
Proof.
  induction ls as [|w ls IH]; intros x rl F (EC & NI & SH).
  - cbn [nlf map concat app] in *. apply Forall_inv in F. destruct rl as [|l rl].
    + cbn in EC. subst x. reflexivity.
    + destruct (SH [] l rl eq_refl) as (v & Nv & [->|(-> & ->)]).
      * exfalso. apply F. rewrite <- EC. cbn. rewrite !in_app_iff. left. right. left. reflexivity.
      * cbn in EC. rewrite app_nil_r in EC. subst v. destruct x; [exfalso; apply NI; left; reflexivity|reflexivity].
  - apply Forall_cons_iff in F. destruct F as (Fw & F). rewrite nlf_cons, <- app_assoc in EC. cbn [app] in EC.
    destruct rl as [|l rl]; [destruct w; discriminate|].
    destruct (SH [] l rl eq_refl) as (v & Nv & HV).
    assert (l = w ++ [10%N] /\ concat rl = nlf ls ++ x) as (-> & EC').
    { destruct HV as [->|(-> & ->)].
      - cbn [concat] in EC. rewrite <- app_assoc in EC. cbn [app] in EC.
        assert (X : forall a b c d, nonl a -> nonl c -> a ++ 10%N :: b = c ++ 10%N :: d -> a = c /\ b = d).
        { clear. induction a as [|y a IH]; intros b c d Na Nc E; destruct c as [|z c]; cbn [app] in E.
          - injection E as ->. auto.
          - injection E as E1 E2. exfalso. apply Nc. left. congruence.
          - injection E as E1 E2. exfalso. apply Na. left. congruence.
          - injection E as -> E. destruct (IH b c d) as (-> & ->); [intros X; apply Na; right; exact X|intros X; apply Nc; right; exact X|exact E|auto]. }
        destruct (X v _ w _ Nv Fw EC) as (-> & ->). auto.
      - exfalso. cbn in EC. rewrite app_nil_r in EC. subst v. apply Nv. rewrite in_app_iff. right. left. reflexivity. }
    cbn [map app]. f_equal. apply IH; [exact F|]. split; [exact EC'|]. split; [intros X; apply NI; right; exact X|].
    intros a l b E. apply (SH ((w ++ [10%N]) :: a) l b). rewrite E. reflexivity.
Qed.

Lemma calls_ok : forall ls x, Forall nonl (ls ++ [x]) -> numbered_matches P (nlf ls ++ x) (calls true ls x).
Proof.
  intros ls x F. destruct (hits_sorted ls true 1) as (SS & B). split.
  - unfold calls, tail. rewrite map_app. destruct (is_nil x); [cbn [map]; rewrite app_nil_r; exact SS|].
    destruct (hitb ans (true && is_nil ls) true x); [|cbn [map]; rewrite app_nil_r; exact SS]. cbn [map snd].
    revert SS B. generalize (map snd (hits ans true true 1 ls)). intros l SS B. induction SS as [|y l SS IH Fy]; cbn [app]; [constructor; constructor|].
    apply Forall_cons_iff in B. destruct B as (By & B). constructor; [apply IH, B|]. apply Forall_app. split; [exact Fy|]. constructor; [lia|constructor].
  - intros rl RL l n. rewrite (raw_cut ls x rl F RL). pose proof F as F'. apply Forall_app in F. destruct F as (F & Fx). apply Forall_inv in Fx.
    assert (LM : forall k w, nth_error (ls ++ [x]) k = Some w ->
      (line_matches P (nlf ls ++ x) k <-> P (Nat.eqb k 0) (Nat.eqb (S k) (length (ls ++ [x]))) w)).
    { intros k w Hk. assert (SP : splits (nlf ls ++ x) (ls ++ [x])) by (apply splits_iff; symmetry; apply split_nl_unique; exact F').
      split.
      - intros (pcs & line & SP' & Hl & HP). apply splits_iff in SP. apply splits_iff in SP'. rewrite <- SP in SP'. subst pcs.
        rewrite Hk in Hl. injection Hl as <-. exact HP.
      - intros HP. exists (ls ++ [x]), w. auto. }
    unfold calls. rewrite in_app_iff, (hits_in ls true 1 l n F). split.
    + intros [(k & w & -> & Hk & -> & HP)|HT].
      * exists k. split; [reflexivity|]. assert (k < length ls) by (apply nth_error_Some; congruence). split.
        -- rewrite nth_error_app1 by (rewrite map_length; assumption). erewrite map_nth_error by exact Hk. reflexivity.
        -- apply (LM k w); [rewrite nth_error_app1 by assumption; exact Hk|].
           replace (S k =? length (ls ++ [x])) with false; [exact HP|]. symmetry. apply Nat.eqb_neq. rewrite app_length. cbn. lia.
      * unfold tail in HT. destruct (is_nil x) eqn:EX; [destruct HT|]. destruct (hitb ans (true && is_nil ls) true x) eqn:EH; [|destruct HT].
        destruct HT as [HT|[]]. injection HT as <- <-. exists (length ls). split; [reflexivity|]. split.
        -- rewrite nth_error_app2 by (rewrite map_length; lia). rewrite map_length, Nat.sub_diag. reflexivity.
        -- apply (LM (length ls) x); [rewrite nth_error_app2, Nat.sub_diag by lia; reflexivity|].
           rewrite app_length. cbn [length]. rewrite Nat.add_1_r, Nat.eqb_refl.
           replace (length ls =? 0) with (true && is_nil ls)%bool by (destruct ls; reflexivity). apply (hitb_iff P ans ans_ok); assumption.
    + intros (k & -> & Hk & HM). destruct (Nat.lt_ge_cases k (length ls)) as [L|L].
      * left. rewrite nth_error_app1 in Hk by (rewrite map_length; exact L).
        destruct (nth_error ls k) as [w|] eqn:EW; [|exfalso; apply nth_error_None in EW; lia].
        erewrite map_nth_error in Hk by exact EW. injection Hk as <-. exists k, w. split; [reflexivity|]. split; [exact EW|]. split; [reflexivity|].
        apply (LM k w) in HM; [|rewrite nth_error_app1 by exact L; exact EW].
        replace (S k =? length (ls ++ [x])) with false in HM; [exact HM|]. symmetry. apply Nat.eqb_neq. rewrite app_length. cbn. lia.
      * right. rewrite nth_error_app2 in Hk by (rewrite map_length; exact L). rewrite map_length in Hk.
        destruct (is_nil x) eqn:EX; [destruct (k - length ls); discriminate|].
        destruct (k - length ls) as [|j] eqn:EJ; [|destruct j; discriminate]. assert (k = length ls) by lia. subst k. injection Hk as <-.
        apply (LM (length ls) x) in HM; [|rewrite nth_error_app2, Nat.sub_diag by lia; reflexivity].
        rewrite app_length in HM. cbn [length] in HM. rewrite Nat.add_1_r, Nat.eqb_refl in HM.
        replace (length ls =? 0) with (true && is_nil ls)%bool in HM by (destruct ls; reflexivity).
        apply (hitb_iff P ans ans_ok) in HM; [|exact Fx]. unfold tail. rewrite EX, HM. left. reflexivity.
Qed.

(** Without counting, the same lines. *)
Lemma hits_fst : forall ls bt base base', map fst (hits ans false bt base ls) = map fst (hits ans true bt base' ls).
Proof.
  induction ls as [|w ls IH]; intros bt base base'; [reflexivity|]. cbn [hits]. rewrite !map_app. f_equal; [|apply IH].
  destruct (hitb ans bt false w); reflexivity.
Qed.
Lemma tail_fst : forall bt base base' x, map fst (tail ans bt true base x) = map fst (tail ans bt true base' x).
Proof. intros. unfold tail. destruct (is_nil x); [reflexivity|]. destruct (hitb ans bt true x); reflexivity. Qed.
End Numbers.

Lemma feed_ignore : forall {A} (fn : A -> bytes -> nat -> A * verdict), (forall a l n n', fn a l n = fn a l n') ->
  forall cs cs' a, map fst cs = map fst cs' -> feed_calls fn a cs = feed_calls fn a cs'.
Proof.
  intros A fn H. induction cs as [|[l n] cs IH]; intros [|[l' n'] cs'] a E; try discriminate; [reflexivity|].
  injection E as <- E. cbn [feed_calls]. rewrite (H a l n n'). destruct (fn a l n') as [a' []]; [apply IH, E|reflexivity|reflexivity].
Qed.

Section Top.
Variables (fuel : nat) (p : prog).
Hypothesis WF : wf_prog p.
Hypothesis D : depth_ok fuel p.
Hypothesis NE : forall et, ~ line_match p false et [].

Definition calls_of (text : bytes) : list (bytes * nat) :=
  calls (ans2 fuel p) true (removelast (split_nl text)) (last (split_nl text) []).

Lemma cut : forall text, text = nlf (removelast (split_nl text)) ++ last (split_nl text) [] /\
  Forall nonl (removelast (split_nl text) ++ [last (split_nl text) []]).
Proof.
  intros text. rewrite <- (app_removelast_last [] (split_nl_nonempty text)).
  split; [|apply split_nl_Forall]. rewrite <- nlf_cut by apply split_nl_nonempty. symmetry. apply joinl_split.
Qed.
Lemma calls_of_ok : forall text, numbered_matches (line_match p) text (calls_of text).
Proof.
  intros text. destruct (cut text) as (E & F). rewrite E at 1. apply calls_ok; [apply ans2_first; assumption|exact F].
Qed.

Lemma scan_ok : forall {A} (fn : A -> bytes -> nat -> A * verdict) need g cap r m a, used fuel p m ->
  (need = false -> forall a l n n', fn a l n = fn a l n') ->
  short_lines cap (rd_content r) -> length (rd_content r) < g ->
  let f := feed_calls fn a (calls_of (rd_content r)) in
  exists m', chunks (match_bytes fuel) fn need g cap m a r [] true false 1 =
    Some (m', fst f, match snd f with Some e => e | None => if rd_ok r then EndNil else EndRead end) /\ used fuel p m'.
Proof.
  intros A fn need g cap r m a U NN SL G f. destruct (cut (rd_content r)) as (E & F).
  assert (SH : Forall (fun l => length l < cap) (removelast (split_nl (rd_content r)) ++ [last (split_nl (rd_content r)) []])).
  { rewrite <- (app_removelast_last [] (split_nl_nonempty _)). apply SL. apply splits_iff. reflexivity. }
  assert (C0 : 0 < cap).
  { apply Forall_app in SH. destruct SH as (_ & SH). apply Forall_inv in SH. lia. }
  destruct (chunks_ok matcher (line_match p) (match_bytes fuel) (used fuel p) (ans2 fuel p) (match2_ok fuel p WF D) (ans2_first fuel p WF D) need) with
    (fn := fn) (fuel := g) (cap := cap) (r := r) (buf := @nil N) (bt := true) (base := 1) (s := m) (a := a)
    (ls := removelast (split_nl (rd_content r))) (x := last (split_nl (rd_content r)) [])
    as (m' & EQ & U'); try assumption.
  { intros et. destruct (hitb (ans2 fuel p) false et []) eqn:EH; [|reflexivity]. exfalso. apply (NE et).
    apply (hitb_iff (line_match p) (ans2 fuel p) (ans2_first fuel p WF D)); [intros []|exact EH]. }
  exists m'. split; [|exact U']. rewrite EQ.
  replace (feed_calls fn a _) with f; [reflexivity|]. unfold f, calls_of, calls. destruct need.
  - reflexivity.
  - apply feed_ignore; [apply NN; reflexivity|]. rewrite !map_app. f_equal; [symmetry; apply hits_fst|apply tail_fst].
Qed.
End Top.

(** ** Grep.Reader *)
Lemma on_line_ignores : forall dec fl name, fl_N fl = false -> forall o l n n', on_line dec fl name o l n = on_line dec fl name o l n'.
Proof. intros dec fl name E o l n n'. unfold on_line. rewrite E. reflexivity. Qed.

Lemma feed_print : forall dec fl name cs o, fl_L fl = false -> fl_C fl = false ->
  feed_calls (on_line dec fl name) o cs =
    (mkOut (g_stdout o ++ concat (map (fun x => prefix fl name ++ (if fl_N fl then dec (snd x) ++ [58%N] else []) ++ fst x) cs))
       (g_stderr o) (g_match o || negb (is_nil cs)) (g_count o), None).
Proof.
  intros dec fl name cs. induction cs as [|[l n] cs IH]; intros o EL EC.
  - cbn. rewrite app_nil_r, orb_false_r. destruct o; reflexivity.
  - cbn [feed_calls map concat is_nil negb fst snd]. unfold on_line at 1. rewrite EL, EC.
    destruct (fl_N fl) eqn:EN; rewrite IH by assumption; unfold put; cbn [g_stdout g_stderr g_match g_count];
      rewrite <- !app_assoc, ?orb_true_l, ?orb_true_r; reflexivity.
Qed.
Lemma feed_count : forall dec fl name cs o, fl_L fl = false -> fl_C fl = true ->
  feed_calls (on_line dec fl name) o cs = (mkOut (g_stdout o) (g_stderr o) (g_match o || negb (is_nil cs)) (g_count o + length cs), None).
Proof.
  intros dec fl name cs. induction cs as [|[l n] cs IH]; intros o EL EC.
  - cbn. rewrite orb_false_r, Nat.add_0_r. destruct o; reflexivity.
  - cbn [feed_calls is_nil negb length]. unfold on_line at 1. rewrite EL, EC, IH by assumption. cbn [g_stdout g_stderr g_match g_count].
    rewrite orb_true_l, orb_true_r. do 2 f_equal. lia.
Qed.

Theorem reader_prints : forall dec errmsg fl name fuel p g cap r m o, wf_prog p -> depth_ok fuel p -> used fuel p m ->
  (forall et, ~ line_match p false et []) -> short_lines cap (rd_content r) -> length (rd_content r) < g ->
  exists out m' o', numbered_matches (line_match p) (rd_content r) out /\
    grep_reader dec errmsg fl name (match_bytes fuel) g cap m o r = Some (m', o') /\ used fuel p m' /\
    g_stdout o' = g_stdout o ++ printed dec name (fl_L fl) (fl_C fl) (fl_N fl) (fl_H fl) out /\
    (g_match o' = true <-> g_match o = true \/ out <> []) /\
    g_stderr o' = g_stderr o ++ (if (rd_ok r || (fl_L fl && negb (is_nil out)))%bool then [] else name ++ [58%N; 32%N] ++ errmsg ++ [10%N]).
Proof.
  intros dec errmsg fl name fuel p g cap r m o WF D U NE SL G. set (out := calls_of fuel p (rd_content r)).
  destruct (scan_ok fuel p WF D NE (on_line dec fl name) (fl_N fl) g cap r m (mkOut (g_stdout o) (g_stderr o) (g_match o) 0) U
    (on_line_ignores dec fl name) SL G) as (m' & E & U').
  fold out in E. exists out, m'. pose proof (calls_of_ok fuel p WF D (rd_content r)) as NM. fold out in NM.
  unfold grep_reader. rewrite E. cbn [bind]. clear E. generalize out NM. clear out NM. intros out NM.
  assert (MM : (g_match o || negb (is_nil out))%bool = true <-> g_match o = true \/ out <> []).
  { rewrite orb_true_iff. destruct out; cbn; intuition congruence. }
  destruct (fl_L fl) eqn:EL; [|destruct (fl_C fl) eqn:EC].
  - destruct out as [|[l n] out].
    + cbn [feed_calls fst snd]. cbn [is_nil negb] in MM. rewrite orb_false_r in MM. cbn [printed is_nil negb andb]. rewrite orb_false_r, app_nil_r.
      destruct (rd_ok r); (eexists; split; [exact NM|]; split; [cbn [g_count]; rewrite andb_false_r; reflexivity|]);
        (split; [exact U'|]); cbn [g_stdout g_match g_stderr]; rewrite ?app_nil_r; auto.
    + cbn [feed_calls]. unfold on_line. rewrite EL. cbn [fst snd put g_stdout g_stderr g_match g_count]. eexists. split; [exact NM|].
      split; [reflexivity|]. split; [exact U'|]. cbn [printed is_nil negb andb g_stdout g_match g_stderr put] in *. rewrite orb_true_r, app_nil_r.
      rewrite orb_true_r in MM. auto.
  - rewrite (feed_count dec fl name out _ EL EC). cbn [fst snd g_stdout g_stderr g_match g_count Nat.add andb]. rewrite orb_false_r.
    destruct (rd_ok r); (destruct out as [|c out]; (eexists; split; [exact NM|]; split; [reflexivity|]); (split; [exact U'|]));
      unfold put; cbn [printed g_stdout g_match g_stderr g_count length Nat.ltb Nat.leb]; rewrite ?app_nil_r; auto.
  - rewrite (feed_print dec fl name out _ EL EC). cbn [fst snd g_stdout g_stderr g_match g_count andb].
    assert (PP : concat (map (fun x => prefix fl name ++ (if fl_N fl then dec (snd x) ++ [58%N] else []) ++ fst x) out) =
      printed dec name false false (fl_N fl) (fl_H fl) out).
    { unfold printed. destruct out as [|c out]; [reflexivity|]. unfold prefix.
      destruct (fl_N fl); [|reflexivity]. f_equal. apply map_ext. intros x. rewrite <- app_assoc. reflexivity. }
    rewrite orb_false_r, <- PP.
    destruct (rd_ok r); (eexists; split; [exact NM|]; split; [reflexivity|]); (split; [exact U'|]);
      cbn [g_stdout g_match g_stderr]; rewrite ?app_nil_r; auto.
Qed.

Theorem callback_calls : forall fuel p g cap r m, wf_prog p -> depth_ok fuel p -> used fuel p m ->
  (forall et, ~ line_match p false et []) -> short_lines cap (rd_content r) -> length (rd_content r) < g ->
  exists out, numbered_matches (line_match p) (rd_content r) out /\
    forall A (fn : A -> bytes -> nat -> A * verdict) a, exists m',
      let f := feed_calls fn a out in
      grep_chunked (match_bytes fuel) fn g cap m a r =
        Some (m', fst f, match snd f with Some e => e | None => if rd_ok r then EndNil else EndRead end) /\ used fuel p m'.
Proof.
  intros fuel p g cap r m WF D U NE SL G. exists (calls_of fuel p (rd_content r)). split; [apply calls_of_ok; assumption|].
  intros A fn a. apply (scan_ok fuel p WF D NE fn true g cap r m a U); [discriminate|exact SL|exact G].
Qed.

(** ** A line that fills the buffer *)
Lemma full_stuck : forall {S A} mt (fn : A -> bytes -> nat -> A * verdict) need cap (r : reader) buf, nonl buf -> length buf = cap ->
  forall g (s : S) a bt et n, chunks mt fn need g cap s a r buf bt et n = None.
Proof.
  intros S A mt fn need cap r buf NB L. induction g as [|g IH]; intros s a bt et n; [reflexivity|]. cbn [chunks].
  rewrite L, Nat.sub_diag. unfold read_full. cbn [read_full_loop Nat.leb length]. rewrite app_nil_r, last_index_none by exact NB.
  cbn [firstn skipn chunk_loop bind]. apply IH.
Qed.
Theorem long_line_hangs : forall {S A} mt (fn : A -> bytes -> nat -> A * verdict) need cap line rest w r',
  nonl line -> cap <= length line -> 0 < cap ->
  forall g (s : S) a n, chunks mt fn need g cap s a (RChunk (line ++ rest) w r') [] true false n = None.
Proof.
  intros S A mt fn need cap line rest w r' NL L C g s a n. destruct g as [|g]; [reflexivity|]. cbn [chunks length]. rewrite Nat.sub_0_r.
  assert (RF : exists r2, read_full (RChunk (line ++ rest) w r') cap = (firstn cap line, FNil, r2)).
  { assert (E1 : firstn cap (line ++ rest) = firstn cap line) by (rewrite firstn_app; replace (cap - length line) with 0 by lia; apply app_nil_r).
    unfold read_full. cbn [rd_size read_full_loop length]. rewrite (proj2 (Nat.leb_gt cap 0)) by lia. rewrite Nat.sub_0_r. cbn [rd_read].
    destruct (Nat.leb_spec (length (line ++ rest)) cap) as [LE|GT].
    - assert (EQ : line ++ rest = firstn cap line) by (rewrite <- E1; symmetry; apply firstn_all2, LE). rewrite EQ.
      assert (LC : length (firstn cap line) = cap) by (rewrite firstn_length; lia).
      destruct w; [destruct r'|]; cbn [app read_full_loop]; rewrite ?LC, ?Nat.leb_refl; rewrite ?LC, ?Nat.leb_refl; eauto.
    - cbn [app]. rewrite E1. assert (LC : length (firstn cap line) = cap) by (rewrite firstn_length; lia).
      destruct (rd_size r'); cbn [read_full_loop]; rewrite LC, Nat.leb_refl, LC, Nat.leb_refl; eauto. }
  destruct RF as (r2 & ->). cbn [app].
  assert (NB : nonl (firstn cap line)) by (intros X; apply NL; rewrite <- (firstn_skipn cap line); apply in_or_app; left; exact X).
  rewrite last_index_none by exact NB. cbn [firstn chunk_loop bind skipn]. apply full_stuck; [exact NB|]. rewrite firstn_length. lia.
Qed.

(** ** An expression that matches the empty line *)
(** ^$ *)
Definition blank_prog : prog := mkProg [IFail; IEmpty 3 2; IMatch] 1%N.
Lemma blank_wf : wf_prog blank_prog.
Proof. split; [reflexivity|]. split; [reflexivity|]. intros i [<-|[<-|[<-|[]]]]; repeat constructor. Qed.
Lemma blank_iff : forall bt et l, line_match blank_prog bt et l <-> l = [].
Proof.
  intros bt et l. split.
  - intros (k0 & pc & k & L & R & M). apply Operators_Properties.clos_rt_rt1n in R.
    inversion R as [|y z ST R']; subst; [vm_compute in M; discriminate|]. clear R. cbn [p_start blank_prog] in ST.
    inversion ST as [pc0 k1 a b Hi|pc0 k1 a b Hi|pc0 k1 a Hi|pc0 k1 w a Hi HH|pc0 k1 lo hi fold a c Hi]; subst; unfold instr in Hi; vm_compute in Hi; try discriminate.
    assert (w = 3%N) by congruence. subst w.
    assert (A : k0 = 0) by (apply (HH 0%N); reflexivity). assert (B : k0 = length l) by (apply (HH 1%N); reflexivity).
    apply length_zero_iff_nil. congruence.
  - intros ->. exists 0, 2%N, 0. split; [cbn; lia|]. split; [|reflexivity]. apply Relation_Operators.rt_step.
    eapply step_assert; [reflexivity|]. intros [|[q|q|]] T; cbn in *; try reflexivity; destruct q; discriminate.
Qed.

Definition gather (acc : list (bytes * nat)) (l : bytes) (n : nat) : list (bytes * nat) * verdict := (acc ++ [(l, n)], Go).
Lemma feed_gather : forall cs acc, feed_calls gather acc cs = (acc ++ cs, None).
Proof.
  induction cs as [|[l n] cs IH]; intros acc; cbn [feed_calls gather]; [rewrite app_nil_r; reflexivity|]. rewrite IH, <- app_assoc. reflexivity.
Qed.
(** A line [w] that fills the buffer with its newline, then an empty line. *)
Definition two_chunks (w : bytes) : reader := RChunk (w ++ [10%N]) false (RChunk [10%N] false REof).

Theorem phantom_line : forall cap w fuel g m, nonl w -> S (length w) = cap -> 1 < cap ->
  depth_ok fuel blank_prog -> used fuel blank_prog m -> 1 < g ->
  exists m', grep_chunked (match_bytes fuel) gather g cap m [] (two_chunks w) = Some (m', [([], 2); ([10%N], 3)], EndNil).
Proof.
  intros cap w fuel g m NW LW C D U G. pose proof blank_wf as WF.
  assert (AN : forall bt et l, nonl l -> hitb (ans2 fuel blank_prog) bt et l = is_nil l).
  { intros bt et l NL. apply eq_true_iff_eq. rewrite <- (hitb_iff (line_match blank_prog) (ans2 fuel blank_prog) (ans2_first fuel blank_prog WF D)) by exact NL.
    rewrite blank_iff. destruct l; cbn; intuition congruence. }
  assert (N0 : nonl []) by (intros []).
  destruct g as [|[|g]]; [lia|lia|]. unfold grep_chunked. cbn [chunks length]. rewrite Nat.sub_0_r.
  assert (LL : length (w ++ [10%N]) = cap) by (rewrite app_length; cbn; lia).
  assert (R1 : read_full (two_chunks w) cap = (w ++ [10%N], FNil, RChunk [10%N] false REof)).
  { unfold read_full, two_chunks. cbn [rd_size read_full_loop]. cbn [length]. rewrite (proj2 (Nat.leb_gt cap 0)) by lia. rewrite Nat.sub_0_r.
    cbn [rd_read]. rewrite LL, Nat.leb_refl. cbn [app read_full_loop]. rewrite LL, Nat.leb_refl, LL, Nat.leb_refl. reflexivity. }
  rewrite R1. change ([] ++ w ++ [10%N]) with (w ++ [10%N]).
  rewrite (last_index_line w []) by exact N0. replace (length w + 1) with (length (w ++ [10%N])) by (rewrite app_length; reflexivity).
  rewrite firstn_all, skipn_all.
  assert (WN : is_nil w = false) by (destruct w; [cbn in LW; lia|reflexivity]).
  destruct (chunk_loop_ok matcher (line_match blank_prog) (match_bytes fuel) (used fuel blank_prog) (ans2 fuel blank_prog) (match2_ok fuel blank_prog WF D)
    (ans2_first fuel blank_prog WF D) true gather 2 [w; []] (S (length (w ++ [10%N]))) true false 1) with (s := m) (a := @nil (bytes * nat))
    as (m1 & res & EL & U1 & R); [cbn; lia|discriminate|constructor; [exact NW|constructor; [exact N0|constructor]]|cbn [joinl]; lia|exact U|].
  change (joinl [w; []]) with (w ++ [10%N]) in EL, R.
  rewrite tail_cons in R. rewrite want_cons in EL, R. rewrite AN, WN in EL, R by exact NW. cbn [want tail_hit] in EL, R. rewrite AN in EL, R by exact N0.
  cbn [is_nil andb app negb counted Nat.add length Nat.sub] in EL, R. rewrite feed_gather in EL, R. cbn [fst snd app] in EL, R.
  rewrite EL. cbn [bind]. destruct R as (lineno & rem & -> & R). cbn [counted]. rewrite R. cbn [Nat.add].
  assert (BA : bt_after true (w ++ [10%N]) = false) by (destruct w; reflexivity). rewrite BA. rewrite Nat.sub_0_r.
  assert (R2 : read_full (RChunk [10%N] false REof) cap = ([10%N], FUnexpected, REof)).
  { unfold read_full. cbn [rd_size read_full_loop length]. rewrite (proj2 (Nat.leb_gt cap 0)) by lia. rewrite Nat.sub_0_r. cbn [rd_read length].
    rewrite (proj2 (Nat.leb_le 1 cap)) by lia. cbn [app read_full_loop length]. rewrite (proj2 (Nat.leb_gt cap 1)) by lia. cbn [rd_read app length].
    rewrite (proj2 (Nat.leb_gt cap 1)) by lia. reflexivity. }
  rewrite R2. cbn [app length firstn skipn].
  destruct (chunk_loop_ok matcher (line_match blank_prog) (match_bytes fuel) (used fuel blank_prog) (ans2 fuel blank_prog) (match2_ok fuel blank_prog WF D)
    (ans2_first fuel blank_prog WF D) true gather 2 [[]; []] 2 false true 3) with (s := m1) (a := [(@nil N, 2)])
    as (m2 & res & EL2 & U2 & R3); [cbn; lia|discriminate|constructor; [exact N0|constructor; [exact N0|constructor]]|cbn; lia|exact U1|].
  change (joinl [[]; []]) with [10%N] in EL2, R3.
  rewrite tail_cons in R3. rewrite want_cons in EL2, R3. rewrite AN in EL2, R3 by exact N0. cbn [want tail_hit is_nil andb app] in EL2, R3.
  rewrite feed_gather in EL2, R3. cbn [fst snd app] in EL2, R3. rewrite EL2. cbn [bind]. destruct R3 as (ln & rm & -> & _).
  exists m2. reflexivity.
Qed.
