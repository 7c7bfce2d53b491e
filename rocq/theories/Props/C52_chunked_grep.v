(** C52: the line scan through a buffer of fixed size [cap] (2^20 in the code).
    [feed_calls] passes the list of lines to the callback until it stops or fails. *)
From Verif Require Import Model.Base Model.Grep Model.GrepChunk Model.Matcher Spec.MatchSpec Spec.GrepSpec Spec.ChunkSpec
  Proofs.SplitProofs Proofs.GrepProofs Proofs.FillProofs Proofs.MatchTop Proofs.GrepTop Proofs.ChunkProofs Proofs.ChunkTop.
Local Open Scope nat_scope.

(** The callback gets exactly the matching lines. Missing: lines that do not fit into the
    buffer and programs that match an empty line that is not the first; both refuted below. *)
Theorem C52_calls_partial : forall fuel p g cap r m, wf_prog p -> depth_ok fuel p -> used fuel p m ->
  (forall et, ~ line_match p false et []) -> short_lines cap (rd_content r) -> length (rd_content r) < g ->
  exists out, numbered_matches (line_match p) (rd_content r) out /\
    forall A (fn : A -> bytes -> nat -> A * verdict) a, exists m',
      let f := feed_calls fn a out in
      grep_chunked (match_bytes fuel) fn g cap m a r =
        Some (m', fst f, match snd f with Some e => e | None => if rd_ok r then EndNil else EndRead end) /\ used fuel p m'.
Proof. exact callback_calls. Qed.
Print Assumptions C52_calls_partial.

(** What Grep.Reader prints, with the same restrictions. *)
Theorem C52_printed_partial : forall dec errmsg fl name fuel p g cap r m o, wf_prog p -> depth_ok fuel p -> used fuel p m ->
  (forall et, ~ line_match p false et []) -> short_lines cap (rd_content r) -> length (rd_content r) < g ->
  exists out m' o', numbered_matches (line_match p) (rd_content r) out /\
    grep_reader dec errmsg fl name (match_bytes fuel) g cap m o r = Some (m', o') /\ used fuel p m' /\
    g_stdout o' = g_stdout o ++ printed dec name (fl_L fl) (fl_C fl) (fl_N fl) (fl_H fl) out /\
    (g_match o' = true <-> g_match o = true \/ out <> []) /\
    g_stderr o' = g_stderr o ++ (if (rd_ok r || (fl_L fl && negb (is_nil out)))%bool then [] else name ++ [58%N; 32%N] ++ errmsg ++ [10%N]).
Proof. exact reader_prints. Qed.
Print Assumptions C52_printed_partial.

(** A line of 2^20 bytes: the buffer is full without a newline, ReadFull of nothing
    succeeds, and the loop never ends. *)
Theorem C52_long_line_refuted : exists line, ~ In 10%N line /\ length line = N.to_nat (2 ^ 20) /\
  forall S A mt (fn : A -> bytes -> nat -> A * verdict) g (s : S) a,
    grep_chunked mt fn g (N.to_nat (2 ^ 20)) s a (RChunk line false REof) = None.
Proof.
  exists (repeat 97%N (N.to_nat (2 ^ 20))). split; [|split].
  - intros X. apply repeat_spec in X. discriminate.
  - apply repeat_length.
  - intros S A mt fn g s a. rewrite <- (app_nil_r (repeat _ _)). apply long_line_hangs.
    + intros X. apply repeat_spec in X. discriminate.
    + rewrite repeat_length. lia.
    + change 0 with (N.to_nat 0). rewrite <- Nat.compare_lt_iff, <- N2Nat.inj_compare. reflexivity.
Qed.
Print Assumptions C52_long_line_refuted.

(** ^$ on a line of 2^20 - 1 bytes followed by an empty one: a line that does not exist is
    passed on as line 2, and line 2 as line 3. *)
Theorem C52_phantom_refuted : exists p text, wf_prog p /\ short_lines (N.to_nat (2 ^ 20)) text /\
  exists r, rd_content r = text /\ rd_ok r = true /\
  forall fuel m g, depth_ok fuel p -> used fuel p m -> 1 < g ->
  exists m' out, grep_chunked (match_bytes fuel) gather g (N.to_nat (2 ^ 20)) m [] r = Some (m', out, EndNil) /\
    ~ numbered_matches (line_match p) text out.
Proof.
  set (w := repeat 97%N (N.to_nat (2 ^ 20 - 1))).
  assert (NW : nonl w) by (intros X; apply repeat_spec in X; discriminate).
  assert (LW : S (length w) = N.to_nat (2 ^ 20)) by (unfold w; rewrite repeat_length, <- N2Nat.inj_succ; reflexivity).
  assert (C : 1 < N.to_nat (2 ^ 20)) by (change 1 with (N.to_nat 1); rewrite <- Nat.compare_lt_iff, <- N2Nat.inj_compare; reflexivity).
  assert (W0 : w <> []) by (intros E; rewrite E in LW; cbn [length] in LW; lia).
  clearbody w. generalize dependent (N.to_nat (2 ^ 20)). intros cap LW C.
  exists blank_prog, (rd_content (two_chunks w)). split; [exact blank_wf|]. split.
  { intros pcs SP. apply splits_iff in SP. subst pcs. cbn [rd_content two_chunks]. rewrite app_nil_r, <- app_assoc. cbn [app].
    rewrite split_nl_line by exact NW. cbn. repeat constructor; cbn; lia. }
  exists (two_chunks w). split; [reflexivity|]. split; [reflexivity|]. intros fuel m g D U G.
  destruct (phantom_line cap w fuel g m NW LW C D U G) as (m' & E). exists m', [([], 2); ([10%N], 3)]. split; [exact E|].
  intros (_ & NM). specialize (NM [w ++ [10%N]; [10%N]]).
  assert (RL : raw_lines (rd_content (two_chunks w)) [w ++ [10%N]; [10%N]]).
  { split; [reflexivity|]. split; [intros [X|[X|[]]]; [destruct w; discriminate|discriminate]|].
    intros a l b Eq. destruct a as [|x [|y a]]; [| |destruct a; discriminate].
    - injection Eq as <- <-. exists w. auto.
    - injection Eq as <- <- <-. exists []. split; [intros []|auto]. }
  destruct (proj1 (NM RL [] 2) (or_introl eq_refl)) as (k & _ & Hk & _).
  destruct k as [|[|k]]; [injection Hk; destruct w; discriminate|discriminate|destruct k; discriminate].
Qed.
Print Assumptions C52_phantom_refuted.

(** b on "ab\nc\nb" with a buffer of 4 bytes and -n: two chunks and a line without newline. *)
Definition C52_p := mkProg [IFail; IByte 98 98 false 2; IMatch] 1%N.
Definition C52_r : reader := RChunk [97; 98; 10; 99]%N false (RChunk [10; 98]%N true REof).
Lemma C52_p_wf : wf_prog C52_p.
Proof. split; [reflexivity|]. split; [reflexivity|]. intros i [<-|[<-|[<-|[]]]]; repeat constructor. Qed.
Example C52_example : wf_prog C52_p /\ depth_ok 300 C52_p /\ (forall et, ~ line_match C52_p false et []) /\ short_lines 4 (rd_content C52_r) /\
  exists m m', used 300 C52_p m /\
    grep_chunked (match_bytes 300) gather 10 4 m [] C52_r = Some (m', [([97; 98; 10]%N, 1); ([98%N], 3)], EndNil).
Proof.
  assert (D : depth_ok 300 C52_p) by (unfold depth_ok; apply Nat.ltb_lt; vm_compute; reflexivity).
  destruct (matcher_init 300 C52_p) as [m|] eqn:EM; [|exfalso; exact (init_total _ _ C52_p_wf D EM)].
  split; [exact C52_p_wf|]. split; [exact D|]. split; [|split].
  - intros et M. destruct (match_first_line 300 C52_p m [] false et C52_p_wf D (used_init _ _ _ EM)) as (m' & r & E & FH).
    assert (r = None) as -> by (vm_compute in EM; injection EM as <-; destruct et; vm_compute in E; injection E as _ <-; reflexivity).
    apply (FH [[]] (proj2 (splits_iff [] [[]]) eq_refl) [] [] [] eq_refl). unfold line_hit. cbn. rewrite andb_true_r. exact M.
  - intros pcs SP. apply splits_iff in SP. subst pcs. cbn. repeat constructor.
  - exists m. destruct (grep_chunked (match_bytes 300) gather 10 4 m [] C52_r) as [[[m' out] e]|] eqn:E.
    + exists m'. split; [apply used_init, EM|]. vm_compute in EM. injection EM as <-. vm_compute in E. injection E as _ <- <-. reflexivity.
    + exfalso. vm_compute in EM. injection EM as <-. vm_compute in E. discriminate.
Qed.
