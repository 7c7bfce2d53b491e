(** The automaton accepts exactly the lines with a matching run of the program. *)
From Coq Require Import Relations Sorted Permutation.
From Verif Require Import Model.Base Model.Codec Model.Matcher Spec.MatchSpec Proofs.ListLemmas
  Proofs.StrLemmas Proofs.MatcherProofs Proofs.CacheProofs.
Local Open Scope N_scope.

(** ** Flags as sets of assertions *)

Lemma ldiff_zero : forall w f, N.ldiff w f = 0 <-> forall m, N.testbit w m = true -> N.testbit f m = true.
Proof.
  intros w f. split.
  - intros E m H. destruct (N.testbit f m) eqn:F; [reflexivity|].
    assert (X : N.testbit (N.ldiff w f) m = true) by (rewrite N.ldiff_spec, H, F; reflexivity).
    rewrite E, N.bits_0 in X. discriminate.
  - intros H. apply N.bits_inj. intros m. rewrite N.ldiff_spec, N.bits_0.
    destruct (N.testbit w m) eqn:E; [rewrite (H m E); reflexivity|reflexivity].
Qed.

Definition before_bit (bol bot w isw nl en : bool) (m : N) : bool :=
  match m with
  | 0 => bol
  | 1 => nl || en
  | 2 => bot
  | 3 => en
  | 4 => negb (Bool.eqb w isw)
  | 5 => Bool.eqb w isw
  | _ => false
  end.

Lemma before_bit_high : forall bol bot w isw nl en m, 6 <= m -> before_bit bol bot w isw nl en m = false.
Proof.
  intros bol bot w isw nl en m L.
  destruct m as [|q]; [lia|].
  do 3 (destruct q as [q|q|]; try reflexivity; try lia).
Qed.

Lemma flags_before_bit : forall zf c m, N.testbit (flags_before zf c) m =
  before_bit (has_flag zf flagBOL) (has_flag zf flagBOT) (has_flag zf flagWord) (is_word_byte c) (is_nl c) (is_end c) m.
Proof.
  intros zf c m. unfold flags_before.
  generalize (has_flag zf flagBOL) (has_flag zf flagBOT) (has_flag zf flagWord) (is_word_byte c) (is_nl c) (is_end c).
  intros bol bot w isw nl en.
  destruct (N.lt_ge_cases m 6) as [L|G].
  - assert (m = 0 \/ m = 1 \/ m = 2 \/ m = 3 \/ m = 4 \/ m = 5) as C by lia.
    destruct C as [->|[->|[->|[->|[->| ->]]]]]; destruct bol, bot, w, isw, nl, en; reflexivity.
  - rewrite before_bit_high by assumption. apply N.bits_above_log2.
    apply N.lt_le_trans with 6; [|assumption]. destruct bol, bot, w, isw, nl, en; reflexivity.
Qed.

Section Prog.
Variable p : prog.
Hypothesis WF : wf_prog p.

(** ** Reachable instructions after a prefix (reversed) of a line *)

Definition zflag (bot : bool) (rp : bytes) : N :=
  match rp with
  | [] => if bot then 5 else 1
  | c :: _ => if is_word_byte (Some c) then 16 else 0
  end.
Definition base (bot : bool) (rp : bytes) : N :=
  match rp with [] => if bot then 5 else 1 | _ => 0 end.
Definition ctx (bot : bool) (rp : bytes) (nxt : inp) : N := flags_before (zflag bot rp) nxt.

Fixpoint seeds (bot : bool) (rp : bytes) : N -> Prop :=
  match rp with
  | [] => fun x => x = p_start p
  | c :: rp' => fun x => x = p_start p \/ exists id lo hi f,
      (exists s, seeds bot rp' s /\ eps p (ctx bot rp' (Some c)) s id) /\
      inst_at p id = Some (IByte lo hi f x) /\ byte_accepts lo hi f c = true
  end.
Definition reach (bot : bool) (rp : bytes) (nxt : inp) (id : N) : Prop :=
  exists s, seeds bot rp s /\ eps p (ctx bot rp nxt) s id.
Definition hit (bot : bool) (rp : bytes) (nxt : inp) : Prop :=
  exists id, reach bot rp nxt id /\ inst_at p id = Some IMatch.

Lemma base_sub : forall bot rp nxt w, N.ldiff w (base bot rp) = 0 -> N.ldiff w (ctx bot rp nxt) = 0.
Proof.
  intros bot rp nxt w H. rewrite ldiff_zero in *. intros m M. specialize (H m M).
  unfold ctx. rewrite flags_before_bit. unfold base, zflag in *. destruct rp as [|c rp].
  - destruct bot.
    + assert (m = 0 \/ m = 2) as [->| ->]; [|reflexivity|reflexivity].
      destruct m as [|q]; [auto|]. do 3 (destruct q as [q|q|]; try discriminate H; auto).
    + assert (m = 0) as ->; [|reflexivity].
      destruct m as [|q]; [auto|]. do 3 (destruct q as [q|q|]; try discriminate H; auto).
  - rewrite N.bits_0 in H. discriminate.
Qed.

Definition state_at (bot : bool) (rp : bytes) (z : nstate) : Prop :=
  zok p z /\ n_flag z = zflag bot rp /\ is_closure p (base bot rp) (seeds bot rp) (n_q z).

Lemma expanded_reach : forall bot rp z c x, state_at bot rp z ->
  (expanded p z c x <-> reach bot rp c x).
Proof.
  intros bot rp z c x (Z & F & _ & _ & C). unfold expanded, reach, ctx. rewrite F. split.
  - intros (s & I & E). apply C in I as (s0 & S & E0). exists s0. split; [assumption|].
    eapply rt_trans; [|exact E]. eapply (eps_mono p); [|exact E0]. apply (base_sub bot rp c).
  - intros (s & S & E). exists s. split; [|assumption]. apply C. exists s. split; [assumption|apply rt_refl].
Qed.

Lemma state_step : forall bot rp z c, state_at bot rp z -> c <> 10 ->
  (compute_next p (enc z) (Some c) = Some (inl tt) /\ hit bot rp (Some c)) \/
  (exists z', compute_next p (enc z) (Some c) = Some (inr z') /\ ~ hit bot rp (Some c) /\
     state_at bot (c :: rp) z').
Proof.
  intros bot rp z c S NE.
  assert (H : (exists id, expanded p z (Some c) id /\ inst_at p id = Some IMatch) <-> hit bot rp (Some c)).
  { unfold hit. split; intros (id & A & B); exists id; (split; [|assumption]); apply (expanded_reach bot rp z (Some c) id S); assumption. }
  destruct (compute_next_spec p WF z (Some c) (proj1 S)) as [[E X]|(q' & E & Z' & X & C)].
  - left. split; [assumption|]. apply H. assumption.
  - right. eexists. split; [exact E|]. split; [rewrite <- H; assumption|].
    assert (NL : is_nl (Some c) = false) by (cbn; apply N.eqb_neq; assumption).
    split; [assumption|]. split.
    + cbn [n_flag]. unfold next_flag, zflag. rewrite NL. cbn [bit N.lor].
      destruct (is_word_byte (Some c)); reflexivity.
    + cbn [n_q]. rewrite NL in C. cbn [bit base] in *. eapply closure_ext; [|exact C].
      intros x. cbn beta. split.
      * intros [->|(id & lo & hi & f & b & A & B & D & G)]; [left; reflexivity|]. injection D as <-.
        right. exists id, lo, hi, f. split; [apply (expanded_reach bot rp z (Some c) id S); assumption|auto].
      * intros [->|(id & lo & hi & f & A & B & D)]; [left; reflexivity|].
        right. exists id, lo, hi, f, c. split; [apply (expanded_reach bot rp z (Some c) id S); assumption|auto].
Qed.

Lemma state_hit : forall bot rp z nxt, state_at bot rp z ->
  (isinl (compute_next p (enc z) nxt) = true <-> hit bot rp nxt).
Proof.
  intros bot rp z c S.
  assert (H : (exists id, expanded p z c id /\ inst_at p id = Some IMatch) <-> hit bot rp c).
  { unfold hit. split; intros (id & A & B); exists id; (split; [|assumption]); apply (expanded_reach bot rp z c id S); assumption. }
  destruct (compute_next_spec p WF z c (proj1 S)) as [[E X]|(q' & E & Z' & X & C)]; rewrite E; cbn [isinl].
  - rewrite <- H. tauto.
  - rewrite <- H. split; [discriminate|contradiction].
Qed.

(** A match was completed before the end of the prefix. *)
Definition earlier (bot : bool) (rp : bytes) : Prop :=
  exists a c b, rp = b ++ c :: a /\ hit bot a (Some c).
Definition ref_at (bot : bool) (rp : bytes) (d : dref) : Prop :=
  match d with
  | RMatch => earlier bot rp
  | RKey k => ~ earlier bot rp /\ exists z, k = enc z /\ state_at bot rp z
  end.

Lemma earlier_cons : forall bot c rp, earlier bot (c :: rp) <-> earlier bot rp \/ hit bot rp (Some c).
Proof.
  intros bot c rp. split.
  - intros (a & x & b & E & H). destruct b as [|y b]; injection E as -> E.
    + subst. right. assumption.
    + left. exists a, x, b. auto.
  - intros [(a & x & b & -> & H)|H].
    + exists a, x, (c :: b). auto.
    + exists rp, c, []. auto.
Qed.
Lemma earlier_nil : forall bot, ~ earlier bot [].
Proof. intros bot (a & c & b & E & _). destruct b; discriminate. Qed.

Lemma ref_step : forall bot rp d c, ref_at bot rp d -> c <> 10 -> ref_at bot (c :: rp) (dnext p d c).
Proof.
  intros bot rp [|k] c R NE; cbn [dnext ref_at] in *.
  - apply earlier_cons. auto.
  - destruct R as (N & z & -> & S). destruct (state_step bot rp z c S NE) as [[E H]|(z' & E & H & S')]; rewrite E.
    + apply earlier_cons. auto.
    + split; [rewrite earlier_cons; tauto|eauto].
Qed.

Lemma ref_hit : forall bot rp d nxt, ref_at bot rp d -> (hitb p d nxt = true <-> earlier bot rp \/ hit bot rp nxt).
Proof.
  intros bot rp [|k] nxt R; cbn [hitb ref_at] in *.
  - tauto.
  - destruct R as (N & z & -> & S). rewrite (state_hit bot rp z nxt S). tauto.
Qed.

(** ** Prefix reachability and runs *)

Definition next_at (eot : bool) (line : bytes) (k : nat) : inp :=
  match nth_error line k with Some c => Some c | None => if eot then None else Some 10 end.
Definition rpre (line : bytes) (k : nat) : bytes := rev (firstn k line).

Lemma rpre_S : forall line k c, nth_error line k = Some c -> rpre line (S k) = c :: rpre line k.
Proof.
  intros line k c E. unfold rpre.
  assert (F : firstn (S k) line = firstn k line ++ [c]).
  { revert k E. induction line as [|x l IH]; intros [|k] E; try discriminate.
    - injection E as ->. reflexivity.
    - cbn [firstn app]. f_equal. apply IH. assumption. }
  rewrite F, rev_app_distr. reflexivity.
Qed.

Lemma rpre_head : forall line k, (k <= length line)%nat ->
  match rpre line k with
  | [] => k = 0%nat
  | c :: _ => exists j, k = S j /\ nth_error line j = Some c
  end.
Proof.
  intros line [|j] L; [reflexivity|].
  destruct (nth_error line j) as [c|] eqn:E.
  - rewrite (rpre_S _ _ _ E). eauto.
  - apply nth_error_None in E. lia.
Qed.

Lemma word_byte_iff : forall c, is_word_byte (Some c) = true <-> word c.
Proof.
  intros c. unfold is_word_byte, word.
  rewrite !orb_true_iff, !andb_true_iff, !N.leb_le, N.eqb_eq. tauto.
Qed.

Lemma ctx_holds : forall line bot eot k w, ~ In 10 line -> (k <= length line)%nat ->
  (N.ldiff w (ctx bot (rpre line k) (next_at eot line k)) = 0 <->
   forall m, N.testbit w m = true -> holds line bot eot k m).
Proof.
  intros line bot eot k w NL LE. rewrite ldiff_zero.
  assert (B : forall m, N.testbit (ctx bot (rpre line k) (next_at eot line k)) m = true <-> holds line bot eot k m).
  2:{ split; intros H m M; specialize (H m M); apply B; assumption. }
  intros m. unfold ctx. rewrite flags_before_bit.
  pose proof (rpre_head line k LE) as RH.
  assert (BOL : has_flag (zflag bot (rpre line k)) flagBOL = true <-> k = 0%nat).
  { unfold zflag. destruct (rpre line k) as [|c l].
    - destruct bot; vm_compute; tauto.
    - destruct RH as (j & -> & _). destruct (is_word_byte (Some c)); vm_compute; split; discriminate. }
  assert (BOT : has_flag (zflag bot (rpre line k)) flagBOT = true <-> k = 0%nat /\ bot = true).
  { unfold zflag. destruct (rpre line k) as [|c l].
    - destruct bot; vm_compute; split; intros; try tauto; try discriminate.
    - destruct RH as (j & -> & _). destruct (is_word_byte (Some c)); vm_compute; split; intuition discriminate. }
  assert (WB : has_flag (zflag bot (rpre line k)) flagWord = true <-> word_before line k).
  { unfold zflag. destruct (rpre line k) as [|c l].
    - subst k. split.
      + destruct bot; vm_compute; discriminate.
      + intros (j & c & E & _). discriminate.
    - destruct RH as (j & -> & E).
      transitivity (is_word_byte (Some c) = true).
      + destruct (is_word_byte (Some c)); vm_compute; tauto.
      + rewrite word_byte_iff. split.
        * intros W. exists j, c. auto.
        * intros (j' & c' & Ej & Ec & W). injection Ej as <-. congruence. }
  assert (WA : is_word_byte (next_at eot line k) = true <-> word_after line k).
  { unfold next_at, word_after. destruct (nth_error line k) as [c|].
    - rewrite word_byte_iff. split; [eauto|]. intros (c' & E & W). congruence.
    - split.
      + destruct eot; vm_compute; discriminate.
      + intros (c' & E & _). discriminate. }
  assert (EL : is_nl (next_at eot line k) || is_end (next_at eot line k) = true <-> k = length line).
  { unfold next_at. destruct (nth_error line k) as [c|] eqn:E.
    - assert (NE : c <> 10) by (intros ->; apply NL; eapply nth_error_In; exact E).
      apply N.eqb_neq in NE. cbn [is_nl is_end]. rewrite NE. cbn. split; [discriminate|].
      intros ->. assert (nth_error line (length line) = None) by (apply nth_error_None; lia). congruence.
    - apply nth_error_None in E. destruct eot; cbn; split; intros; try reflexivity; lia. }
  assert (ET : is_end (next_at eot line k) = true <-> k = length line /\ eot = true).
  { unfold next_at. destruct (nth_error line k) as [c|] eqn:E.
    - split; [discriminate|]. intros [-> _].
      assert (nth_error line (length line) = None) by (apply nth_error_None; lia). congruence.
    - apply nth_error_None in E. destruct eot; cbn; split; intros; try discriminate; try (split; [lia|reflexivity]); intuition discriminate. }
  assert (EQ : Bool.eqb (has_flag (zflag bot (rpre line k)) flagWord) (is_word_byte (next_at eot line k)) = true
    <-> (word_before line k <-> word_after line k)).
  { rewrite <- WB, <- WA. destruct (has_flag _ flagWord), (is_word_byte _); cbn; intuition discriminate. }
  destruct (N.lt_ge_cases m 6) as [L|G].
  - assert (m = 0 \/ m = 1 \/ m = 2 \/ m = 3 \/ m = 4 \/ m = 5) as C by lia.
    destruct C as [->|[->|[->|[->|[->| ->]]]]]; cbn [before_bit holds]; try assumption.
    rewrite <- EQ. destruct (Bool.eqb _ _); cbn; intuition discriminate.
  - rewrite before_bit_high by assumption. split; [discriminate|].
    destruct m as [|q]; [lia|]. do 3 (destruct q as [q|q|]; try (intros []; fail); try lia).
Qed.

Lemma accepts_range : forall lo hi f c, byte_accepts lo hi f c = true <-> in_range lo hi f c.
Proof.
  intros lo hi f c. unfold byte_accepts, in_range. destruct f; cbn [andb].
  - destruct (N.leb_spec 97 c); destruct (N.leb_spec c 122); cbn [andb];
      rewrite andb_true_iff, !N.leb_le; intuition lia.
  - rewrite andb_true_iff, !N.leb_le. tauto.
Qed.

Lemma reach_eps : forall bot rp nxt x y, reach bot rp nxt x -> In y (succs p (ctx bot rp nxt) x) -> reach bot rp nxt y.
Proof.
  intros bot rp nxt x y (s & S & E) I. exists s. split; [assumption|].
  eapply rt_trans; [exact E|apply rt_step; exact I].
Qed.

Lemma eps_steps : forall line bot eot k x y, ~ In 10 line -> (k <= length line)%nat ->
  eps p (ctx bot (rpre line k) (next_at eot line k)) x y ->
  clos_refl_trans _ (step p line bot eot) (x, k) (y, k).
Proof.
  intros line bot eot k x y NL LE E. induction E as [x y H|x|x y z _ IH1 _ IH2].
  - apply rt_step. unfold succs in H. destruct (inst_at p x) as [i|] eqn:Ei; [|destruct H].
    destruct i; cbn in H; try destruct H.
    + subst. eapply step_alt1. exact Ei.
    + destruct H as [<-|[]]. eapply step_alt2. exact Ei.
    + subst. eapply step_nop. exact Ei.
    + destruct H.
    + destruct (N.ldiff arg _ =? 0) eqn:D; [|destruct H]. destruct H as [<-|[]].
      apply N.eqb_eq in D. eapply step_assert; [exact Ei|].
      apply (ctx_holds line bot eot k arg NL LE). assumption.
  - apply rt_refl.
  - eapply rt_trans; eassumption.
Qed.

Lemma reach_run : forall line bot eot k x, ~ In 10 line -> (k <= length line)%nat ->
  reach bot (rpre line k) (next_at eot line k) x ->
  exists k0, (k0 <= k)%nat /\ clos_refl_trans _ (step p line bot eot) (p_start p, k0) (x, k).
Proof.
  intros line bot eot k. induction k as [|k IH]; intros x NL LE (s & S & E).
  - cbn in S. subst s. exists 0%nat. split; [lia|]. apply eps_steps; assumption.
  - destruct (nth_error line k) as [c|] eqn:Ec.
    2:{ apply nth_error_None in Ec. lia. }
    pose proof (rpre_S _ _ _ Ec) as RS. assert (S' := S). rewrite RS in S'. cbn [seeds] in S'.
    destruct S' as [->|(id & lo & hi & f & R & I & A)].
    + exists (Datatypes.S k). split; [lia|]. apply eps_steps; assumption.
    + assert (NA : next_at eot line k = Some c) by (unfold next_at; rewrite Ec; reflexivity).
      destruct (IH id NL ltac:(lia)) as (k0 & L0 & P0).
      { unfold reach. rewrite NA. exact R. }
      exists k0. split; [lia|]. eapply rt_trans; [exact P0|].
      eapply rt_trans; [apply rt_step; eapply step_consume; [exact I|exact Ec|apply accepts_range; exact A]|].
      apply eps_steps; assumption.
Qed.

Lemma run_reach : forall line bot eot k0 x k, ~ In 10 line -> (k0 <= length line)%nat ->
  clos_refl_trans _ (step p line bot eot) (p_start p, k0) (x, k) ->
  (k <= length line)%nat /\ reach bot (rpre line k) (next_at eot line k) x.
Proof.
  intros line bot eot k0 x k NL L0 H. apply clos_rt_rtn1 in H.
  remember (p_start p, k0) as a eqn:Ea. remember (x, k) as b eqn:Eb. revert x k Eb.
  induction H as [|y z H1 H2 IH]; intros x k Eb.
  - rewrite Ea in Eb. injection Eb as <- <-. split; [assumption|].
    exists (p_start p). split; [|apply rt_refl].
    destruct (rpre line k0); [reflexivity|left; reflexivity].
  - subst z. destruct y as [x1 k1]. destruct (IH x1 k1 eq_refl) as (L1 & R1). clear IH.
    assert (EPS : k1 = k -> In x (succs p (ctx bot (rpre line k) (next_at eot line k)) x1) ->
      (k <= length line)%nat /\ reach bot (rpre line k) (next_at eot line k) x).
    { intros -> I. split; [assumption|]. eapply reach_eps; eassumption. }
    unfold succs, inst_at in EPS.
    inversion H1 as [? ? a' b' I|? ? a' b' I|? ? a' I|? ? w a' I HW|? ? lo hi fold a' c I Ec A]; subst; unfold instr in I.
    + apply EPS; [reflexivity|]. rewrite I. left. reflexivity.
    + apply EPS; [reflexivity|]. rewrite I. right. left. reflexivity.
    + apply EPS; [reflexivity|]. rewrite I. left. reflexivity.
    + apply EPS; [reflexivity|]. rewrite I.
      rewrite (proj2 (ctx_holds line bot eot k w NL L1) HW). left. reflexivity.
    + assert (Lk : (S k1 <= length line)%nat).
      { assert (k1 < length line)%nat; [|lia]. apply nth_error_Some. congruence. }
      split; [assumption|]. exists x. split; [|apply rt_refl].
      rewrite (rpre_S _ _ _ Ec). cbn [seeds]. right. exists x1, lo, hi, fold.
      split; [|split; [exact I|apply accepts_range; assumption]].
      unfold reach, next_at in R1. rewrite Ec in R1. exact R1.
Qed.

(** A line matches. *)
Definition lhit (bot : bool) (nxt : inp) (line : bytes) : Prop :=
  earlier bot (rev line) \/ hit bot (rev line) nxt.

Lemma lhit_line_match : forall (bot eot : bool) line, ~ In 10 line ->
  (lhit bot (if eot then None else Some 10) line <-> line_match p bot eot line).
Proof.
  intros bot eot line NL.
  assert (K : forall k, (k <= length line)%nat ->
    (hit bot (rpre line k) (next_at eot line k) <->
     exists k0 pc, (k0 <= k)%nat /\ clos_refl_trans _ (step p line bot eot) (p_start p, k0) (pc, k) /\ instr p pc IMatch)).
  { intros k LE. split.
    - intros (id & R & I). destruct (reach_run line bot eot k id NL LE R) as (k0 & L0 & P). exists k0, id. auto.
    - intros (k0 & pc & L0 & P & I). exists pc. split; [|exact I].
      eapply run_reach; [assumption| |exact P]. lia. }
  assert (END : next_at eot line (length line) = if eot then None else Some 10).
  { unfold next_at. rewrite (proj2 (nth_error_None _ _)) by lia. reflexivity. }
  assert (FULL : rpre line (length line) = rev line) by (unfold rpre; rewrite firstn_all; reflexivity).
  unfold lhit, line_match. split.
  - intros [(a & c & b & E & H)|H].
    + apply (f_equal (@rev _)) in E. rewrite rev_involutive, rev_app_distr in E. cbn [rev] in E.
      rewrite <- app_assoc in E. cbn [app] in E.
      assert (LE : (length (rev a) <= length line)%nat) by (rewrite E, app_length; lia).
      assert (N : nth_error line (length (rev a)) = Some c).
      { rewrite E, nth_error_app2, Nat.sub_diag by lia. reflexivity. }
      assert (R : rpre line (length (rev a)) = a).
      { unfold rpre. rewrite E, firstn_app, firstn_all, Nat.sub_diag. cbn [firstn].
        rewrite app_nil_r. apply rev_involutive. }
      destruct (proj1 (K (length (rev a)) LE)) as (k0 & pc & L0 & P & I).
      { rewrite R. unfold next_at. rewrite N. assumption. }
      exists k0, pc, (length (rev a)). split; [lia|]. auto.
    + destruct (proj1 (K (length line) (Nat.le_refl _))) as (k0 & pc & L0 & P & I).
      { rewrite END, FULL. assumption. }
      exists k0, pc, (length line). auto.
  - intros (k0 & pc & k & L0 & P & I).
    destruct (run_reach line bot eot k0 pc k NL L0 P) as (LE & R).
    assert (H : hit bot (rpre line k) (next_at eot line k)) by (exists pc; auto).
    destruct (nth_error line k) as [c|] eqn:Ec.
    + left. exists (rpre line k), c, (rev (skipn (S k) line)). split.
      * rewrite <- (rpre_S _ _ _ Ec). unfold rpre. rewrite <- rev_app_distr, firstn_skipn. reflexivity.
      * unfold next_at in H. rewrite Ec in H. assumption.
    + right. apply nth_error_None in Ec. assert (k = length line) by lia. subst k.
      rewrite END, FULL in H. assumption.
Qed.

(** End of line inside the text is weaker than end of text. *)
Lemma holds_mono : forall line bot k m, holds line bot false k m -> holds line bot true k m.
Proof.
  intros line bot k m. unfold holds.
  destruct m as [|q]; [auto|].
  destruct q as [[[q|q|]|[q|q|]|]|[[q|q|]|[q|q|]|]|]; auto; intros [_ H]; discriminate.
Qed.
Lemma line_match_mono : forall bot line, line_match p bot false line -> line_match p bot true line.
Proof.
  intros bot line (k0 & pc & k & L & P & I). exists k0, pc, k. split; [assumption|]. split; [|assumption].
  clear - P. induction P as [x y H|x|x y z _ IH1 _ IH2]; [|apply rt_refl|eapply rt_trans; eassumption].
  apply rt_step. destruct H as [? ? a' b' I|? ? a' b' I|? ? a' I|? ? w a' I HW|? ? lo hi fold a' c I Ec A].
  - eapply step_alt1; eassumption.
  - eapply step_alt2; eassumption.
  - eapply step_nop; eassumption.
  - eapply step_assert; [eassumption|]. intros m M. apply holds_mono. auto.
  - eapply step_consume; eassumption.
Qed.

(** ** Buffers *)

Variable sl : bytes.
Hypothesis SL : ref_at false [] (RKey sl).

Lemma run_line : forall et l d i bot rp rest, ~ In 10 l -> ref_at bot rp d ->
  exists d', dfa_run p sl d i (l ++ rest) et = dfa_run p sl d' (i + length l) rest et /\
    ref_at bot (rev l ++ rp) d'.
Proof.
  intros et. induction l as [|c l IH]; intros d i bot rp rest NL R.
  - exists d. cbn [app rev length]. rewrite Nat.add_0_r. auto.
  - assert (NE : c <> 10) by (intros ->; apply NL; left; reflexivity).
    destruct (IH (dnext p d c) (S i) bot (c :: rp) rest) as (d' & E & R').
    + intros X. apply NL. right. assumption.
    + apply ref_step; assumption.
    + exists d'. cbn [app dfa_run length rev]. rewrite (proj2 (N.eqb_neq _ _) NE), E.
      split; [f_equal; lia|]. rewrite <- app_assoc. exact R'.
Qed.

Lemma hitb_line : forall (bot eot : bool) line d, ~ In 10 line -> ref_at bot (rev line) d ->
  (hitb p d (if eot then None else Some 10) = true <-> line_match p bot eot line).
Proof.
  intros bot eot line d NL R. rewrite <- lhit_line_match by assumption. apply ref_hit. assumption.
Qed.

Definition found_at (bt et : bool) (i : nat) (lines : list bytes) (r : option nat) : Prop :=
  match r with
  | Some e => exists pre line post, lines = pre ++ line :: post /\
      e = (i + length (concat (map (fun l => l ++ [10%N]) pre)) + length line)%nat /\
      line_hit (line_match p) bt et pre line post /\
      (forall pre1 l post1, pre = pre1 ++ l :: post1 ->
         ~ line_hit (line_match p) bt et pre1 l (post1 ++ line :: post))
  | None => forall pre l post, lines = pre ++ l :: post -> ~ line_hit (line_match p) bt et pre l post
  end.

Lemma dfa_lines : forall et last init d i bt,
  Forall (fun l => ~ In 10 l) (init ++ [last]) -> ref_at bt [] d ->
  found_at bt et i (init ++ [last])
    (dfa_run p sl d i (concat (map (fun l => l ++ [10]) init) ++ last) et).
Proof.
  intros et last. induction init as [|l init IH]; intros d i bt F R; cbn [map concat app].
  - inversion F as [|? ? NL _]; subst. cbn [app] in *.
    destruct (run_line et last d i bt [] [] NL R) as (d' & E & R').
    rewrite app_nil_r in E, R'. rewrite E. cbn [dfa_run].
    pose proof (hitb_line bt false last d' NL R') as H0. pose proof (hitb_line bt true last d' NL R') as H1.
    cbn iota in H0, H1.
    assert (HX : hitb p d' (Some 10) || et && hitb p d' None = true <-> line_match p bt et last).
    { rewrite orb_true_iff, andb_true_iff, H0, H1. destruct et; split; try tauto.
      - intros [A|[_ A]]; [apply line_match_mono|]; assumption.
      - intros [A|[B A]]; [assumption|discriminate]. }
    destruct (hitb p d' (Some 10) || et && hitb p d' None) eqn:HB; cbn [found_at].
    + exists [], last, []. split; [reflexivity|]. split; [cbn; lia|]. split.
      * unfold line_hit. cbn [is_nil]. rewrite !andb_true_r. apply HX. reflexivity.
      * intros pre1 x post1 X. destruct pre1; discriminate.
    + intros pre x post X HL. destruct pre as [|y pre].
      * injection X as <- <-. unfold line_hit in HL. cbn [is_nil] in HL. rewrite !andb_true_r in HL.
        apply HX in HL. discriminate.
      * injection X as _ X. destruct pre; discriminate.
  - inversion F as [|? ? NL F']; subst.
    rewrite <- app_assoc. cbn [app]. rewrite <- (app_assoc l). cbn [app].
    destruct (run_line et l d i bt [] (10 :: concat (map (fun l0 => l0 ++ [10]) init) ++ last) NL R) as (d' & E & R').
    rewrite app_nil_r in R'. rewrite E. cbn [dfa_run N.eqb Pos.eqb].
    pose proof (hitb_line bt false l d' NL R') as H0. cbn iota in H0.
    assert (NE : exists y ys, init ++ [last] = y :: ys).
    { destruct init; cbn; eauto. }
    destruct NE as (y0 & ys0 & NE).
    assert (LH : forall post0, init ++ [last] = post0 ->
      (line_hit (line_match p) bt et [] l post0 <-> line_match p bt false l)).
    { intros post0 <-. unfold line_hit. rewrite NE. cbn [is_nil]. rewrite andb_true_r, andb_false_r. tauto. }
    destruct (hitb p d' (Some 10)) eqn:HB.
    + cbn [found_at]. exists [], l, (init ++ [last]). split; [reflexivity|].
      split; [cbn; lia|]. split; [apply (LH _ eq_refl), H0; reflexivity|].
      intros pre1 x post1 X. destruct pre1; discriminate.
    + specialize (IH (RKey sl) (S (i + length l)) false F' SL).
      assert (NH : ~ line_match p bt false l) by (rewrite <- H0; discriminate).
      destruct (dfa_run p sl (RKey sl) (S (i + length l)) (concat (map (fun l0 => l0 ++ [10]) init) ++ last) et) as [e|];
        cbn [found_at] in *.
      * destruct IH as (pre & line & post & E1 & E2 & E3 & E4).
        exists (l :: pre), line, post. split; [rewrite E1; reflexivity|]. split.
        { cbn [map concat]. rewrite !app_length. cbn [length]. lia. }
        split.
        { unfold line_hit in *. cbn [is_nil]. rewrite andb_false_r.
          destruct (is_nil pre); assumption. }
        intros pre1 x post1 X HL. destruct pre1 as [|y pre1].
        -- injection X as <- <-. apply NH. apply (LH (pre ++ line :: post)); [congruence|assumption].
        -- injection X as <- X. apply (E4 pre1 x post1 X).
           unfold line_hit in *. cbn [is_nil] in HL. rewrite andb_false_r in HL. cbn [andb]. destruct (is_nil pre1); assumption.
      * intros pre x post X HL. destruct pre as [|y pre].
        -- injection X as <- <-. apply NH. apply (LH _ eq_refl). assumption.
        -- injection X as <- X. apply (IH pre x post X).
           unfold line_hit in *. cbn [is_nil] in HL. rewrite andb_false_r in HL. destruct (is_nil pre); assumption.
Qed.
End Prog.

Lemma start_ref : forall p (bt : bool) q, wf_prog p -> start_queue p (if bt then 5 else 1) q ->
  ref_at p bt [] (RKey (enc (mkN (if bt then 5 else 1) q))).
Proof.
  intros p bt q WF E. cbn [ref_at]. split; [apply earlier_nil|]. eexists. split; [reflexivity|].
  unfold start_queue in E.
  destruct (addq_closure p WF (if bt then 5 else 1) [] (p_start p) _ (closure_nil p _) (start_bound p WF)) as (q' & E' & C).
  rewrite E in E'. injection E' as <-.
  split; [split; [destruct bt; reflexivity|apply C]|]. split; [reflexivity|]. cbn [n_q base seeds].
  eapply closure_ext; [|exact C]. intros x. cbn beta. tauto.
Qed.

Lemma answer_spec : forall p m b bt et, wf_prog p -> matcher_ok p m ->
  first_hit (line_match p) bt et b (answer p m b bt et).
Proof.
  intros p m b bt et WF [_ _ _ (q5 & Q5 & S5) (q1 & Q1 & S1)] lines (NE & F & init & last & -> & ->).
  unfold answer.
  assert (SL : ref_at p false [] (RKey (m_startLine m))).
  { rewrite S1. apply (start_ref p false q1 WF Q1). }
  assert (ST : ref_at p bt [] (RKey (if bt then m_start m else m_startLine m))).
  { destruct bt; [rewrite S5; apply (start_ref p true q5 WF Q5)|exact SL]. }
  pose proof (dfa_lines p WF _ SL et last init _ 0 bt F ST) as H.
  unfold found_at in H. destruct (dfa_run _ _ _ _ _ _); [|exact H].
  destruct H as (pre & line & post & A & B & C & D). exists pre, line, post.
  split; [assumption|]. split; [lia|]. auto.
Qed.
