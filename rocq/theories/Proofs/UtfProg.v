(** toByteProg (utf.go:21-70): the byte program matches what the rune program matches. *)
From Coq Require Import Relations.
From Verif Require Import Model.Base Model.Utf8 Model.Matcher Model.Utf Spec.Utf8Spec Spec.RegexSpec Spec.MatchSpec
  Spec.RuneProgSpec Proofs.Utf8Proofs Proofs.UtfArith Proofs.UtfBuild Proofs.UtfClass.
Local Open Scope N_scope.

Section Prog.
Variable simple_fold : N -> N.
Variable orbit_max : nat.
Hypothesis AC : ascii_case simple_fold.
Variable N0 : N.
Notation shape := (shape N0).
Notation is_byte_node := (is_byte_node N0).

(** Words consumed from an instruction until the original program is re-entered. *)
Inductive tail (code : list xinst) : N -> list N -> N -> Prop :=
| t_exit : forall pc lo hi f o c, node code pc (IByte lo hi f o) -> o < N0 ->
    MatchSpec.in_range lo hi f c -> tail code pc [c] o
| t_byte : forall pc lo hi f o c w e, node code pc (IByte lo hi f o) -> N0 <= o ->
    MatchSpec.in_range lo hi f c -> tail code o w e -> tail code pc (c :: w) e
| t_nop : forall pc a w e, node code pc (INop a) -> N0 <= a -> tail code a w e -> tail code pc w e
| t_alt1 : forall pc a b w e, node code pc (IAlt a b) -> N0 <= a -> tail code a w e -> tail code pc w e
| t_alt2 : forall pc a b w e, node code pc (IAlt a b) -> N0 <= b -> tail code b w e -> tail code pc w e.

Definition gshape (code : list xinst) (i : inst) : Prop :=
  match i with
  | IFail => True
  | INop a => N0 <= a /\ a < nlen code
  | IAlt a b => N0 <= a /\ a < nlen code /\ N0 <= b /\ b < nlen code
  | IByte _ _ _ o => o < N0
  | _ => False
  end.

Lemma btail_tail : forall code pc w e, btail N0 code pc w e -> tail code pc w e.
Proof. intros code pc w e H. induction H; [eapply t_exit|eapply t_byte]; eauto. Qed.
Lemma tail_btail : forall code pc w e, shape code -> is_byte_node code pc -> tail code pc w e -> btail N0 code pc w e.
Proof.
  intros code pc w e S B T. revert B.
  induction T as [pc lo hi f o c G L R|pc lo hi f o c w e G L R T IH|pc a w e G|pc a b w e G|pc a b w e G];
    intros (A & lo1 & hi1 & f1 & o1 & G1); pose proof (node_fun _ _ _ _ G G1) as X; try discriminate.
  - eapply bt_exit; eauto.
  - eapply bt_byte; [exact G|exact L|exact R|]. apply IH.
    destruct (S _ _ A G) as [(lo2 & hi2 & f2 & o2 & E & [Y|Y])|(a & b & E & _)]; [| |discriminate];
      injection E as <- <- <- <-; [lia|exact Y].
Qed.

Lemma chain_tail : forall code bg brs cur w e, chain N0 code bg brs cur -> shape code ->
  Forall (is_byte_node code) brs -> (tail code bg w e <-> langs N0 code brs w e).
Proof.
  intros code bg brs cur w e C S F. induction C as [pc H|pc a H|pc a b H|pc q a b c brs cur H L1 L2 H2 IH].
  - split; [|intros (br & [] & _)]. intros T. inversion T as [? ? ? ? ? ? G|? ? ? ? ? ? ? ? G|? ? ? ? G|? ? ? ? ? G|? ? ? ? ? G]; subst;
      pose proof (node_fun _ _ _ _ H G) as X; discriminate.
  - inversion F as [|? ? Fa _]; subst. split.
    + intros T. inversion T as [? ? ? ? ? ? G|? ? ? ? ? ? ? ? G|? ? ? ? G L T'|? ? ? ? ? G|? ? ? ? ? G]; subst;
        pose proof (node_fun _ _ _ _ H G) as X; try discriminate. injection X as <-.
      exists a. split; [left; reflexivity|]. apply tail_btail; auto.
    + intros (br & [<-|[]] & T). eapply t_nop; [exact H|apply Fa|]. apply btail_tail, T.
  - inversion F as [|? ? Fa F']; subst. inversion F' as [|? ? Fb _]; subst. split.
    + intros T. inversion T as [? ? ? ? ? ? G|? ? ? ? ? ? ? ? G|? ? ? ? G|? ? ? ? ? G L T'|? ? ? ? ? G L T']; subst;
        pose proof (node_fun _ _ _ _ H G) as X; try discriminate; injection X as <- <-.
      * exists a. split; [left; reflexivity|]. apply tail_btail; auto.
      * exists b. split; [right; left; reflexivity|]. apply tail_btail; auto.
    + intros (br & [<-|[<-|[]]] & T); [eapply t_alt1|eapply t_alt2]; try exact H; try (apply btail_tail, T); [apply Fa|apply Fb].
  - inversion F as [|? ? Fa F']; subst. specialize (IH F'). split.
    + intros T. inversion T as [? ? ? ? ? ? G|? ? ? ? ? ? ? ? G|? ? ? ? G|? ? ? ? ? G L T'|? ? ? ? ? G L T']; subst;
        pose proof (node_fun _ _ _ _ H G) as X; try discriminate; injection X as <- <-.
      * exists a. split; [left; reflexivity|]. apply tail_btail; auto.
      * apply IH in T'. destruct T' as (br & I & T'). exists br. split; [right; exact I|exact T'].
    + intros (br & [<-|I] & T).
      * eapply t_alt1; [exact H|apply Fa|apply btail_tail, T].
      * eapply t_alt2; [exact H|exact L2|]. apply IH. exists br. auto.
Qed.

Lemma chain_gshape : forall code bg brs cur, chain N0 code bg brs cur -> Forall (is_byte_node code) brs ->
  exists i, node code bg i /\ gshape code i.
Proof.
  intros code bg brs cur C F. inversion C as [pc H|pc a H|pc a b H|pc q a b c brs' cur' H L1 L2 H2]; subst.
  - exists IFail. split; [exact H|exact I].
  - inversion F as [|? ? Fa _]; subst. exists (INop a). split; [exact H|apply byte_node_lt in Fa; exact Fa].
  - inversion F as [|? ? Fa F']; subst. inversion F' as [|? ? Fb _]; subst. exists (IAlt a b). split; [exact H|].
    apply byte_node_lt in Fa. apply byte_node_lt in Fb. cbn [gshape]. tauto.
  - inversion F as [|? ? Fa F']; subst. exists (IAlt a q). split; [exact H|]. apply byte_node_lt in Fa. cbn [gshape].
    pose proof (chain_le _ _ _ _ _ H2). pose proof (chain_lt _ _ _ _ _ H2). lia.
Qed.

(** [tail] only depends on [pc] and the appended instructions. *)
Lemma tail_mono : forall code code' pc w e,
  (forall q i, N0 <= q -> node code q i -> node code' q i) ->
  (forall i, node code pc i -> node code' pc i) ->
  tail code pc w e -> tail code' pc w e.
Proof.
  intros code code' pc w e A B T.
  induction T as [pc lo hi f o c G L R|pc lo hi f o c w e G L R T IH|pc a w e G L T IH|pc a b w e G L T IH|pc a b w e G L T IH].
  - eapply t_exit; eauto.
  - eapply t_byte; eauto.
  - eapply t_nop; eauto.
  - eapply t_alt1; eauto.
  - eapply t_alt2; eauto.
Qed.
Lemma tail_back : forall code code' pc w e, shape code ->
  (forall q, N0 <= q -> q < nlen code -> nth_error code' (N.to_nat q) = nth_error code (N.to_nat q)) ->
  N0 <= pc -> pc < nlen code ->
  tail code' pc w e -> tail code pc w e.
Proof.
  intros code code' pc w e S A L1 L2 T. revert L1 L2.
  induction T as [pc lo hi f o c G L R|pc lo hi f o c w e G L R T IH|pc a w e G L T IH|pc a b w e G L T IH|pc a b w e G L T IH];
    intros L1 L2; unfold node in G; rewrite A in G by auto;
    destruct (S _ _ L1 G) as [(lo2 & hi2 & f2 & o2 & E & Y)|(a2 & b2 & E & Y)]; try discriminate.
  - eapply t_exit; eauto.
  - injection E as <- <- <- <-. destruct Y as [Y|Y]; [lia|]. apply byte_node_lt in Y. eapply t_byte; eauto. apply IH; tauto.
  - injection E as <- <-. eapply t_alt1; eauto. apply IH; tauto.
  - injection E as <- <-. eapply t_alt2; eauto. apply IH; tauto.
Qed.
Lemma tail_frame : forall code code' pc i w e, shape code -> node code pc i -> gshape code i ->
  node code' pc i ->
  (forall q, N0 <= q -> q < nlen code -> nth_error code' (N.to_nat q) = nth_error code (N.to_nat q)) ->
  (tail code' pc w e <-> tail code pc w e).
Proof.
  intros code code' pc i w e S G Gs G' A. split; intros T.
  - inversion T as [? ? ? ? ? ? X|? ? ? ? ? ? ? ? X Y Z T'|? ? ? ? X Y T'|? ? ? ? ? X Y T'|? ? ? ? ? X Y T']; subst;
      pose proof (node_fun _ _ _ _ G' X) as E; subst i; cbn [gshape] in Gs.
    + eapply t_exit; eauto.
    + lia.
    + eapply t_nop; eauto. eapply tail_back; eauto; tauto.
    + eapply t_alt1; eauto. eapply tail_back; eauto; tauto.
    + eapply t_alt2; eauto. eapply tail_back; eauto; tauto.
  - eapply tail_mono; [| |exact T].
    + intros q j L H. unfold node. rewrite A; [exact H|exact L|]. apply node_lt in H. unfold nlen. lia.
    + intros j H. pose proof (node_fun _ _ _ _ G H) as X. subst j. exact G'.
Qed.

(** What a rune instruction accepts if the line has no newline. *)
Definition accepts_nl (x : xinst) (w : list N) : Prop :=
  match x with XAnyNotNL o => accepts simple_fold wtf8 (XAny o) w | _ => accepts simple_fold wtf8 x w end.

Definition done (x : xinst) (code : list xinst) (pc : N) : Prop :=
  match x with
  | XB i => node code pc i
  | _ => exists i, node code pc i /\ gshape code i /\
      forall w e, tail code pc w e <-> rune_out x = Some e /\ accepts_nl x w
  end.

Lemma build_ok : forall code pc out l (P : list N -> Prop), shape code -> pc < N0 -> out < N0 -> N0 <= nlen code ->
  clear_all l -> (forall w, P w <-> words_of l w) ->
  exists code', (b <- b_init code pc out ;; b <- add_ranges b l ;; Some (b_inst b)) = Some code' /\
    shape code' /\ (length code <= length code')%nat /\
    (forall q, q < nlen code -> q <> pc -> nth_error code' (N.to_nat q) = nth_error code (N.to_nat q)) /\
    exists i, node code' pc i /\ gshape code' i /\ forall w e, tail code' pc w e <-> e = out /\ P w.
Proof.
  intros code pc out l P S L1 L2 L3 C HP. unfold b_init, set_inst.
  destruct (list_set_some code (N.to_nat pc) (XB IFail) ltac:(unfold nlen in L3; lia)) as (c1 & E & Lc & G & F).
  rewrite E. cbn [bind].
  assert (F' : forall q, q <> pc -> nth_error c1 (N.to_nat q) = nth_error code (N.to_nat q)) by (intros q D; apply F; lia).
  assert (K : forall q i, q <> pc -> node code q i -> node c1 q i) by (intros q i D H; unfold node; rewrite F' by auto; exact H).
  assert (Nl : nlen c1 = nlen code) by (unfold nlen; rewrite Lc; reflexivity).
  assert (I : inv N0 (mkB pc out [] c1) pc (nlen code) []).
  { split; cbn [b_out b_begin b_inst b_cache]; auto; try lia.
    - intros q x H X. rewrite F' in X by lia. destruct (S q x H X) as [(lo1 & hi1 & f1 & o1 & -> & [Y|Y])|(a & c & -> & Y)].
      + left. do 4 eexists. split; [reflexivity|]. left; exact Y.
      + left. do 4 eexists. split; [reflexivity|]. right. destruct Y as (Y1 & lo2 & hi2 & f2 & o2 & Y2). split; [exact Y1|].
        exists lo2, hi2, f2, o2. apply K; [lia|exact Y2].
      + right. do 2 eexists. split; [reflexivity|]. rewrite Nl. exact Y.
    - intros k q X. cbn [b_cache cache_get] in X. discriminate.
    - apply ch_0. exact G. }
  destruct (add_ranges_ok N0 l _ _ _ _ I C) as (b & brs & Eb & Ib & Gb & T). rewrite Eb. cbn [bind app b_out b_inst] in *.
  exists (b_inst b). split; [reflexivity|]. split; [apply Ib|].
  split; [pose proof (g_len _ _ _ _ Gb) as X; cbn [b_inst] in X; lia|].
  split; [intros q H D; rewrite (g_old _ _ _ _ Gb q H D); cbn [b_inst]; apply F', D|].
  destruct (chain_gshape _ _ _ _ (i_chain _ _ _ _ _ Ib) (i_brs _ _ _ _ _ Ib)) as (i & G1 & G2).
  exists i. split; [exact G1|]. split; [exact G2|].
  intros w e. rewrite (chain_tail _ _ _ _ _ _ (i_chain _ _ _ _ _ Ib) (i_shape _ _ _ _ _ Ib) (i_brs _ _ _ _ _ Ib)).
  rewrite T, HP. reflexivity.
Qed.

Lemma shape_set : forall code code' pc, shape code -> pc < N0 -> length code' = length code ->
  (forall q, q <> pc -> nth_error code' (N.to_nat q) = nth_error code (N.to_nat q)) -> shape code'.
Proof.
  intros code code' pc S L Lc F q x H X. rewrite F in X by lia.
  assert (Nl : nlen code' = nlen code) by (unfold nlen; rewrite Lc; reflexivity).
  destruct (S q x H X) as [(lo1 & hi1 & f1 & o1 & -> & [Y|Y])|(a & c & -> & Y)].
  + left. do 4 eexists. split; [reflexivity|]. left; exact Y.
  + left. do 4 eexists. split; [reflexivity|]. right. destruct Y as (Y1 & lo2 & hi2 & f2 & o2 & Y2). split; [exact Y1|].
    exists lo2, hi2, f2, o2. unfold node. rewrite F by lia. exact Y2.
  + right. do 2 eexists. split; [reflexivity|]. rewrite Nl. exact Y.
Qed.

Lemma wtf8_max : forall r w, wtf8 r w -> r <= 0x10FFFF.
Proof. intros r w [U|U]; [apply utf8_scalar in U; unfold scalar in U; lia|destruct U as [? ? ? ? ? ? [A B]]; lia]. Qed.

Lemma any_words : forall w, (exists r, wtf8 r w) <-> words_of [(0, MaxRune)] w.
Proof.
  intros w. unfold words_of, range_words, MaxRune. split.
  - intros (r & U). exists (0, 0x10FFFF). split; [left; reflexivity|]. cbn [fst snd]. exists r. pose proof (wtf8_max _ _ U). split; [lia|]. auto.
  - intros (lh & _ & r & _ & _ & U). exists r. exact U.
Qed.
Lemma any_clear : clear_all [(0, MaxRune)].
Proof. constructor; [|constructor]. cbn [fst snd]. unfold clear_range, MaxRune. lia. Qed.

Lemma byte_inst_ok : forall code pc x, shape code -> pc < N0 -> N0 <= nlen code ->
  nth_error code (N.to_nat pc) = Some x -> wf_rune simple_fold orbit_max x ->
  Forall (fun t => t < N0) (xtargets x) ->
  exists code', byte_inst simple_fold orbit_max code pc = Some code' /\
    shape code' /\ (length code <= length code')%nat /\
    (forall q, q < nlen code -> q <> pc -> nth_error code' (N.to_nat q) = nth_error code (N.to_nat q)) /\
    done x code' pc.
Proof.
  intros code pc x S L1 L3 G W Tg. unfold byte_inst. rewrite G. cbn [bind].
  destruct x as [i|one rs fold out|out|out].
  - exists code. split; [reflexivity|]. split; [exact S|]. split; [lia|]. split; [auto|]. exact G.
  - cbn [xtargets] in Tg. inversion Tg as [|? ? To _]; subst.
    pose proof (wf_rune_ok simple_fold orbit_max AC one rs fold out W) as R. unfold rune_ok in R.
    destruct (oneByteRange simple_fold one rs fold) as [[[[lo hi] f]|]|]; [| |destruct R].
    + cbn [bind]. destruct (list_set_some code (N.to_nat pc) (XB (IByte lo hi f out)) ltac:(unfold nlen in L3; lia)) as (c1 & E & Lc & G1 & F).
      exists c1. split; [exact E|]. assert (F' : forall q, q <> pc -> nth_error c1 (N.to_nat q) = nth_error code (N.to_nat q)) by (intros q D; apply F; lia).
      split; [apply (shape_set code c1 pc); auto|]. split; [lia|]. split; [auto|].
      exists (IByte lo hi f out). split; [exact G1|]. split; [exact To|]. intros w e. cbn [rune_out accepts_nl]. rewrite R. split.
      * intros T. inversion T as [? ? ? ? ? ? X Y Z|? ? ? ? ? ? ? ? X Y Z T'|? ? ? ? X Y T'|? ? ? ? ? X Y T'|? ? ? ? ? X Y T']; subst;
          pose proof (node_fun _ _ _ _ G1 X) as E'; try discriminate; injection E' as <- <- <- <-; [|lia]. split; [reflexivity|]. eauto.
      * intros (E' & c & -> & Rg). injection E' as <-. eapply t_exit; eauto.
    + destruct R as (l & El & Cl & Wl). cbn [bind]. rewrite El. cbn [bind].
      destruct (build_ok code pc out l (accepts simple_fold wtf8 (XRune one rs fold out)) S L1 To L3 Cl Wl) as (c' & E & S' & Lc & F & i & G1 & G2 & T).
      exists c'. split; [exact E|]. split; [exact S'|]. split; [exact Lc|]. split; [exact F|].
      exists i. split; [exact G1|]. split; [exact G2|]. intros w e. rewrite T. cbn [rune_out accepts_nl].
      split; [intros (-> & H); auto|intros (H & K); injection H as <-; auto].
  - cbn [xtargets] in Tg. inversion Tg as [|? ? To _]; subst.
    destruct (build_ok code pc out [(0, MaxRune)] (accepts simple_fold wtf8 (XAny out)) S L1 To L3 any_clear any_words) as (c' & E & S' & Lc & F & i & G1 & G2 & T).
    exists c'. split; [exact E|]. split; [exact S'|]. split; [exact Lc|]. split; [exact F|].
    exists i. split; [exact G1|]. split; [exact G2|]. intros w e. rewrite T. cbn [rune_out accepts_nl].
    split; [intros (-> & H); auto|intros (H & K); injection H as <-; auto].
  - cbn [xtargets] in Tg. inversion Tg as [|? ? To _]; subst.
    destruct (build_ok code pc out [(0, MaxRune)] (accepts simple_fold wtf8 (XAny out)) S L1 To L3 any_clear any_words) as (c' & E & S' & Lc & F & i & G1 & G2 & T).
    exists c'. split; [exact E|]. split; [exact S'|]. split; [exact Lc|]. split; [exact F|].
    exists i. split; [exact G1|]. split; [exact G2|]. intros w e. rewrite T. cbn [rune_out accepts_nl].
    split; [intros (-> & H); auto|intros (H & K); injection H as <-; auto].
Qed.

Lemma gshape_mono : forall code code' i, (length code <= length code')%nat -> gshape code i -> gshape code' i.
Proof. intros code code' i L G. destruct i; cbn [gshape] in *; unfold nlen in *; try exact G; lia. Qed.

Lemma done_frame : forall x code code' q, shape code -> q < N0 -> N0 <= nlen code -> (length code <= length code')%nat ->
  (forall r, r < nlen code -> (r = q \/ N0 <= r) -> nth_error code' (N.to_nat r) = nth_error code (N.to_nat r)) ->
  done x code q -> done x code' q.
Proof.
  intros x code code' q S L Ln Lc F D.
  assert (Gq : forall i, node code q i -> node code' q i) by (intros i H; unfold node; rewrite F; [exact H|lia|auto]).
  assert (A : (exists i, node code q i /\ gshape code i /\ forall w e, tail code q w e <-> rune_out x = Some e /\ accepts_nl x w) ->
              exists i, node code' q i /\ gshape code' i /\ forall w e, tail code' q w e <-> rune_out x = Some e /\ accepts_nl x w).
  { intros (i & G & Gs & T). exists i. split; [auto|]. split; [eapply gshape_mono; eauto|]. intros w e. rewrite <- T.
    eapply tail_frame; eauto. }
  destruct x; cbn [done] in *; auto.
Qed.

Lemma byte_insts_ok : forall (orig : list xinst) n j code, nlen orig = N0 -> (j + n = length orig)%nat ->
  Forall (wf_rune simple_fold orbit_max) orig -> Forall (fun i => Forall (fun t => t < N0) (xtargets i)) orig ->
  shape code -> N0 <= nlen code ->
  (forall q x, nth_error orig q = Some x -> (q < j)%nat -> done x code (N.of_nat q)) ->
  (forall q, (j <= q)%nat -> (q < length orig)%nat -> nth_error code q = nth_error orig q) ->
  exists code', byte_insts simple_fold orbit_max code (seq j n) = Some code' /\ shape code' /\ N0 <= nlen code' /\
    forall q x, nth_error orig q = Some x -> done x code' (N.of_nat q).
Proof.
  intros orig n. induction n as [|n IH]; intros j code HN E W Tg S L D R; cbn [seq byte_insts].
  - exists code. split; [reflexivity|]. split; [exact S|]. split; [exact L|]. intros q x H. apply D; [exact H|].
    assert (nth_error orig q <> None) as X by (rewrite H; discriminate). apply nth_error_Some in X. lia.
  - destruct (nth_error orig j) as [x|] eqn:Ex; [|apply nth_error_None in Ex; lia].
    rewrite Forall_forall in W, Tg. pose proof (nth_error_In _ _ Ex) as In_x.
    assert (Gx : nth_error code (N.to_nat (N.of_nat j)) = Some x) by (rewrite Nat2N.id, R by lia; exact Ex).
    destruct (byte_inst_ok code (N.of_nat j) x S ltac:(unfold nlen in *; lia) L Gx (W _ In_x) (Tg _ In_x)) as (c1 & E1 & S1 & L1 & F1 & D1).
    rewrite E1. cbn [bind]. rewrite <- Forall_forall in W, Tg.
    assert (Lc1 : N0 <= nlen c1) by (unfold nlen in *; lia).
    apply (IH (Datatypes.S j) c1); auto; [lia| |].
    + intros q y H Q. destruct (Nat.eq_dec q j) as [->|NE].
      * rewrite Ex in H. injection H as <-. exact D1.
      * assert (q < j)%nat by lia.
        eapply done_frame; [exact S|unfold nlen in *; lia|exact L|exact L1| |apply (D q y H); lia].
        intros r A B. apply F1; [exact A|]. unfold nlen in *. lia.
    + intros q A B. rewrite <- (R q) by lia. specialize (F1 (N.of_nat q)). rewrite Nat2N.id in F1. apply F1; unfold nlen in *; lia.
Qed.
End Prog.

Section Sim.
Variable simple_fold : N -> N.
Variable orbit_max : nat.
Hypothesis AC : ascii_case simple_fold.
Variable p : xprog.
Hypothesis W : wf_xprog simple_fold orbit_max p.
Let N0 : N := nlen (x_inst p).
Variable code : list xinst.
Hypothesis Sh : shape N0 code.
Hypothesis Ln : N0 <= nlen code.
Hypothesis D : forall q x, nth_error (x_inst p) q = Some x -> done simple_fold N0 x code (N.of_nat q).
Let p' : prog := mkProg (map plain code) (x_start p).
Variables (line : list N) (bot eot : bool).
Hypothesis NoNL : ~ In 10 line.
Notation bstep := (step p' line bot eot).
Notation rstep := (xstep simple_fold wtf8 p line bot eot).

Lemma instr_node : forall pc i, node code pc i -> instr p' pc i.
Proof. intros pc i H. unfold instr, p'. cbn [p_inst]. rewrite nth_error_map. unfold node in H. rewrite H. reflexivity. Qed.

Lemma orig_at : forall pc, pc < N0 -> exists x, nth_error (x_inst p) (N.to_nat pc) = Some x /\ done simple_fold N0 x code pc.
Proof.
  intros pc L. destruct (nth_error (x_inst p) (N.to_nat pc)) as [x|] eqn:E.
  - exists x. split; [reflexivity|]. specialize (D _ _ E). rewrite N2Nat.id in D. exact D.
  - apply nth_error_None in E. unfold N0, nlen in L. lia.
Qed.
Lemma node_instr : forall pc i, instr p' pc i -> node code pc i.
Proof.
  intros pc i H. unfold instr, p' in H. cbn [p_inst] in H. rewrite nth_error_map in H.
  destruct (nth_error code (N.to_nat pc)) as [x|] eqn:E; [|discriminate]. cbn [option_map] in H. injection H as <-.
  unfold node. rewrite E. destruct (N.lt_ge_cases pc N0) as [L|L].
  - destruct (orig_at pc L) as (x0 & E0 & D0). unfold done in D0.
    destruct x0 as [j|? ? ? ?|?|?]; [|destruct D0 as (j & D0 & _)..]; unfold node in D0; rewrite E in D0; injection D0 as ->; reflexivity.
  - destruct (Sh _ _ L E) as [(? & ? & ? & ? & -> & _)|(? & ? & -> & _)]; reflexivity.
Qed.

Lemma tail_run : forall pc w e, tail N0 code pc w e -> forall u v, line = u ++ w ++ v ->
  clos_refl_trans _ bstep (pc, length u) (e, (length u + length w)%nat).
Proof.
  intros pc w e T.
  induction T as [pc lo hi f o c G L R|pc lo hi f o c w e G L R T IH|pc a w e G L T IH|pc a b w e G L T IH|pc a b w e G L T IH]; intros u v E.
  - apply rt_step. cbn [length]. rewrite Nat.add_1_r. eapply step_consume; [apply instr_node, G| |exact R].
    rewrite E. rewrite nth_error_app2, Nat.sub_diag by lia. reflexivity.
  - eapply rt_trans.
    + apply rt_step. eapply step_consume; [apply instr_node, G| |exact R].
      rewrite E. rewrite nth_error_app2, Nat.sub_diag by lia. reflexivity.
    + specialize (IH (u ++ [c]) v). rewrite app_length in IH. cbn [length] in IH |- *.
      replace (S (length u)) with (length u + 1)%nat by lia. replace (length u + S (length w))%nat with (length u + 1 + length w)%nat by lia.
      apply IH. rewrite E, <- app_assoc. reflexivity.
  - eapply rt_trans; [apply rt_step, step_nop, instr_node, G|]. eapply IH, E.
  - eapply rt_trans; [apply rt_step; eapply step_alt1, instr_node, G|]. eapply IH, E.
  - eapply rt_trans; [apply rt_step; eapply step_alt2, instr_node, G|]. eapply IH, E.
Qed.

Lemma accepts_accepts_nl : forall x w, accepts simple_fold wtf8 x w -> accepts_nl simple_fold x w.
Proof. intros [i|? ? ? ?|o|o] w H; cbn [accepts_nl]; auto. destruct H as (r & _ & U). exists r. exact U. Qed.
Lemma accepts_nl_accepts : forall x u w v, line = u ++ w ++ v -> accepts_nl simple_fold x w -> accepts simple_fold wtf8 x w.
Proof.
  intros [i|? ? ? ?|o|o] u w v E H; cbn [accepts_nl] in H; auto. destruct H as (r & U). exists r. split; [|exact U].
  intros ->. apply wtf8_ascii in U; [|lia]. subst w. apply NoNL. rewrite E. apply in_or_app. right. left. reflexivity.
Qed.

Lemma done_rune : forall x pc o, rune_out x = Some o -> done simple_fold N0 x code pc ->
  exists i, node code pc i /\ gshape N0 code i /\
      forall w e, tail N0 code pc w e <-> rune_out x = Some e /\ accepts_nl simple_fold x w.
Proof. intros [i|? ? ? ?|?|?] pc o E H; [discriminate|exact H..]. Qed.

Lemma rstep_lt : forall s t, rstep s t -> fst t < N0.
Proof.
  intros s t H. destruct W as (_ & Tg & _). rewrite Forall_forall in Tg.
  assert (X : forall pc x o, xinstr p pc x -> In o (xtargets x) -> o < N0).
  { intros pc x o G I. apply nth_error_In in G. specialize (Tg _ G). rewrite Forall_forall in Tg. apply Tg, I. }
  destruct H as [pc k a b G|pc k a b G|pc k a G|pc k w a G Hh|pc k k' i o u w v G E A El Ek Ek']; cbn [fst];
    (eapply X; [exact G|]); cbn [xtargets targets In]; auto.
  destruct i; cbn [rune_out] in E; try discriminate; injection E as ->; left; reflexivity.
Qed.

Lemma rstep_run : forall s t, rstep s t -> fst s < N0 -> clos_refl_trans _ bstep s t.
Proof.
  intros s t H L. destruct H as [pc k a b G|pc k a b G|pc k a G|pc k w a G Hh|pc k k' i o u w v G E A El Ek Ek'];
    cbn [fst] in L; destruct (orig_at pc L) as (x & Ex & Dx); unfold xinstr in G; rewrite G in Ex; injection Ex as <-.
  - apply rt_step. eapply step_alt1, instr_node, Dx.
  - apply rt_step. eapply step_alt2, instr_node, Dx.
  - apply rt_step. eapply step_nop, instr_node, Dx.
  - apply rt_step. eapply step_assert; [apply instr_node, Dx|exact Hh].
  - destruct (done_rune i pc o E Dx) as (j & _ & _ & T).
    subst k k'. apply tail_run with (v := v); [|exact El]. apply T. split; [exact E|]. apply accepts_accepts_nl, A.
Qed.

Lemma runs_forward : forall s t, clos_refl_trans _ rstep s t -> fst s < N0 -> clos_refl_trans _ bstep s t.
Proof.
  intros s t H. apply clos_rt_rt1n in H. induction H as [s|s t z H R IH]; intros L; [apply rt_refl|].
  eapply rt_trans; [apply rstep_run; eauto|]. apply IH. eapply rstep_lt, H.
Qed.

Definition finishes (s : N * nat) : Prop := exists t, clos_refl_trans _ rstep s t /\ xinstr p (fst t) (XB IMatch).

Lemma runs_back : forall s t, clos_refl_trans _ bstep s t -> instr p' (fst t) IMatch ->
  (fst s < N0 -> finishes s) /\
  (N0 <= fst s -> exists u w v e, line = u ++ w ++ v /\ length u = snd s /\ tail N0 code (fst s) w e /\
     finishes (e, (snd s + length w)%nat)).
Proof.
  intros s t H Hm. apply clos_rt_rt1n in H. induction H as [s|s t z H R IH].
  - apply node_instr in Hm. split; intros L.
    + destruct (orig_at _ L) as (x & Ex & Dx). exists s. split; [apply rt_refl|].
      unfold done in Dx. destruct x as [j|? ? ? ?|?|?].
      * pose proof (node_fun _ _ _ _ Hm Dx) as ->. exact Ex.
      * destruct Dx as (j & G & Gs & _). pose proof (node_fun _ _ _ _ Hm G) as <-. destruct Gs.
      * destruct Dx as (j & G & Gs & _). pose proof (node_fun _ _ _ _ Hm G) as <-. destruct Gs.
      * destruct Dx as (j & G & Gs & _). pose proof (node_fun _ _ _ _ Hm G) as <-. destruct Gs.
    + destruct (Sh _ _ L Hm) as [(? & ? & ? & ? & E & _)|(? & ? & E & _)]; discriminate.
  - specialize (IH Hm). destruct IH as [IH1 IH2].
    (* the words from s, given that s is in a gadget *)
    assert (Gd : (exists i, node code (fst s) i /\ ((N0 <= fst s) \/ (gshape N0 code i))) ->
      exists u w v e, line = u ++ w ++ v /\ length u = snd s /\ tail N0 code (fst s) w e /\ finishes (e, (snd s + length w)%nat)).
    { intros (i & Gi & Gor).
      destruct H as [pc k a b G|pc k a b G|pc k a G|pc k wd a G Hh|pc k lo hi f o c G Hc Hr]; cbn [fst snd] in *;
        apply node_instr in G; pose proof (node_fun _ _ _ _ G Gi) as X; subst i.
      - assert (La : N0 <= a) by (destruct Gor as [L|Gs]; [destruct (Sh _ _ L G) as [(? & ? & ? & ? & E & _)|(a2 & b2 & E & Y)]; [discriminate|injection E as <- <-; tauto]|cbn [gshape] in Gs; tauto]).
        destruct (IH2 La) as (u & w & v & e & El & Lu & T & Fi). exists u, w, v, e. repeat (split; auto). eapply t_alt1; eauto.
      - assert (La : N0 <= b) by (destruct Gor as [L|Gs]; [destruct (Sh _ _ L G) as [(? & ? & ? & ? & E & _)|(a2 & b2 & E & Y)]; [discriminate|injection E as <- <-; tauto]|cbn [gshape] in Gs; tauto]).
        destruct (IH2 La) as (u & w & v & e & El & Lu & T & Fi). exists u, w, v, e. repeat (split; auto). eapply t_alt2; eauto.
      - assert (La : N0 <= a) by (destruct Gor as [L|Gs]; [destruct (Sh _ _ L G) as [(? & ? & ? & ? & E & _)|(a2 & b2 & E & Y)]; discriminate|cbn [gshape] in Gs; tauto]).
        destruct (IH2 La) as (u & w & v & e & El & Lu & T & Fi). exists u, w, v, e. repeat (split; auto). eapply t_nop; eauto.
      - exfalso. destruct Gor as [L|Gs]; [destruct (Sh _ _ L G) as [(? & ? & ? & ? & E & _)|(a2 & b2 & E & Y)]; discriminate|exact Gs].
      - destruct (N.lt_ge_cases o N0) as [L|L].
        + apply nth_error_split in Hc. destruct Hc as (u & v & El & Lu). exists u, [c], v, o.
          split; [exact El|]. split; [exact Lu|]. split; [eapply t_exit; eauto|]. cbn [length]. rewrite Nat.add_1_r. apply IH1, L.
        + destruct (IH2 L) as (u & w & v & e & El & Lu & T & Fi).
          assert (Hu : exists u', u = u' ++ [c] /\ length u' = k).
          { destruct (exists_last (l := u)) as (u' & c' & ->); [intros ->; discriminate|].
            rewrite app_length in Lu. cbn [length] in Lu. exists u'. split; [|lia]. f_equal. f_equal.
            rewrite El, <- app_assoc, nth_error_app2 in Hc by lia. replace (k - length u')%nat with 0%nat in Hc by lia.
            cbn [app nth_error] in Hc. injection Hc as ->. reflexivity. }
          destruct Hu as (u' & -> & Lu'). exists u', (c :: w), v, e. rewrite <- app_assoc in El. split; [exact El|]. split; [exact Lu'|].
          split; [eapply t_byte; eauto|]. cbn [length]. replace (k + S (length w))%nat with (S k + length w)%nat by lia. exact Fi. }
    split; intros L.
    + destruct (orig_at _ L) as (x & Ex & Dx).
      assert (Ru : (exists o, rune_out x = Some o) -> finishes s).
      { intros (o & Eo). destruct (done_rune x _ o Eo Dx) as (i & Gi & Gs & T).
        destruct Gd as (u & w & v & e & El & Lu & Tl & Fi); [exists i; auto|].
        apply T in Tl. destruct Tl as [Eo' A]. destruct Fi as (z' & Rz & Mz). exists z'. split; [|exact Mz].
        eapply rt_trans; [|exact Rz]. apply rt_step. destruct s as [pc k]. cbn [fst snd] in *.
        eapply xstep_rune; [exact Ex|exact Eo'|eapply accepts_nl_accepts; eauto|exact El|auto|reflexivity]. }
      destruct x as [j|? ? ? o|o|o]; [|apply Ru; eexists; reflexivity..].
      cbn [done] in Dx.
      assert (Cont : forall a, rstep s (a, snd t) -> fst t = a -> finishes s).
      { intros a Hr <-. destruct IH1 as (z' & Rz & Mz); [apply (rstep_lt _ _ Hr)|]. exists z'. split; [|exact Mz].
        eapply rt_trans; [apply rt_step, Hr|]. destruct t; exact Rz. }
      destruct H as [pc k a b G|pc k a b G|pc k a G|pc k wd a G Hh|pc k lo hi f o c G Hc Hr]; cbn [fst snd] in *;
        apply node_instr in G; pose proof (node_fun _ _ _ _ G Dx) as X; subst j.
      * apply (Cont a); [eapply xstep_alt1, Ex|reflexivity].
      * apply (Cont b); [eapply xstep_alt2, Ex|reflexivity].
      * apply (Cont a); [eapply xstep_nop, Ex|reflexivity].
      * apply (Cont a); [eapply xstep_assert; [exact Ex|exact Hh]|reflexivity].
      * destruct W as (Wr & _). rewrite Forall_forall in Wr. apply nth_error_In in Ex. destruct (Wr _ Ex).
    + apply Gd. destruct H as [pc k a b G|pc k a b G|pc k a G|pc k wd a G Hh|pc k lo hi f o c G Hc Hr]; cbn [fst] in *;
        apply node_instr in G; eauto.
Qed.
End Sim.
