(** toByteProg: final statements. *)
From Coq Require Import Relations.
From Verif Require Import Model.Base Model.Utf8 Model.Matcher Model.Utf Spec.Utf8Spec Spec.RegexSpec Spec.MatchSpec
  Spec.RuneProgSpec Proofs.Utf8Proofs Proofs.UtfArith Proofs.UtfBuild Proofs.UtfClass Proofs.UtfProg.
Local Open Scope N_scope.

Lemma byte_prog_ok : forall simple_fold orbit_max p, ascii_case simple_fold -> wf_xprog simple_fold orbit_max p ->
  exists p', toByteProg simple_fold orbit_max p = Some p' /\
    (N.of_nat (length (p_inst p')) < 2^32 - 1 -> wf_prog p') /\
    forall bot eot line, ~ In 10 line ->
      (line_match p' bot eot line <-> rune_match simple_fold wtf8 p bot eot line).
Proof.
  intros sf om p AC W. pose proof W as (Wr & Tg & St). fold (nlen (x_inst p)) in Tg, St.
  set (N0 := nlen (x_inst p)) in *.
  assert (Sh0 : shape N0 (x_inst p)).
  { intros pc x L E. assert (nth_error (x_inst p) (N.to_nat pc) <> None) as X by (rewrite E; discriminate).
    apply nth_error_Some in X. subst N0. unfold nlen in L. lia. }
  destruct (byte_insts_ok sf om AC N0 (x_inst p) (length (x_inst p)) 0 (x_inst p) eq_refl eq_refl Wr Tg Sh0 (N.le_refl _)
             ltac:(intros; lia) ltac:(intros; reflexivity)) as (code & E & Sh & Ln & D).
  unfold toByteProg. rewrite E. cbn [bind]. eexists. split; [reflexivity|]. split.
  - cbn [p_inst]. rewrite map_length. intros Sz. split; [cbn [p_inst]; rewrite map_length; exact Sz|].
    cbn [p_inst p_start]. rewrite map_length. split; [unfold nlen in *; lia|].
    intros i I. apply in_map_iff in I. destruct I as (x & Ex & I). apply In_nth_error in I. destruct I as (q & Eq).
    destruct (N.lt_ge_cases (N.of_nat q) N0) as [L|L].
    + destruct (nth_error (x_inst p) q) as [x0|] eqn:E0; [|apply nth_error_None in E0; subst N0; unfold nlen in L; lia].
      pose proof (D q x0 E0) as Dq. rewrite Forall_forall in Tg. specialize (Tg x0 (nth_error_In _ _ E0)).
      unfold node in Dq. unfold done in Dq.
      destruct x0 as [j|? ? ? ?|?|?].
      * unfold node in Dq. rewrite Nat2N.id, Eq in Dq. injection Dq as ->. subst i. cbn [plain xtargets] in *.
        eapply Forall_impl; [|exact Tg]. intros a A. cbn beta in A. unfold nlen in Ln. lia.
      * destruct Dq as (j & G & Gs & _). unfold node in G. rewrite Nat2N.id, Eq in G. injection G as ->. subst i. cbn [plain].
        destruct j; cbn [gshape targets] in *; unfold nlen in *; try contradiction; repeat constructor; lia.
      * destruct Dq as (j & G & Gs & _). unfold node in G. rewrite Nat2N.id, Eq in G. injection G as ->. subst i. cbn [plain].
        destruct j; cbn [gshape targets] in *; unfold nlen in *; try contradiction; repeat constructor; lia.
      * destruct Dq as (j & G & Gs & _). unfold node in G. rewrite Nat2N.id, Eq in G. injection G as ->. subst i. cbn [plain].
        destruct j; cbn [gshape targets] in *; unfold nlen in *; try contradiction; repeat constructor; lia.
    + specialize (Sh (N.of_nat q) x L). rewrite Nat2N.id in Sh. destruct (Sh Eq) as [(lo & hi & f & o & -> & Y)|(a & b & -> & Y)]; subst i; cbn [plain targets].
      * constructor; [|constructor]. destruct Y as [Y|Y]; [unfold nlen in *; lia|]. apply byte_node_lt in Y. unfold nlen in *. lia.
      * unfold nlen in *. repeat constructor; lia.
  - intros bot eot line NL. unfold line_match, rune_match. cbn [p_start]. split.
    + intros (k0 & pc & k & Lk & R & M). exists k0.
      destruct (runs_back sf om p W code Sh Ln D line bot eot NL _ _ R M) as [F _]. cbn [fst] in F.
      destruct (F St) as ([pc' k'] & R' & M'). exists pc', k'. auto.
    + intros (k0 & pc & k & Lk & R & M). exists k0, pc, k. split; [exact Lk|]. split.
      * apply (runs_forward sf om p W code Ln D line bot eot); [exact R|exact St].
      * pose proof (D _ _ M) as Dq. cbn [done] in Dq. rewrite N2Nat.id in Dq. unfold instr. cbn [p_inst]. rewrite nth_error_map.
        unfold node in Dq. rewrite Dq. reflexivity.
Qed.

(** On lines without encoded surrogates the encoding is UTF-8. *)
Definition no_surrogates (line : list N) : Prop :=
  forall r u w v, surrogate_bytes r w -> line <> u ++ w ++ v.

Lemma rune_match_mono : forall sf (e1 e2 : N -> list N -> Prop) p bot eot line,
  (forall r u w v, line = u ++ w ++ v -> e1 r w -> e2 r w) ->
  rune_match sf e1 p bot eot line -> rune_match sf e2 p bot eot line.
Proof.
  intros sf e1 e2 p bot eot line I (k0 & pc & k & L & R & M). exists k0, pc, k. split; [exact L|]. split; [|exact M].
  clear L M. induction R as [s t H|s|s t z _ IH1 _ IH2]; [|apply rt_refl|eapply rt_trans; eauto].
  apply rt_step. destruct H as [pc1 k1 a b G|pc1 k1 a b G|pc1 k1 a G|pc1 k1 w a G Hh|pc1 k1 k' i o u w v G E A El Ek Ek'].
  - eapply xstep_alt1, G.
  - eapply xstep_alt2, G.
  - eapply xstep_nop, G.
  - eapply xstep_assert; eauto.
  - eapply xstep_rune; [exact G|exact E| |exact El|exact Ek|exact Ek'].
    destruct i as [|one rs [|] o'|o'|o']; cbn [accepts] in A |- *.
    + exact A.
    + destruct A as (r & r' & A1 & A2 & A3). exists r, r'. split; [exact A1|]. split; [exact A2|]. eapply I; eauto.
    + destruct A as (r & A1 & A3). exists r. split; [exact A1|]. eapply I; eauto.
    + destruct A as (r & A3). exists r. eapply I; eauto.
    + destruct A as (r & A1 & A3). exists r. split; [exact A1|]. eapply I; eauto.
Qed.

Theorem byte_prog_utf8 : forall simple_fold orbit_max p, ascii_case simple_fold -> wf_xprog simple_fold orbit_max p ->
  exists p', toByteProg simple_fold orbit_max p = Some p' /\
    forall bot eot line, ~ In 10 line -> no_surrogates line ->
      (line_match p' bot eot line <-> rune_match simple_fold utf8 p bot eot line).
Proof.
  intros sf om p AC W. destruct (byte_prog_ok sf om p AC W) as (p' & E & _ & H). exists p'. split; [exact E|].
  intros bot eot line NL NS. rewrite (H bot eot line NL). split; apply rune_match_mono.
  - intros r u w v El [U|U]; [exact U|]. exfalso. eapply NS; eauto.
  - intros r u w v El U. left. exact U.
Qed.

(** Valid UTF-8 has no encoded surrogates. *)
Lemma utf8_head : forall r w, utf8 r w -> exists b ws, w = b :: ws /\ (b < 0x80 \/ 0xC0 <= b) /\ Forall (fun c => 0x80 <= c /\ c < 0xC0) ws /\
  (b = 0xED -> exists c ws', ws = c :: ws' /\ c < 0xA0).
Proof.
  intros r w U. destruct U as [r L|r b0 b1 x y -> -> A E B C|r b0 b1 b2 x y z -> -> -> A B E C D S|r b0 b1 b2 b3 t x y z -> -> -> -> A B C E D F].
  - exists r, []. split; [reflexivity|]. split; [lia|]. split; [constructor|]. lia.
  - exists (0xC0 + x), [0x80 + y]. split; [reflexivity|]. split; [lia|]. split; [repeat constructor; lia|]. lia.
  - exists (0xE0 + x), [0x80 + y; 0x80 + z]. split; [reflexivity|]. split; [lia|]. split; [repeat constructor; lia|].
    intros X. exists (0x80 + y), [0x80 + z]. split; [reflexivity|]. unfold scalar in S. lia.
  - exists (0xF0 + t), [0x80 + x; 0x80 + y; 0x80 + z]. split; [reflexivity|]. split; [lia|]. split; [repeat constructor; lia|]. lia.
Qed.
Lemma valid_no_surrogates : forall line, valid_utf8 line -> no_surrogates line.
Proof.
  intros line (chars & -> & F) r u w v S. revert u.
  assert (Hw : exists b1 b2, w = [0xED; b1; b2] /\ 0xA0 <= b1 /\ b1 < 0xC0).
  { destruct S as [r b0 b1 b2 y z [S1 S2] E A B -> -> ->]. exists (0x80 + y), (0x80 + z). split; [reflexivity|]. lia. }
  destruct Hw as (b1 & b2 & -> & A1 & A2). clear S.
  induction F as [|c chars (r0 & U) F IH]; intros u E; cbn [concat] in E.
  - destruct u; discriminate.
  - destruct (utf8_head _ _ U) as (b & ws & -> & Hb & Fw & Hed).
    destruct (Nat.le_gt_cases (length (b :: ws)) (length u)) as [L|L].
    + apply (IH (skipn (length (b :: ws)) u)). apply (f_equal (skipn (length (b :: ws)))) in E.
      rewrite skipn_app, skipn_all, Nat.sub_diag in E. cbn [app] in E. rewrite skipn_O in E. rewrite E.
      rewrite skipn_app. replace (length (b :: ws) - length u)%nat with 0%nat by lia. reflexivity.
    + destruct u as [|b' u]; cbn [app] in E.
      * injection E as -> E. destruct (Hed eq_refl) as (c & ws' & -> & Hc). cbn [app] in E. injection E as -> E. lia.
      * injection E as <- E. cbn [length] in L.
        assert (X : nth_error (ws ++ concat chars) (length u) = Some 0xED) by (rewrite E, nth_error_app2, Nat.sub_diag by lia; reflexivity).
        rewrite nth_error_app1 in X by lia. apply nth_error_In in X. rewrite Forall_forall in Fw. specialize (Fw _ X). lia.
Qed.

(** A checker for small programs without assertions, for the concrete cases. *)
Definition in_range_b (lo hi : N) (f : bool) (c : N) : bool :=
  let c := if f && (97 <=? c) && (c <=? 122) then c - 32 else c in (lo <=? c) && (c <=? hi).
Lemma in_range_b_ok : forall lo hi f c, in_range_b lo hi f c = true <-> MatchSpec.in_range lo hi f c.
Proof.
  intros lo hi f c. unfold in_range_b, MatchSpec.in_range. destruct f; cbn [andb].
  - destruct (N.leb_spec 97 c), (N.leb_spec c 122); cbn [andb]; rewrite andb_true_iff, !N.leb_le; lia.
  - rewrite andb_true_iff, !N.leb_le. reflexivity.
Qed.
Fixpoint reach (fuel : nat) (p : prog) (line : list N) (pc : N) (k : nat) : option bool :=
  match fuel with
  | O => None
  | S f =>
      match nth_error (p_inst p) (N.to_nat pc) with
      | Some IMatch => Some true
      | Some (INop a) => reach f p line a k
      | Some (IAlt a b) =>
          match reach f p line a k, reach f p line b k with
          | Some x, Some y => Some (x || y) | _, _ => None end
      | Some (IByte lo hi fo o) =>
          match nth_error line k with
          | Some c => if in_range_b lo hi fo c then reach f p line o (S k) else Some false
          | None => Some false
          end
      | Some (IEmpty _ _) => None
      | _ => Some false
      end
  end.
Lemma reach_ok : forall f p line bot eot pc k b, reach f p line pc k = Some b ->
  (b = true <-> exists t, clos_refl_trans _ (step p line bot eot) (pc, k) t /\ instr p (fst t) IMatch).
Proof.
  intros f p line bot eot. induction f as [|f IH]; intros pc k b E; [discriminate|]. cbn [reach] in E.
  assert (Inv : forall t, clos_refl_trans _ (step p line bot eot) (pc, k) t -> t = (pc, k) \/
            exists s, step p line bot eot (pc, k) s /\ clos_refl_trans _ (step p line bot eot) s t).
  { intros t R. apply clos_rt_rt1n in R. inversion R as [|s t' H R']; subst; [left; reflexivity|]. right. exists s. split; [exact H|]. apply clos_rt1n_rt, R'. }
  assert (Stop : (forall s, ~ step p line bot eot (pc, k) s) -> nth_error (p_inst p) (N.to_nat pc) <> Some IMatch -> b = false ->
     (b = true <-> exists t, clos_refl_trans _ (step p line bot eot) (pc, k) t /\ instr p (fst t) IMatch)).
  { intros Ns Nm ->. split; [discriminate|]. intros (t & R & M). destruct (Inv t R) as [->|(s & H & _)]; [contradiction|destruct (Ns _ H)]. }
  destruct (nth_error (p_inst p) (N.to_nat pc)) as [[a a'|a|wd a| | |lo hi fo o|]|] eqn:G.
  - destruct (reach f p line a k) as [x|] eqn:E1; [|discriminate]. destruct (reach f p line a' k) as [y|] eqn:E2; [|discriminate].
    injection E as <-. rewrite orb_true_iff. rewrite (IH _ _ _ E1), (IH _ _ _ E2). split.
    + intros [(t & R & M)|(t & R & M)]; exists t; (split; [|exact M]); (eapply rt_trans; [apply rt_step|exact R]); [eapply step_alt1|eapply step_alt2]; exact G.
    + intros (t & R & M). destruct (Inv t R) as [->|(s & H & R')]; [unfold instr in M; cbn [fst] in M; rewrite G in M; discriminate|].
      inversion H as [? ? ? ? X|? ? ? ? X|? ? ? X|? ? ? ? X|? ? ? ? ? ? ? X]; subst; unfold instr in X; rewrite G in X; try discriminate; injection X as <- <-; [left|right]; eauto.
  - rewrite (IH _ _ _ E). split.
    + intros (t & R & M). exists t. split; [|exact M]. eapply rt_trans; [apply rt_step, step_nop, G|exact R].
    + intros (t & R & M). destruct (Inv t R) as [->|(s & H & R')]; [unfold instr in M; cbn [fst] in M; rewrite G in M; discriminate|].
      inversion H as [? ? ? ? X|? ? ? ? X|? ? ? X|? ? ? ? X|? ? ? ? ? ? ? X]; subst; unfold instr in X; rewrite G in X; try discriminate; injection X as <-. eauto.
  - discriminate.
  - injection E as <-. split; [|reflexivity]. intros _. exists (pc, k). split; [apply rt_refl|exact G].
  - injection E as <-. apply Stop; auto; [|discriminate].
    intros s H. inversion H as [? ? ? ? X|? ? ? ? X|? ? ? X|? ? ? ? X|? ? ? ? ? ? ? X]; subst; unfold instr in X; rewrite G in X; discriminate.
  - destruct (nth_error line k) as [c|] eqn:Ec.
    + destruct (in_range_b lo hi fo c) eqn:Er.
      * rewrite (IH _ _ _ E). apply in_range_b_ok in Er. split.
        -- intros (t & R & M). exists t. split; [|exact M]. eapply rt_trans; [apply rt_step; eapply step_consume; eauto|exact R].
        -- intros (t & R & M). destruct (Inv t R) as [->|(s & H & R')]; [unfold instr in M; cbn [fst] in M; rewrite G in M; discriminate|].
           inversion H as [? ? ? ? X|? ? ? ? X|? ? ? X|? ? ? ? X|? ? ? ? ? ? ? X]; subst; unfold instr in X; rewrite G in X; try discriminate; injection X as <- <- <- <-. eauto.
      * injection E as <-. apply Stop; auto; [|discriminate].
        intros s H. inversion H as [? ? ? ? X|? ? ? ? X|? ? ? X|? ? ? ? X|? ? ? ? ? ? ? X Y Z]; subst; unfold instr in X; rewrite G in X; try discriminate.
        injection X as <- <- <- <-. rewrite Ec in Y. injection Y as <-. apply in_range_b_ok in Z. congruence.
    + injection E as <-. apply Stop; auto; [|discriminate].
      intros s H. inversion H as [? ? ? ? X|? ? ? ? X|? ? ? X|? ? ? ? X|? ? ? ? ? ? ? X Y Z]; subst; unfold instr in X; rewrite G in X; try discriminate. congruence.
  - injection E as <-. apply Stop; auto; [|discriminate].
    intros s H. inversion H as [? ? ? ? X|? ? ? ? X|? ? ? X|? ? ? ? X|? ? ? ? ? ? ? X]; subst; unfold instr in X; rewrite G in X; discriminate.
  - injection E as <-. apply Stop; auto; [|discriminate].
    intros s H. inversion H as [? ? ? ? X|? ? ? ? X|? ? ? X|? ? ? ? X|? ? ? ? ? ? ? X]; subst; unfold instr in X; rewrite G in X; discriminate.
Qed.

Definition all_reach (f : nat) (p : prog) (line : list N) : list (option bool) :=
  map (reach f p line (p_start p)) (seq 0 (S (length line))).
Lemma reach_match : forall f p bot eot line, In (Some true) (all_reach f p line) -> line_match p bot eot line.
Proof.
  intros f p bot eot line H. apply in_map_iff in H. destruct H as (k & E & I). apply in_seq in I.
  destruct (proj1 (reach_ok f p line bot eot _ _ _ E) eq_refl) as ([pc k'] & R & M). exists k, pc, k'. split; [lia|]. auto.
Qed.
Lemma reach_no_match : forall f p bot eot line, Forall (eq (Some false)) (all_reach f p line) -> ~ line_match p bot eot line.
Proof.
  intros f p bot eot line F (k0 & pc & k & L & R & M). rewrite Forall_forall in F.
  assert (E : Some false = reach f p line (p_start p) k0) by (apply F, in_map, in_seq; lia).
  pose proof (proj2 (reach_ok f p line bot eot _ _ _ (eq_sym E)) (ex_intro _ (pc, k) (conj R M))). discriminate.
Qed.
