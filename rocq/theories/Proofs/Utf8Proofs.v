(** UTF-8 lemmas. *)
From Verif Require Import Model.Base Model.Utf8 Spec.Utf8Spec Spec.IndexSpec.
Local Open Scope N_scope.

Ltac Zify.zify_post_hook ::= Z.to_euclidean_division_equations.

Ltac ncmp :=
  repeat match goal with
  | |- context [?a <? ?b] => destruct (N.ltb_spec a b)
  | |- context [?a <=? ?b] => destruct (N.leb_spec a b)
  | |- context [?a =? ?b] => destruct (N.eqb_spec a b)
  end.
Ltac ncmpH H :=
  repeat match type of H with
  | context [?a <? ?b] => destruct (N.ltb_spec a b)
  | context [?a <=? ?b] => destruct (N.leb_spec a b)
  | context [?a =? ?b] => destruct (N.eqb_spec a b)
  end.

Lemma utf8_scalar : forall r bs, utf8 r bs -> scalar r.
Proof. intros r bs H. destruct H; auto; unfold scalar; lia. Qed.

Lemma utf8_byte : forall r bs, utf8 r bs -> Forall is_byte bs.
Proof. intros r bs H. unfold is_byte. destruct H; repeat constructor; lia. Qed.

Lemma encode_rune_utf8 : forall r, scalar r -> utf8 r (encode_rune r).
Proof.
  intros r S. unfold encode_rune, is_surrogate, max_rune.
  change (2^6) with 64. change (2^12) with 4096. change (2^18) with 262144.
  unfold scalar in S.
  destruct (N.leb_spec r 0x7F). { constructor. lia. }
  destruct (N.leb_spec r 0x7FF). { eapply utf8_2; try reflexivity; lia. }
  assert (E : (0x10FFFF <? r) || (0xD800 <=? r) && (r <=? 0xDFFF) = false).
  { ncmp; cbn [andb orb]; try reflexivity; lia. }
  rewrite E.
  destruct (N.leb_spec r 0xFFFF).
  - eapply utf8_3; try reflexivity; try lia. exact S.
  - eapply utf8_4; try reflexivity; lia.
Qed.

Lemma utf8_fun : forall r b1 b2, utf8 r b1 -> utf8 r b2 -> b1 = b2.
Proof.
  intros r b1 b2 H1 H2. destruct H1; inversion H2; try lia; repeat f_equal; lia.
Qed.

(** Shape of a valid sequence in terms of the decoder's tables. *)
Lemma utf8_lead : forall r bs, utf8 r bs -> 0x80 <= r ->
  exists p0 b1 rest lo hi, bs = p0 :: b1 :: rest /\ 0x80 <= p0 /\ p0 < 0xF8 /\ 0xC0 <= p0 /\
    lead_info p0 = Some (length bs, lo, hi) /\ lo <= b1 /\ b1 <= hi /\
    0x80 <= lo /\ hi <= 0xBF /\
    Forall (fun b => 0x80 <= b /\ b <= 0xBF) rest.
Proof.
  intros r bs H G. destruct H as [r L|r b0 b1 x y E0 E1 Ly Er R1 R2|r b0 b1 b2 x y z E0 E1 E2 Ly Lz Er R1 R2 SC|
    r b0 b1 b2 b3 w x y z E0 E1 E2 E3 Lx Ly Lz Er R1 R2]; [lia| | |]; unfold scalar in *.
  - exists b0, b1, [], 0x80, 0xBF. repeat split; try lia; [|constructor].
    unfold lead_info. ncmp; try lia. reflexivity.
  - assert (V : exists lo hi, lead_info b0 = Some (3%nat, lo, hi) /\ lo <= b1 /\
      b1 <= hi /\ 0x80 <= lo /\ hi <= 0xBF).
    { unfold lead_info. ncmp; try lia; do 2 eexists; (split; [reflexivity|]); lia. }
    destruct V as (lo & hi & V & ? & ? & ? & ?). exists b0, b1, [b2], lo, hi.
    repeat split; try eassumption; try lia. repeat constructor; lia.
  - assert (V : exists lo hi, lead_info b0 = Some (4%nat, lo, hi) /\ lo <= b1 /\
      b1 <= hi /\ 0x80 <= lo /\ hi <= 0xBF).
    { unfold lead_info. ncmp; try lia; do 2 eexists; (split; [reflexivity|]); lia. }
    destruct V as (lo & hi & V & ? & ? & ? & ?). exists b0, b1, [b2; b3], lo, hi.
    repeat split; try eassumption; try lia. repeat constructor; lia.
Qed.

Lemma is_cont_true : forall b, 0x80 <= b -> b <= 0xBF -> is_cont b = true.
Proof. intros. unfold is_cont. ncmp; try lia; reflexivity. Qed.

Lemma decode_utf8 : forall r bs rest, utf8 r bs -> decode_rune (bs ++ rest) = (r, length bs).
Proof.
  intros r bs rest H. destruct (N.ltb_spec r 0x80) as [L|G].
  { inversion H; subst; try lia. cbn [app decode_rune length]. rewrite (proj2 (N.ltb_lt _ _) L). reflexivity. }
  destruct (utf8_lead r bs H G) as (p0 & b1 & rs & lo & hi & E & P0 & P1 & _ & LI & L1 & L2 & L3 & L4 & F).
  subst bs. cbn [app]. unfold decode_rune.
  rewrite (proj2 (N.ltb_ge _ _) P0), LI.
  replace (Nat.ltb (length (p0 :: b1 :: rs ++ rest)) (length (p0 :: b1 :: rs))) with false.
  2:{ symmetry. apply Nat.ltb_ge. cbn [length]. rewrite app_length. lia. }
  rewrite (proj2 (N.ltb_ge _ _) L1), (proj2 (N.ltb_ge _ _) L2). cbn [orb].
  change (2^3) with 8. change (2^4) with 16. change (2^5) with 32.
  change (2^6) with 64. change (2^12) with 4096. change (2^18) with 262144.
  inversion H; subst rs; cbn [length app Nat.leb] in *.
  - f_equal. lia.
  - inversion F as [|? ? X1 X2]. rewrite is_cont_true by lia. cbn [negb]. f_equal. unfold scalar in *. lia.
  - inversion F as [|? ? X1 X2]. inversion X2 as [|? ? X3 X4].
    rewrite !is_cont_true by lia. cbn [negb]. f_equal. lia.
Qed.

Lemma utf8_inj : forall r1 r2 bs, utf8 r1 bs -> utf8 r2 bs -> r1 = r2.
Proof.
  intros r1 r2 bs H1 H2. apply (decode_utf8 _ _ []) in H1, H2. congruence.
Qed.

(** Conversely, a sequence the decoder accepts is an encoding. *)
Lemma decode_accepts : forall p0 p r n, decode_rune (p0 :: p) = (r, n) ->
  p0 < 0x80 \/ n <> 1%nat -> Forall is_byte (p0 :: p) -> exists rest, p0 :: p = firstn n (p0 :: p) ++ rest /\
  utf8 r (firstn n (p0 :: p)) /\ (1 <= n)%nat.
Proof.
  intros p0 p r n D C FB. exists (skipn n (p0 :: p)).
  split; [symmetry; apply firstn_skipn|]. revert D. unfold decode_rune.
  change (2^3) with 8. change (2^4) with 16. change (2^5) with 32.
  change (2^6) with 64. change (2^12) with 4096. change (2^18) with 262144.
  destruct (N.ltb_spec p0 0x80) as [L|G].
  { intros D. injection D as <- <-. cbn [firstn]. split; [constructor; lia|lia]. }
  assert (NE : forall m, (rune_error, 1%nat) = (r, m) -> n = m -> False).
  { intros m X ->. injection X as <- <-. destruct C; [lia|congruence]. }
  destruct (lead_info p0) as [[[sz lo] hi]|] eqn:LI; [|intros D; exfalso; eapply NE; [exact D|reflexivity]].
  destruct (Nat.ltb_spec (length (p0 :: p)) sz); [intros D; exfalso; eapply NE; [exact D|reflexivity]|].
  destruct p as [|b1 p1]; [intros D; exfalso; eapply NE; [exact D|reflexivity]|].
  destruct ((b1 <? lo) || (hi <? b1)) eqn:B1; [intros D; exfalso; eapply NE; [exact D|reflexivity]|].
  apply orb_false_iff in B1 as [B1 B1']. apply N.ltb_ge in B1, B1'.
  destruct (Nat.leb_spec sz 2).
  { intros D. injection D as <- <-. cbn [firstn]. split; [|lia].
    assert (P0 : 0xC2 <= p0 <= 0xDF /\ lo = 0x80 /\ hi = 0xBF).
    { revert LI. unfold lead_info. ncmp; intros LI; try discriminate; injection LI as <- <- <-; lia. }
    apply utf8_2 with (p0 mod 32) (b1 mod 64); lia. }
  destruct p1 as [|b2 p2]; [intros D; exfalso; eapply NE; [exact D|reflexivity]|].
  destruct (is_cont b2) eqn:B2; cbn [negb]; [|intros D; exfalso; eapply NE; [exact D|reflexivity]].
  unfold is_cont in B2. apply andb_true_iff in B2 as [B2 B2']. apply N.leb_le in B2, B2'.
  destruct (Nat.leb_spec sz 3).
  { intros D. injection D as <- <-. cbn [firstn]. split; [|lia].
    assert (P0 : 0xE0 <= p0 <= 0xEF /\ (p0 = 0xE0 -> lo = 0xA0) /\ (p0 = 0xED -> hi = 0x9F) /\ 0x80 <= lo /\ hi <= 0xBF).
    { revert LI. unfold lead_info. ncmp; intros LI; try discriminate; injection LI as <- <- <-; lia. }
    apply utf8_3 with (p0 mod 16) (b1 mod 64) (b2 mod 64); unfold scalar; lia. }
  destruct p2 as [|b3 p3]; [intros D; exfalso; eapply NE; [exact D|reflexivity]|].
  destruct (is_cont b3) eqn:B3; cbn [negb]; [|intros D; exfalso; eapply NE; [exact D|reflexivity]].
  unfold is_cont in B3. apply andb_true_iff in B3 as [B3 B3']. apply N.leb_le in B3, B3'.
  intros D. injection D as <- <-. cbn [firstn]. split; [|lia].
  assert (P0 : 0xF0 <= p0 <= 0xF4 /\ (p0 = 0xF0 -> lo = 0x90) /\ (p0 = 0xF4 -> hi = 0x8F) /\ 0x80 <= lo /\ hi <= 0xBF).
  { revert LI. unfold lead_info. ncmp; intros LI; try discriminate; injection LI as <- <- <-; lia. }
  apply utf8_4 with (p0 mod 8) (b1 mod 64) (b2 mod 64) (b3 mod 64); lia.
Qed.

Ltac Zify.zify_post_hook ::= idtac.

Lemma decode_size : forall p, p <> [] -> (1 <= snd (decode_rune p) <= length p)%nat.
Proof.
  intros [|p0 p] H; [congruence|]. clear H. unfold decode_rune.
  destruct (p0 <? 0x80); [cbn; lia|].
  destruct (lead_info p0) as [[[sz lo] hi]|]; [|cbn; lia].
  destruct (Nat.ltb_spec (length (p0 :: p)) sz); [cbn; lia|].
  destruct p as [|b1 p1]; [cbn; lia|].
  destruct ((b1 <? lo) || (hi <? b1)); [cbn; lia|].
  destruct (Nat.leb_spec sz 2); [cbn; lia|].
  destruct p1 as [|b2 p2]; [cbn; lia|].
  destruct (negb (is_cont b2)); [cbn; lia|].
  destruct (Nat.leb_spec sz 3); [cbn; lia|].
  destruct p2 as [|b3 p3]; [cbn; lia|].
  destruct (negb (is_cont b3)); cbn; lia.
Qed.

Lemma valid_utf8_nil : valid_utf8 [].
Proof. exists []. split; [reflexivity|constructor]. Qed.
Lemma valid_utf8_cons : forall r bs text, utf8 r bs -> valid_utf8 text -> valid_utf8 (bs ++ text).
Proof.
  intros r bs text H (cs & -> & F). exists (bs :: cs). split; [reflexivity|]. constructor; eauto.
Qed.

Lemma utf8_nonempty : forall r bs, utf8 r bs -> bs <> [].
Proof. intros r bs H. destruct H; discriminate. Qed.

Lemma utf8_valid_f_complete : forall cs fuel, Forall (fun bs => exists r, utf8 r bs) cs ->
  (length (concat cs) <= fuel)%nat -> utf8_valid_f fuel (concat cs) = true.
Proof.
  induction cs as [|bs cs IH]; intros fuel F L; cbn [concat] in *.
  { destruct fuel; reflexivity. }
  inversion F as [|? ? [r U] F']; subst. rewrite app_length in L.
  pose proof (utf8_nonempty r bs U) as NE.
  destruct bs as [|c bs']; [congruence|]. cbn [length] in L.
  destruct fuel as [|fuel]; [lia|].
  cbn [app utf8_valid_f]. change (c :: bs' ++ concat cs) with ((c :: bs') ++ concat cs).
  rewrite (decode_utf8 r _ _ U). cbn [snd].
  destruct (N.ltb_spec c 0x80) as [Lc|Gc].
  - inversion U; subst; try lia. cbn [app]. apply IH; [assumption|lia].
  - rewrite (proj2 (Nat.eqb_neq _ _)).
    + rewrite skipn_app, skipn_all, Nat.sub_diag. cbn [app skipn]. apply IH; [assumption|lia].
    + inversion U; subst; cbn; lia.
Qed.

Lemma utf8_valid_f_sound : forall fuel p, Forall is_byte p -> utf8_valid_f fuel p = true -> valid_utf8 p.
Proof.
  induction fuel as [|fuel IH]; intros p FB V.
  { destruct p; [apply valid_utf8_nil|discriminate]. }
  destruct p as [|c r]; [apply valid_utf8_nil|].
  cbn [utf8_valid_f] in V. destruct (N.ltb_spec c 0x80) as [L|G].
  - apply (valid_utf8_cons c [c]); [constructor; assumption|]. apply IH; [inversion FB; assumption|assumption].
  - destruct (Nat.eqb_spec (snd (decode_rune (c :: r))) 1) as [|NE]; [discriminate|].
    destruct (decode_rune (c :: r)) as [x n] eqn:D. cbn [snd] in *.
    destruct (decode_accepts c r x n D (or_intror NE) FB) as (rest & E & U & _).
    assert (E' : rest = skipn n (c :: r)).
    { rewrite <- (firstn_skipn n (c :: r)) in E at 1. apply app_inv_head in E. congruence. }
    rewrite E. apply (valid_utf8_cons x); [assumption|]. subst rest. apply IH; [|assumption].
    apply Forall_forall. intros b Hb. rewrite Forall_forall in FB. apply FB.
    rewrite <- (firstn_skipn n (c :: r)). apply in_or_app. right. assumption.
Qed.

Lemma utf8_valid_iff : forall p, Forall is_byte p -> (utf8_valid p = true <-> valid_utf8 p).
Proof.
  intros p FB. split.
  - apply utf8_valid_f_sound. assumption.
  - intros (cs & -> & F). apply utf8_valid_f_complete; [assumption|lia].
Qed.


Lemma valid_partial_f_prefix : forall cs fuel n, Forall (fun bs => exists r, utf8 r bs) cs ->
  (length (firstn n (concat cs)) <= fuel)%nat -> valid_partial_f fuel (firstn n (concat cs)) = true.
Proof.
  induction cs as [|bs cs IH]; intros fuel n F L; cbn [concat] in *.
  { rewrite firstn_nil. destruct fuel; reflexivity. }
  inversion F as [|? ? [r U] F']; subst.
  pose proof (utf8_nonempty r bs U) as NE.
  rewrite firstn_app in *.
  destruct (Nat.le_gt_cases (length bs) n) as [LE|GT].
  - rewrite firstn_all2 in * by assumption. rewrite app_length in L.
    destruct bs as [|c bs']; [congruence|]. cbn [length] in L.
    destruct fuel as [|fuel]; [lia|].
    cbn [app valid_partial_f].
    change (c :: bs' ++ firstn (n - length (c :: bs')) (concat cs)) with ((c :: bs') ++ firstn (n - length (c :: bs')) (concat cs)).
    rewrite (decode_utf8 r _ _ U). cbn [snd].
    destruct (N.ltb_spec c 0x80) as [Lc|Gc].
    + inversion U; subst; try lia. cbn [app]. apply IH; [assumption|cbn [length] in *; lia].
    + replace (Nat.eqb (length (c :: bs')) 1) with false.
      * rewrite skipn_app, skipn_all, Nat.sub_diag. cbn [app skipn]. apply IH; [assumption|cbn [length] in *; lia].
      * symmetry. apply Nat.eqb_neq. inversion U; subst; cbn [length]; lia.
  - replace (n - length bs)%nat with 0%nat in * by lia. cbn [firstn] in *. rewrite app_nil_r in *.
    destruct n as [|n]; [destruct fuel; reflexivity|].
    destruct (N.ltb_spec r 0x80) as [Lr|Gr].
    { inversion U; subst; cbn [length] in GT; lia. }
    destruct (utf8_lead r bs U Gr) as (p0 & b1 & rs & lo & hi & E & P0 & P1 & P2 & LI & _).
    rewrite E in *. cbn [firstn] in *. destruct fuel as [|fuel]; [cbn [length] in L; lia|].
    cbn [valid_partial_f]. rewrite (proj2 (N.ltb_ge _ _) P0).
    assert (LN : (length (firstn n (b1 :: rs)) = n)%nat) by (rewrite firstn_length; cbn [length] in *; lia).
    assert (D : snd (decode_rune (p0 :: firstn n (b1 :: rs))) = 1%nat).
    { unfold decode_rune. rewrite (proj2 (N.ltb_ge _ _) P0), LI.
      replace (Nat.ltb (length (p0 :: firstn n (b1 :: rs))) (length (p0 :: b1 :: rs))) with true; [reflexivity|].
      symmetry. apply Nat.ltb_lt. cbn [length] in *. lia. }
    rewrite D. cbn [Nat.eqb]. apply andb_true_iff. split.
    + apply Nat.ltb_lt. cbn [length]. rewrite LN. inversion U; subst; cbn [length] in *; lia.
    + unfold rune_start, is_cont. ncmp; try reflexivity; lia.
Qed.

Lemma valid_partial_prefix : forall text n, valid_utf8 text -> valid_partial (firstn n text) = true.
Proof. intros text n (cs & -> & F). apply valid_partial_f_prefix; [assumption|lia]. Qed.

Lemma is_text_valid : forall text, valid_utf8 text -> is_text text = true.
Proof.
  intros text V. unfold is_text.
  destruct (Nat.ltb_spec (length (firstn file_peek_size text)) file_peek_size) as [L|G].
  - rewrite firstn_all2 by (rewrite firstn_length in L; lia).
    destruct V as (cs & -> & F). apply utf8_valid_f_complete; [assumption|lia].
  - apply valid_partial_prefix. assumption.
Qed.

Lemma is_text_small : forall text, Forall is_byte text -> (length text < 2048)%nat ->
  (is_text text = true <-> valid_utf8 text).
Proof.
  intros text FB L. unfold is_text. rewrite firstn_all2 by (unfold file_peek_size; lia).
  rewrite (proj2 (Nat.ltb_lt _ _)) by (unfold file_peek_size; lia).
  apply utf8_valid_iff. assumption.
Qed.
