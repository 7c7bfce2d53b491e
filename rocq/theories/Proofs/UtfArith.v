(** The arithmetic of addRange's splitting (utf.go:213-268). *)
From Verif Require Import Model.Base Model.Utf8 Model.Utf Spec.Utf8Spec Spec.RuneProgSpec Proofs.Utf8Proofs.
Local Open Scope N_scope.

Lemma mask_ones : forall k, 2^k - 1 = N.ones k.
Proof. intros. rewrite N.ones_equiv. rewrite N.sub_1_r. reflexivity. Qed.
Lemma land_mask : forall a k, N.land a (2^k - 1) = a mod 2^k.
Proof. intros. rewrite mask_ones. apply N.land_ones. Qed.
Lemma ldiff_mask : forall a k, N.ldiff a (2^k - 1) = a / 2^k * 2^k.
Proof. intros. rewrite mask_ones, N.ldiff_ones_r, N.shiftl_mul_pow2, N.shiftr_div_pow2. reflexivity. Qed.
Lemma lor_mask : forall a k, N.lor a (2^k - 1) = a / 2^k * 2^k + (2^k - 1).
Proof.
  intros. rewrite <- ldiff_mask.
  assert (D : N.land (N.ldiff a (2^k - 1)) (2^k - 1) = 0).
  { apply N.bits_inj. intros n. rewrite N.land_spec, N.ldiff_spec, N.bits_0.
    destruct (N.testbit a n), (N.testbit (2^k - 1) n); reflexivity. }
  rewrite N.add_nocarry_lxor by exact D. rewrite N.lxor_lor by exact D.
  apply N.bits_inj. intros n. rewrite !N.lor_spec, N.ldiff_spec.
  destruct (N.testbit a n), (N.testbit (2^k - 1) n); reflexivity.
Qed.

(** One round of the second splitting loop, with block size [B]. *)
Definition aligned (B lo hi : N) : Prop :=
  lo / B = hi / B \/ (lo mod B = 0 /\ hi mod B = B - 1).

Lemma split_lead_cons : forall i is lo hi, split_lead (i :: is) lo hi =
  let B := 2 ^ (6 * i) in
  if negb (lo / B * B =? hi / B * B) then
    if negb (lo mod B =? 0) then Some (lo / B * B + (B - 1))
    else if negb (hi mod B =? B - 1) then Some (hi / B * B - 1)
    else split_lead is lo hi
  else split_lead is lo hi.
Proof. intros. cbn [split_lead]. rewrite !ldiff_mask, !land_mask, lor_mask. reflexivity. Qed.

Ltac Zify.zify_post_hook ::= Z.to_euclidean_division_equations.

Lemma split_step : forall B lo hi (rest : option N), 0 < B -> lo <= hi ->
  let r := if negb (lo / B * B =? hi / B * B) then
    if negb (lo mod B =? 0) then Some (lo / B * B + (B - 1))
    else if negb (hi mod B =? B - 1) then Some (hi / B * B - 1)
    else rest
  else rest in
  (aligned B lo hi /\ r = rest) \/
  (lo / B < hi / B /\ ((lo mod B <> 0 /\ r = Some (lo / B * B + (B - 1))) \/
                       (lo mod B = 0 /\ hi mod B <> B - 1 /\ r = Some (hi / B * B - 1)))).
Proof.
  intros B lo hi rest HB L. cbv zeta.
  assert (D : lo / B <= hi / B) by (apply N.div_le_mono; lia).
  destruct (N.eqb_spec (lo / B * B) (hi / B * B)) as [E|E]; cbn [negb].
  - left. split; [|reflexivity]. left. apply N.mul_cancel_r in E; lia.
  - assert (D' : lo / B < hi / B) by (destruct (N.eq_dec (lo / B) (hi / B)) as [X|X]; [rewrite X in E|]; lia).
    destruct (N.eqb_spec (lo mod B) 0); cbn [negb]; [|right; split; [exact D'|]; left; split; auto].
    destruct (N.eqb_spec (hi mod B) (B - 1)); cbn [negb]; [left; split; [right; auto|auto]|].
    right. split; [exact D'|]. right. auto.
Qed.

(** The two loops either split the range properly or leave a range that is aligned. *)
Lemma maxRune_1 : maxRune 1 = 0x7F. Proof. reflexivity. Qed.
Lemma maxRune_2 : maxRune 2 = 0x7FF. Proof. reflexivity. Qed.
Lemma maxRune_3 : maxRune 3 = 0xFFFF. Proof. reflexivity. Qed.

Definition same_length (lo hi : N) : Prop :=
  ~ (lo <= 0x7F /\ 0x7F < hi) /\ ~ (lo <= 0x7FF /\ 0x7FF < hi) /\ ~ (lo <= 0xFFFF /\ 0xFFFF < hi).

Lemma split_length_cases : forall lo hi,
  match split_length [1; 2; 3] lo hi with
  | Some m => lo <= m /\ m < hi /\ (m = 0x7F \/ m = 0x7FF \/ m = 0xFFFF)
  | None => same_length lo hi
  end.
Proof.
  intros lo hi. unfold same_length. cbn [split_length]. rewrite maxRune_1, maxRune_2, maxRune_3.
  destruct (N.leb_spec lo 0x7F), (N.ltb_spec 0x7F hi); cbn [andb]; try lia;
  destruct (N.leb_spec lo 0x7FF), (N.ltb_spec 0x7FF hi); cbn [andb]; try lia;
  destruct (N.leb_spec lo 0xFFFF), (N.ltb_spec 0xFFFF hi); cbn [andb]; lia.
Qed.

Lemma split_lead_cases : forall lo hi, lo <= hi -> same_length lo hi -> 0x80 <= hi -> clear_range lo hi ->
  match split_lead [1; 2; 3] lo hi with
  | Some m => lo <= m /\ m < hi /\ clear_range lo m /\ clear_range (m + 1) hi
  | None => aligned 64 lo hi /\ aligned 4096 lo hi /\ aligned 262144 lo hi /\ ~ surrogate lo /\ ~ surrogate hi
  end.
Proof.
  intros lo hi L S H8 C. unfold clear_range, same_length, surrogate in *.
  rewrite !split_lead_cons. cbv zeta.
  change (2 ^ (6 * 1)) with 64. change (2 ^ (6 * 2)) with 4096. change (2 ^ (6 * 3)) with 262144.
  match goal with |- match (if negb (lo / 64 * 64 =? _) then if _ then _ else if _ then _ else ?rest else _) with _ => _ end =>
    destruct (split_step 64 lo hi rest ltac:(lia) L) as [[A1 ->]|[D [[X ->]|(X & Y & ->)]]] end.
  2,3: lia.
  match goal with |- match (if negb (lo / 4096 * 4096 =? _) then if _ then _ else if _ then _ else ?rest else _) with _ => _ end =>
    destruct (split_step 4096 lo hi rest ltac:(lia) L) as [[A2 ->]|[D [[X ->]|(X & Y & ->)]]] end.
  2,3: clear A1; lia.
  match goal with |- match (if negb (lo / 262144 * 262144 =? _) then if _ then _ else if _ then _ else ?rest else _) with _ => _ end =>
    destruct (split_step 262144 lo hi rest ltac:(lia) L) as [[A3 ->]|[D [[X ->]|(X & Y & ->)]]] end.
  2,3: clear A1 A2; lia.
  cbn [split_lead]. split; [exact A1|]. split; [exact A2|]. split; [exact A3|].
  unfold aligned in *. clear A3. lia.
Qed.


(** [wtf8] in digits. *)
Lemma wtf8_cases : forall r w, wtf8 r w <->
  (r < 0x80 /\ w = [r]) \/
  (exists x y, y < 64 /\ r = x * 64 + y /\ 0x80 <= r /\ r < 0x800 /\ w = [0xC0 + x; 0x80 + y]) \/
  (exists x y z, y < 64 /\ z < 64 /\ r = x * 4096 + y * 64 + z /\ 0x800 <= r /\ r < 0x10000 /\
     w = [0xE0 + x; 0x80 + y; 0x80 + z]) \/
  (exists v x y z, x < 64 /\ y < 64 /\ z < 64 /\ r = v * 262144 + x * 4096 + y * 64 + z /\
     0x10000 <= r /\ r <= 0x10FFFF /\ w = [0xF0 + v; 0x80 + x; 0x80 + y; 0x80 + z]).
Proof.
  intros r w. split.
  - intros [U|U].
    + destruct U; subst.
      * left; auto.
      * right; left. exists x, y. repeat (split; auto).
      * right; right; left. exists x, y, z. repeat (split; auto).
      * right; right; right. exists w, x, y, z. repeat (split; auto).
    + destruct U as [r b0 b1 b2 y z S E Hy Hz -> -> ->]. destruct S. right; right; left. exists 13, y, z. repeat (split; try lia).
  - intros [[A ->]|[(x & y & A & E & B & C & ->)|[(x & y & z & A & B & E & C & D & ->)|(v & x & y & z & A & B & C & E & D & F & ->)]]].
    + left. constructor; auto.
    + left. eapply utf8_2; eauto.
    + destruct (N.lt_ge_cases r 0xD800) as [L|L]; [left; eapply utf8_3; eauto; left; lia|].
      destruct (N.lt_ge_cases r 0xE000) as [L'|L']; [|left; eapply utf8_3; eauto; right; lia].
      right. assert (x = 13) by lia. subst x. eapply surrogate_3 with (y := y) (z := z); auto; try lia. split; lia.
    + left. eapply utf8_4; eauto.
Qed.

Lemma utf8_wtf8 : forall r w, utf8 r w -> wtf8 r w.
Proof. left; auto. Qed.

Definition within (lh : N * N) (c : N) : Prop := fst lh <= c /\ c <= snd lh.

Definition piece_goal (lo hi : N) : Prop :=
  length (encode_rune lo) = length (encode_rune hi) /\
  forall w, Forall2 within (combine (encode_rune lo) (encode_rune hi)) w <->
            exists r, lo <= r /\ r <= hi /\ wtf8 r w.

Lemma Forall2_4 : forall (R : N * N -> N -> Prop) a b c d w, Forall2 R [a; b; c; d] w <->
  exists x y z t, w = [x; y; z; t] /\ R a x /\ R b y /\ R c z /\ R d t.
Proof.
  intros R a b c d w. split.
  - intros H. inversion H as [|? x ? l1 A1 H1]; subst. inversion H1 as [|? y ? l2 A2 H2]; subst.
    inversion H2 as [|? z ? l3 A3 H3]; subst. inversion H3 as [|? t ? l4 A4 H4]; subst. inversion H4; subst.
    exists x, y, z, t. auto.
  - intros (x & y & z & t & -> & A & B & C & D). repeat constructor; auto.
Qed.
Lemma Forall2_3 : forall (R : N * N -> N -> Prop) a b c w, Forall2 R [a; b; c] w <->
  exists x y z, w = [x; y; z] /\ R a x /\ R b y /\ R c z.
Proof.
  intros R a b c w. split.
  - intros H. inversion H as [|? x ? l1 A1 H1]; subst. inversion H1 as [|? y ? l2 A2 H2]; subst.
    inversion H2 as [|? z ? l3 A3 H3]; subst. inversion H3; subst.
    exists x, y, z. repeat (split; auto).
  - intros (x & y & z & -> & A & B & C). repeat constructor; auto.
Qed.
Lemma Forall2_2 : forall (R : N * N -> N -> Prop) a b w, Forall2 R [a; b] w <->
  exists x y, w = [x; y] /\ R a x /\ R b y.
Proof.
  intros R a b w. split.
  - intros H. inversion H as [|? x ? l1 A1 H1]; subst. inversion H1 as [|? y ? l2 A2 H2]; subst.
    inversion H2; subst. exists x, y. auto.
  - intros (x & y & -> & A & B). repeat constructor; auto.
Qed.

Lemma scalar_not_surrogate : forall r, r <= 0x10FFFF -> ~ surrogate r -> scalar r.
Proof. unfold scalar, surrogate. intros. lia. Qed.

Lemma div64 : forall x y, y < 64 -> (x * 64 + y) / 64 = x /\ (x * 64 + y) mod 64 = y.
Proof. intros. lia. Qed.
Lemma aligned_split : forall B a b a' b', 0 < B -> b < B -> b' < B ->
  aligned B (a * B + b) (a' * B + b') -> a = a' \/ (b = 0 /\ b' = B - 1).
Proof.
  intros B a b a' b' HB Hb Hb' A. unfold aligned in A.
  assert (X : forall a b, b < B -> (a * B + b) / B = a /\ (a * B + b) mod B = b).
  { intros u v V. split.
    - rewrite N.add_comm, N.div_add by lia. rewrite N.div_small by auto. lia.
    - rewrite N.add_comm, N.mod_add by lia. apply N.mod_small; auto. }
  destruct (X a b Hb) as [E1 E2]. destruct (X a' b' Hb') as [E3 E4]. rewrite E1, E2, E3, E4 in A. exact A.
Qed.
Ltac Zify.zify_post_hook ::= idtac.

Lemma piece : forall lo hi, lo <= hi -> hi <= 0x10FFFF -> same_length lo hi -> 0x80 <= hi ->
  aligned 64 lo hi -> aligned 4096 lo hi -> aligned 262144 lo hi ->
  ~ surrogate lo -> ~ surrogate hi -> piece_goal lo hi.
Proof.
  intros lo hi L M S H8 A1 A2 A3 N1 N2. unfold piece_goal.
  pose proof (encode_rune_utf8 lo (scalar_not_surrogate lo ltac:(lia) N1)) as U1.
  pose proof (encode_rune_utf8 hi (scalar_not_surrogate hi ltac:(lia) N2)) as U2.
  generalize dependent (encode_rune lo). intros ulo U1. generalize dependent (encode_rune hi). intros uhi U2.
  apply utf8_wtf8 in U1. apply utf8_wtf8 in U2. apply wtf8_cases in U1. apply wtf8_cases in U2.
  unfold same_length in S.
  destruct U1 as [[B1 ->]|[(x & y & B1 & B2 & B3 & B4 & ->)|[(x & y & z & B1 & B2 & B3 & B4 & B5 & ->)|(v & x & y & z & B1 & B2 & B3 & B4 & B5 & B6 & ->)]]];
  destruct U2 as [[D1 ->]|[(x' & y' & D1 & D2 & D3 & D4 & ->)|[(x' & y' & z' & D1 & D2 & D3 & D4 & D5 & ->)|(v' & x' & y' & z' & D1 & D2 & D3 & D4 & D5 & D6 & ->)]]]; try (exfalso; lia).
  - split; [reflexivity|]. intros w. cbn [combine]. rewrite Forall2_2. unfold within. cbn [fst snd].
    rewrite B2, D2 in A1. apply aligned_split in A1; [|lia..]. clear A2 A3 N1 N2 S M. split.
    + intros (c & d & -> & E1 & E2). exists ((c - 0xC0) * 64 + (d - 0x80)).
      split; [lia|]. split; [lia|]. apply wtf8_cases. right; left. exists (c - 0xC0), (d - 0x80).
      repeat split; try lia. f_equal; [lia|f_equal; lia].
    + intros (r & R1 & R2 & W). apply wtf8_cases in W.
      destruct W as [[F1 ->]|[(p & q & F1 & F2 & F3 & F4 & ->)|[(p & q & s & F1 & F2 & F3 & F4 & F5 & ->)|(t & p & q & s & F1 & F2 & F3 & F4 & F5 & F6 & ->)]]]; try (exfalso; lia).
      exists (0xC0 + p), (0x80 + q). split; [reflexivity|]. lia.
  - split; [reflexivity|]. intros w. cbn [combine]. rewrite Forall2_3. unfold within. cbn [fst snd].
    assert (G1 : x * 64 + y = x' * 64 + y' \/ (z = 0 /\ z' = 63)).
    { apply (aligned_split 64); try lia. replace ((x * 64 + y) * 64 + z) with lo by lia.
      replace ((x' * 64 + y') * 64 + z') with hi by lia. exact A1. }
    assert (G2 : x = x' \/ (y * 64 + z = 0 /\ y' * 64 + z' = 4095)).
    { apply (aligned_split 4096); try lia. replace (x * 4096 + (y * 64 + z)) with lo by lia.
      replace (x' * 4096 + (y' * 64 + z')) with hi by lia. exact A2. }
    clear A1 A2 A3 N1 N2 S M. split.
    + intros (c & d & e & -> & E1 & E2 & E3). exists ((c - 0xE0) * 4096 + (d - 0x80) * 64 + (e - 0x80)).
      split; [lia|]. split; [lia|]. apply wtf8_cases. right; right; left. exists (c - 0xE0), (d - 0x80), (e - 0x80).
      repeat split; try lia. f_equal; [lia|f_equal; [lia|f_equal; lia]].
    + intros (r & R1 & R2 & W). apply wtf8_cases in W.
      destruct W as [[F1 ->]|[(p & q & F1 & F2 & F3 & F4 & ->)|[(p & q & s & F1 & F2 & F3 & F4 & F5 & ->)|(t & p & q & s & F1 & F2 & F3 & F4 & F5 & F6 & ->)]]]; try (exfalso; lia).
      exists (0xE0 + p), (0x80 + q), (0x80 + s). split; [reflexivity|]. lia.
  - split; [reflexivity|]. intros w. cbn [combine]. rewrite Forall2_4. unfold within. cbn [fst snd].
    assert (G1 : v * 4096 + x * 64 + y = v' * 4096 + x' * 64 + y' \/ (z = 0 /\ z' = 63)).
    { apply (aligned_split 64); try lia. replace ((v * 4096 + x * 64 + y) * 64 + z) with lo by lia.
      replace ((v' * 4096 + x' * 64 + y') * 64 + z') with hi by lia. exact A1. }
    assert (G2 : v * 64 + x = v' * 64 + x' \/ (y * 64 + z = 0 /\ y' * 64 + z' = 4095)).
    { apply (aligned_split 4096); try lia. replace ((v * 64 + x) * 4096 + (y * 64 + z)) with lo by lia.
      replace ((v' * 64 + x') * 4096 + (y' * 64 + z')) with hi by lia. exact A2. }
    assert (G3 : v = v' \/ (x * 4096 + y * 64 + z = 0 /\ x' * 4096 + y' * 64 + z' = 262143)).
    { apply (aligned_split 262144); try lia. replace (v * 262144 + (x * 4096 + y * 64 + z)) with lo by lia.
      replace (v' * 262144 + (x' * 4096 + y' * 64 + z')) with hi by lia. exact A3. }
    clear A1 A2 A3 N1 N2 S M. split.
    + intros (c & d & e & f & -> & E1 & E2 & E3 & E4).
      exists ((c - 0xF0) * 262144 + (d - 0x80) * 4096 + (e - 0x80) * 64 + (f - 0x80)).
      split; [lia|]. split; [lia|]. apply wtf8_cases. right; right; right.
      exists (c - 0xF0), (d - 0x80), (e - 0x80), (f - 0x80).
      repeat split; try lia. f_equal; [lia|f_equal; [lia|f_equal; [lia|f_equal; lia]]].
    + intros (r & R1 & R2 & W). apply wtf8_cases in W.
      destruct W as [[F1 ->]|[(p & q & F1 & F2 & F3 & F4 & ->)|[(p & q & s & F1 & F2 & F3 & F4 & F5 & ->)|(t & p & q & s & F1 & F2 & F3 & F4 & F5 & F6 & ->)]]]; try (exfalso; lia).
      exists (0xF0 + t), (0x80 + p), (0x80 + q), (0x80 + s). split; [reflexivity|]. lia.
Qed.
