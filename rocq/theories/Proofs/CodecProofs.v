From Verif Require Import Model.Base Model.Codec Proofs.Arith.
From Coq Require Import ZifyBool ZifyNat ZifyN.
Ltac Zify.zify_post_hook ::= Z.div_mod_to_equations.
Local Open Scope N_scope.

Lemma put_uint32_length : forall x, length (put_uint32 x) = 4%nat.
Proof. reflexivity. Qed.

Lemma get_put_uint32 : forall x rest, x < 2^32 ->
  get_uint32 (put_uint32 x ++ rest) = Some x.
Proof.
  intros x rest H. cbn [put_uint32 get_uint32 app]. f_equal. lia.
Qed.

Lemma put_trigram_length : forall x, length (put_trigram x) = 3%nat.
Proof. reflexivity. Qed.

Lemma get_put_trigram : forall t rest, t < 2^24 ->
  get_trigram (put_trigram t ++ rest) = Some t.
Proof.
  intros x rest H. cbn [put_trigram get_trigram app]. f_equal. lia.
Qed.

Lemma get_uvarint_cont : forall i s x y rest,
  get_uvarint_from i s x (cont_byte y :: rest)
  = get_uvarint_from (S i) (s+7) ((x + (y mod 128) * 2^s) mod 2^64) rest.
Proof.
  intros. cbn [get_uvarint_from]. unfold cont_byte. rewrite lor_128_mod_256.
  destruct (y mod 128 + 128 <? 128) eqn:E; [apply N.ltb_lt in E; lia|].
  f_equal. f_equal. f_equal. f_equal.
  rewrite N.add_mod by lia. rewrite N.mod_same by lia. rewrite N.add_0_r.
  rewrite !N.mod_mod by lia. reflexivity.
Qed.

Lemma get_uvarint_last : forall i s x y rest, (i < 9)%nat -> y < 128 ->
  get_uvarint_from i s x (y :: rest) = Some ((x + y * 2^s) mod 2^64, S i).
Proof.
  intros. cbn [get_uvarint_from].
  replace (y <? 128) with true by (symmetry; apply N.ltb_lt; lia).
  replace (Nat.ltb 9 i) with false by (symmetry; apply Nat.ltb_ge; lia).
  replace (Nat.eqb i 9) with false by (symmetry; apply Nat.eqb_neq; lia).
  reflexivity.
Qed.

Ltac Zify.zify_post_hook ::= idtac.
Lemma get_put_uvarint : forall x rest, x < 2^32 ->
  get_uvarint (put_uvarint x ++ rest) = Some (x, length (put_uvarint x)).
Proof.
  intros x rest H. unfold put_uvarint, get_uvarint.
  replace (x / 2^28) with (x / 128 / 128 / 128 / 128) by (rewrite !N.div_div by discriminate; reflexivity).
  replace (x / 2^21) with (x / 128 / 128 / 128) by (rewrite !N.div_div by discriminate; reflexivity).
  replace (x / 2^14) with (x / 128 / 128) by (rewrite !N.div_div by discriminate; reflexivity).
  change (x / 2^7) with (x / 128).
  pose proof (N.div_mod' x 128) as D0. pose proof (N.mod_lt x 128 ltac:(discriminate)) as L0.
  remember (x / 128) as q1 eqn:Q1. remember (x mod 128) as r0 eqn:R0.
  pose proof (N.div_mod' q1 128) as D1. pose proof (N.mod_lt q1 128 ltac:(discriminate)) as L1.
  remember (q1 / 128) as q2 eqn:Q2. remember (q1 mod 128) as r1 eqn:R1.
  pose proof (N.div_mod' q2 128) as D2. pose proof (N.mod_lt q2 128 ltac:(discriminate)) as L2.
  remember (q2 / 128) as q3 eqn:Q3. remember (q2 mod 128) as r2 eqn:R2.
  pose proof (N.div_mod' q3 128) as D3. pose proof (N.mod_lt q3 128 ltac:(discriminate)) as L3.
  remember (q3 / 128) as q4 eqn:Q4. remember (q3 mod 128) as r3 eqn:R3.
  clear Q1 Q2 Q3 Q4.
  change (2^32) with 4294967296 in H.
  destruct (x <? 2^7) eqn:E1; [|destruct (x <? 2^14) eqn:E2;
    [|destruct (x <? 2^21) eqn:E3; [|destruct (x <? 2^28) eqn:E4]]];
  rewrite ?N.ltb_lt, ?N.ltb_ge in *;
  change (2^7) with 128 in *; try change (2^14) with 16384 in *;
  try change (2^21) with 2097152 in *; try change (2^28) with 268435456 in *;
  cbn [app length]; rewrite ?get_uvarint_cont;
  match goal with |- context[?y mod 256 :: rest] =>
    rewrite (N.mod_small y 256) by (clear R0 R1 R2 R3; lia) end;
  (rewrite get_uvarint_last; [|apply Nat.ltb_lt; reflexivity|clear R0 R1 R2 R3; lia]);
  rewrite <- ?R0, <- ?R1, <- ?R2, <- ?R3; clear R0 R1 R2 R3;
  f_equal; f_equal; 
  change (0+7+7+7+7) with 28; change (0+7+7+7) with 21; change (0+7+7) with 14; change (0+7) with 7;
  change (2^0) with 1; change (2^7) with 128; change (2^14) with 16384;
  change (2^21) with 2097152; change (2^28) with 268435456;
  change (2^64) with 18446744073709551616.
  all: repeat match goal with |- context[?a mod 18446744073709551616] =>
         lazymatch a with
         | context[_ mod _] => fail
         | _ => rewrite (N.mod_small a 18446744073709551616) by lia
         end end.
  all: try lia.
Qed.

Ltac Zify.zify_post_hook ::= Z.div_mod_to_equations.

Lemma put_uvarint_zero_iff : forall x, x < 2^32 ->
  (hd 1 (put_uvarint x) = 0 <-> x = 0).
Proof.
  intros x H. unfold put_uvarint, cont_byte.
  repeat match goal with |- context[if ?b then _ else _] => destruct b eqn:? end;
  cbn [hd]; rewrite ?lor_128_mod_256; lia.
Qed.

Lemma put_uvarint_nonempty : forall x, put_uvarint x <> [].
Proof.
  intros. unfold put_uvarint.
  repeat match goal with |- context[if ?b then _ else _] => destruct b end; discriminate.
Qed.

Lemma put_uvarint_le5 : forall x, (length (put_uvarint x) <= 5)%nat.
Proof.
  intros. unfold put_uvarint.
  repeat match goal with |- context[if ?b then _ else _] => destruct b end; cbn; lia.
Qed.

Lemma put_uvarint_bytes : forall x, Forall is_byte (put_uvarint x).
Proof.
  intros. unfold put_uvarint, cont_byte.
  repeat match goal with |- context[if ?b then _ else _] => destruct b end;
  repeat constructor; unfold is_byte; apply N.mod_lt; discriminate.
Qed.
Ltac Zify.zify_post_hook ::= idtac.
