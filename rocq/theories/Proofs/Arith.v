(** Arithmetic helpers. *)
From Verif Require Import Model.Base.
From Coq Require Import ZifyBool ZifyNat ZifyN.
Ltac Zify.zify_post_hook ::= Z.div_mod_to_equations.
Local Open Scope N_scope.

Lemma lor_128_mod_256 : forall x, (N.lor x 128) mod 256 = x mod 128 + 128.
Proof.
  intros x.
  change ((N.lor x (2^7)) mod 2^8 = x mod 2^7 + 2^7).
  assert (H : (N.lor x (2^7)) mod 2^8 = N.lor (x mod 2^7) (2^7)).
  { apply N.bits_inj. intros n.
    rewrite N.lor_spec.
    destruct (N.lt_ge_cases n 8) as [H|H].
    - rewrite N.mod_pow2_bits_low by lia. rewrite N.lor_spec.
      destruct (N.lt_ge_cases n 7).
      + rewrite N.mod_pow2_bits_low by lia. reflexivity.
      + rewrite N.mod_pow2_bits_high by lia.
        replace n with 7 by lia.
        rewrite N.pow2_bits_true. rewrite orb_true_r. reflexivity.
    - rewrite N.mod_pow2_bits_high by lia.
      rewrite N.mod_pow2_bits_high by lia.
      rewrite N.pow2_bits_false by lia. reflexivity. }
  rewrite H.
  rewrite <- N.lxor_lor.
  - rewrite <- N.add_nocarry_lxor; [reflexivity|].
    apply N.bits_inj. intros n. rewrite N.land_spec, N.bits_0.
    destruct (N.eq_dec n 7).
    + subst. rewrite N.mod_pow2_bits_high by lia. reflexivity.
    + rewrite N.pow2_bits_false by lia. apply andb_false_r.
  - apply N.bits_inj. intros n. rewrite N.land_spec, N.bits_0.
    destruct (N.eq_dec n 7).
    + subst. rewrite N.mod_pow2_bits_high by lia. reflexivity.
    + rewrite N.pow2_bits_false by lia. apply andb_false_r.
Qed.

Lemma u32_small : forall x, x < 2^32 -> u32 x = x.
Proof. intros. unfold u32. apply N.mod_small. assumption. Qed.

Lemma u32_lt : forall x, u32 x < 2^32.
Proof. intros. unfold u32. apply N.mod_lt. discriminate. Qed.
Ltac Zify.zify_post_hook ::= idtac.
