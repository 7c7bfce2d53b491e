(** The integer encodings are the standard ones (C07). *)
From Verif Require Import Model.Base Model.Codec Spec.CodecSpec Proofs.Arith Proofs.CodecProofs.
Local Open Scope N_scope.

Lemma cont_byte_eq : forall x, cont_byte x = x mod 128 + 128.
Proof. intros. apply lor_128_mod_256. Qed.

Lemma div_div_128 : forall x k, x / 2^k / 128 = x / 2^(k+7).
Proof.
  intros. rewrite N.div_div by (try apply N.pow_nonzero; discriminate).
  rewrite N.pow_add_r. reflexivity.
Qed.

Lemma div_ge : forall x a b, b <> 0 -> a * b <= x -> a <= x / b.
Proof. intros. apply N.div_le_lower_bound; [assumption|lia]. Qed.
Lemma div_lt : forall x a b, b <> 0 -> x < a * b -> x / b < a.
Proof. intros. apply N.div_lt_upper_bound; [assumption|lia]. Qed.

Lemma uvarint_leb128 : forall x, x < 2^32 -> leb128 x (put_uvarint x).
Proof.
  intros x H. unfold put_uvarint. rewrite !cont_byte_eq.
  assert (E1 : x / 128 = x / 2^7) by reflexivity.
  assert (E2 : x / 2^7 / 128 = x / 2^14) by apply div_div_128.
  assert (E3 : x / 2^14 / 128 = x / 2^21) by apply div_div_128.
  assert (E4 : x / 2^21 / 128 = x / 2^28) by apply div_div_128.
  assert (L : forall y, y < 128 -> leb128 y [y mod 256]).
  { intros y Hy. rewrite N.mod_small by lia. apply leb_last. assumption. }
  destruct (N.ltb_spec x (2^7)) as [H7|H7]; [apply L; exact H7|].
  destruct (N.ltb_spec x (2^14)) as [H14|H14].
  { apply leb_more; [exact H7|]. rewrite E1. apply L. apply div_lt; [discriminate|exact H14]. }
  assert (G1 : 128 <= x / 2^7) by (apply div_ge; [discriminate|exact H14]).
  destruct (N.ltb_spec x (2^21)) as [H21|H21].
  { apply leb_more; [exact H7|]. rewrite E1. apply leb_more; [exact G1|]. rewrite E2.
    apply L. apply div_lt; [discriminate|exact H21]. }
  assert (G2 : 128 <= x / 2^14) by (apply div_ge; [discriminate|exact H21]).
  destruct (N.ltb_spec x (2^28)) as [H28|H28].
  { apply leb_more; [exact H7|]. rewrite E1. apply leb_more; [exact G1|]. rewrite E2.
    apply leb_more; [exact G2|]. rewrite E3. apply L. apply div_lt; [discriminate|exact H28]. }
  assert (G3 : 128 <= x / 2^21) by (apply div_ge; [discriminate|exact H28]).
  apply leb_more; [exact H7|]. rewrite E1. apply leb_more; [exact G1|]. rewrite E2.
  apply leb_more; [exact G2|]. rewrite E3. apply leb_more; [exact G3|]. rewrite E4.
  apply L. assert (x / 2^28 < 16) by (apply div_lt; [discriminate|exact H]). lia.
Qed.

Lemma be_uint32 : forall x, x < 2^32 -> be_value (put_uint32 x) = x /\ length (put_uint32 x) = 4%nat.
Proof.
  intros x H. split; [|reflexivity].
  pose proof (get_put_uint32 x [] H) as E. rewrite app_nil_r in E. unfold put_uint32 in *.
  unfold be_value. cbn [fold_left].
  set (a := (x / 2^24) mod 256) in *. set (b := (x / 2^16) mod 256) in *.
  set (c := (x / 2^8) mod 256) in *. set (d := x mod 256) in *. clearbody a b c d.
  unfold get_uint32 in E.
  apply (f_equal (fun o => match o with Some v => v | None => 0 end)) in E. cbv beta iota in E.
  change (2^24) with 16777216 in E. change (2^16) with 65536 in E. change (2^8) with 256 in E. lia.
Qed.
