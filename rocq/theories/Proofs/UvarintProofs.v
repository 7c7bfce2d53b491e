(** What binary.Uvarint accepts. *)
From Verif Require Import Model.Base Model.Codec Spec.CodecSpec.
Local Open Scope N_scope.

Lemma uvarint_late : forall buf i s x, (9 < i)%nat -> get_uvarint_from i s x buf = None.
Proof.
  induction buf as [|b r IH]; intros i s x L; cbn [get_uvarint_from]; [reflexivity|].
  destruct (b <? 128).
  - rewrite (proj2 (Nat.ltb_lt _ _) L). reflexivity.
  - apply IH. lia.
Qed.

Lemma uvarint_from : forall buf i x v n, (i <= 9)%nat -> x < 2 ^ (7 * N.of_nat i) ->
  get_uvarint_from i (7 * N.of_nat i) x buf = Some (v, n) ->
  exists d rest, buf = d ++ rest /\ n = (i + length d)%nat /\ leb_ended d /\
    v = x + 2 ^ (7 * N.of_nat i) * leb_value d /\ v < 2 ^ 64.
Proof.
  induction buf as [|b r IH]; intros i x v n L X E; cbn [get_uvarint_from] in E; [discriminate|].
  assert (2 ^ (7 * N.of_nat i) * 128 = 2 ^ (7 * N.of_nat (S i))) as P.
  { replace (7 * N.of_nat (S i)) with (7 * N.of_nat i + 7) by lia. rewrite N.pow_add_r. reflexivity. }
  assert (0 < 2 ^ (7 * N.of_nat i)) as Q by (apply N.neq_0_lt_0, N.pow_nonzero; discriminate).
  destruct (N.ltb_spec b 128) as [B|B].
  - destruct (Nat.ltb 9 i || (Nat.eqb i 9 && (1 <? b))) eqn:O; [discriminate|].
    apply Bool.orb_false_elim in O. destruct O as [_ O].
    assert (x + b * 2 ^ (7 * N.of_nat i) < 2 ^ 64) as V.
    { destruct (Nat.eqb_spec i 9) as [->|NE].
      - cbn [andb] in O. apply N.ltb_ge in O. change (2 ^ (7 * N.of_nat 9)) with (2 ^ 63) in *. change (2 ^ 64) with (2 * 2 ^ 63). nia.
      - assert (2 ^ (7 * N.of_nat (S i)) <= 2 ^ 63) as M by (apply N.pow_le_mono_r; lia).
        assert (2 ^ 63 < 2 ^ 64) by (vm_compute; reflexivity). nia. }
    rewrite N.mod_small in E by exact V.
    exists [b], r. split; [reflexivity|]. cbn [length].
    assert (v = x + b * 2 ^ (7 * N.of_nat i)) as -> by congruence. assert (n = S i) as -> by congruence.
    split; [lia|]. split; [exists [], b; split; [reflexivity|split; [exact B|constructor]]|].
    split; [|exact V]. unfold leb_value. cbn [fold_right]. rewrite N.mod_small by exact B. lia.
  - destruct (Nat.eq_dec i 9) as [->|NE]; [rewrite uvarint_late in E by lia; discriminate|].
    assert (b mod 128 < 128) as MB by (apply N.mod_lt; discriminate).
    assert (x + b mod 128 * 2 ^ (7 * N.of_nat i) < 2 ^ (7 * N.of_nat (S i))) as V by nia.
    assert (2 ^ (7 * N.of_nat (S i)) <= 2 ^ 64) as M by (apply N.pow_le_mono_r; lia).
    rewrite (N.mod_small (x + _)) in E by lia.
    replace (7 * N.of_nat i + 7) with (7 * N.of_nat (S i)) in E by lia.
    apply IH in E; [|lia|exact V]. destruct E as (d & rest & E1 & E2 & (u & c & E3 & E4 & E5) & E6 & E7).
    exists (b :: d), rest. split; [rewrite E1; reflexivity|]. split; [cbn [length]; lia|].
    split; [exists (b :: u), c; split; [rewrite E3; reflexivity|split; [exact E4|constructor; assumption]]|].
    split; [|exact E7]. rewrite E6. unfold leb_value. cbn [fold_right]. fold (leb_value d). rewrite <- P. lia.
Qed.

Theorem uvarint_value : forall buf v n, get_uvarint buf = Some (v, n) ->
  exists d rest, buf = d ++ rest /\ n = length d /\ leb_ended d /\ v = leb_value d /\ v < 2 ^ 64.
Proof.
  intros buf v n E. apply (uvarint_from buf 0 0 v n) in E; [|lia|vm_compute; reflexivity].
  destruct E as (d & rest & A & B & C & D & F). exists d, rest.
  split; [exact A|]. split; [exact B|]. split; [exact C|]. split; [|exact F]. rewrite D. change (2 ^ (7 * N.of_nat 0)) with 1. lia.
Qed.
