(** %d writes the decimal number without leading zeros. *)
From Verif Require Import Model.Base Model.GoFmt Spec.ApiSpec.
From Coq Require Import Lia.
Local Open Scope N_scope.

Definition dv (n : N) (s : str) : N := fold_left (fun n c => 10 * n + (c - 48)) s n.

Lemma fmt_digits_app : forall fuel n acc, exists d, fmt_digits fuel n acc = d ++ acc /\ fmt_digits fuel n [] = d.
Proof.
  induction fuel; intros n acc; cbn [fmt_digits]; [exists []; split; reflexivity|].
  destruct (n <? 10).
  - exists [48 + n mod 10]. split; reflexivity.
  - destruct (IHfuel (n / 10) (48 + n mod 10 :: acc)) as (d & E1 & E2).
    destruct (IHfuel (n / 10) [48 + n mod 10]) as (d' & E1' & E2').
    assert (X : d' = d) by congruence. rewrite X in E1'. clear X E2'.
    exists (d ++ [48 + n mod 10]). rewrite E1, E1', <- app_assoc. split; reflexivity.
Qed.

Lemma fmt_digits_ok : forall fuel n, n < 10 ^ N.of_nat fuel -> (0 < fuel)%nat ->
  Forall digit (fmt_digits fuel n []) /\ dv 0 (fmt_digits fuel n []) = n /\
  fmt_digits fuel n [] <> [] /\ (forall r, fmt_digits fuel n [] = 48 :: r -> r = []).
Proof.
  induction fuel; intros n L P; [lia|]. cbn [fmt_digits].
  assert (M : n mod 10 < 10) by (apply N.mod_lt; lia).
  destruct (N.ltb_spec n 10) as [S|S].
  - assert (E : n mod 10 = n) by (apply N.mod_small; lia). rewrite E.
    split; [apply Forall_cons; [unfold digit; lia|apply Forall_nil]|].
    split; [unfold dv; cbn [fold_left]; lia|]. split; [discriminate|]. intros r X. congruence.
  - assert (D : n = 10 * (n / 10) + n mod 10) by (apply N.div_mod; lia).
    assert (L' : n / 10 < 10 ^ N.of_nat fuel).
    { apply N.div_lt_upper_bound; [lia|]. rewrite Nat2N.inj_succ, N.pow_succ_r in L by lia. exact L. }
    assert (P' : (0 < fuel)%nat).
    { destruct fuel; [|lia]. cbn in L'. lia. }
    destruct (IHfuel _ L' P') as (A & B & C & Z).
    destruct (fmt_digits_app fuel (n / 10) [48 + n mod 10]) as (d & E1 & E2).
    rewrite E2 in *. rewrite E1. split; [|split; [|split]].
    + apply Forall_app. split; [exact A|]. apply Forall_cons; [|apply Forall_nil].
      unfold digit. clear - M. generalize dependent (n mod 10). intros. lia.
    + unfold dv in *. rewrite fold_left_app, B. cbn [fold_left].
      clear - M D. generalize dependent (n mod 10). generalize dependent (n / 10). intros. lia.
    + intros X. apply app_eq_nil in X. destruct X as [_ X]. discriminate.
    + intros r X. destruct d as [|c d]; [congruence|]. cbn [app] in X.
      assert (Ec : c = 48) by congruence. assert (d = []) by (apply Z; congruence). subst.
      unfold dv in B. cbn [fold_left] in B. clear - B S M D. generalize dependent (n mod 10). generalize dependent (n / 10). intros. lia.
Qed.

Lemma fmt_uint_ok : forall n, decimal (fmt_uint n) n /\ (forall r, fmt_uint n = 48 :: r -> r = []).
Proof.
  intros n. unfold fmt_uint.
  assert (L : n < 10 ^ N.of_nat (S (N.to_nat (N.size n)))).
  { rewrite Nat2N.inj_succ, N2Nat.id, N.pow_succ_r by lia.
    pose proof (N.size_gt n). assert (2 ^ N.size n <= 10 ^ N.size n) by (apply N.pow_le_mono_l; lia). lia. }
  destruct (fmt_digits_ok _ n L ltac:(lia)) as (A & B & C & Z).
  split; [|exact Z]. split; [exact C|]. split; [exact A|]. symmetry. exact B.
Qed.

Lemma fmt_d_pos : forall z, (0 <= z)%Z -> fmt_d z = fmt_uint (Z.to_N z).
Proof. intros z H. unfold fmt_d. destruct (Z.ltb_spec z 0); [lia|reflexivity]. Qed.

Lemma fmt_d_signed : forall z, signed (fmt_d z) z.
Proof.
  intros z. unfold fmt_d. destruct (Z.ltb_spec z 0).
  - exists (Z.to_N (- z)). right. exists (fmt_uint (Z.to_N (- z))). split; [apply fmt_uint_ok|].
    right. split; [reflexivity|lia].
  - exists (Z.to_N z). left. split; [apply fmt_uint_ok|lia].
Qed.
