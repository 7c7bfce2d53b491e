(** Little-endian base-128 numbers: every digit but the last has the top bit set. *)
From Verif Require Import Model.Base.
Local Open Scope N_scope.

Inductive leb128 : N -> list N -> Prop :=
| leb_last : forall x, x < 128 -> leb128 x [x]
| leb_more : forall x d, 128 <= x -> leb128 (x / 128) d -> leb128 x (x mod 128 + 128 :: d).

(** Big-endian base-256 value of a byte string. *)
Definition be_value (d : list N) : N := fold_left (fun v b => v * 256 + b) d 0.

(** The value of such digits, and digits that end where they say. *)
Definition leb_value (d : list N) : N := fold_right (fun b v => b mod 128 + 128 * v) 0 d.
Definition leb_ended (d : list N) : Prop :=
  exists u b, d = u ++ [b] /\ b < 128 /\ Forall (fun c => 128 <= c) u.
