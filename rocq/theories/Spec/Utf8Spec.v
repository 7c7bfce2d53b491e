(** UTF-8 as defined by the Unicode standard: encodings of scalar values (D92). *)
From Coq Require Import List NArith.
Import ListNotations.
Local Open Scope N_scope.

Definition scalar (r : N) : Prop := r < 0xD800 \/ (0xE000 <= r /\ r <= 0x10FFFF).

(** [utf8 r bs]: [bs] is the UTF-8 encoding of [r]. *)
Inductive utf8 : N -> list N -> Prop :=
| utf8_1 : forall r, r < 0x80 -> utf8 r [r]
| utf8_2 : forall r b0 b1 x y, b0 = 0xC0 + x -> b1 = 0x80 + y -> y < 64 ->
    r = x * 64 + y -> 0x80 <= r -> r < 0x800 -> utf8 r [b0; b1]
| utf8_3 : forall r b0 b1 b2 x y z, b0 = 0xE0 + x -> b1 = 0x80 + y -> b2 = 0x80 + z ->
    y < 64 -> z < 64 -> r = x * 4096 + y * 64 + z ->
    0x800 <= r -> r < 0x10000 -> scalar r -> utf8 r [b0; b1; b2]
| utf8_4 : forall r b0 b1 b2 b3 w x y z,
    b0 = 0xF0 + w -> b1 = 0x80 + x -> b2 = 0x80 + y -> b3 = 0x80 + z ->
    x < 64 -> y < 64 -> z < 64 -> r = w * 262144 + x * 4096 + y * 64 + z ->
    0x10000 <= r -> r <= 0x10FFFF -> utf8 r [b0; b1; b2; b3].

(** [text] is valid UTF-8. *)
Definition valid_utf8 (text : list N) : Prop :=
  exists chars, text = concat chars /\ Forall (fun bs => exists r, utf8 r bs) chars.
