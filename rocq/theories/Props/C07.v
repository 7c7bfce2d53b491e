(** C07: integers written to the index are read back unchanged. *)
From Verif Require Import Model.Base Model.Codec Spec.CodecSpec Proofs.CodecProofs Proofs.CodecSpecProofs Proofs.UvarintProofs.
Local Open Scope N_scope.

Theorem C07_uvarint_roundtrip : forall x rest, x < 2^32 ->
  get_uvarint (put_uvarint x ++ rest) = Some (x, length (put_uvarint x)).
Proof. exact get_put_uvarint. Qed.
Print Assumptions C07_uvarint_roundtrip.

(** The bytes are the base-128 digits, least significant first. *)
Theorem C07_uvarint_format : forall x, x < 2^32 -> leb128 x (put_uvarint x).
Proof. exact uvarint_leb128. Qed.
Print Assumptions C07_uvarint_format.

(** Whatever bytes are read: a number that is accepted is the value of the digits at the
    front, which fits 64 bits. *)
Theorem C07_uvarint_value : forall buf v n, get_uvarint buf = Some (v, n) ->
  exists d rest, buf = d ++ rest /\ n = length d /\ leb_ended d /\ v = leb_value d /\ v < 2 ^ 64.
Proof. exact uvarint_value. Qed.
Print Assumptions C07_uvarint_value.

(** A zero byte starts an encoding only for the value zero (the list terminator). *)
Theorem C07_uvarint_zero : forall x, x < 2^32 -> (hd 1 (put_uvarint x) = 0 <-> x = 0).
Proof. exact put_uvarint_zero_iff. Qed.
Print Assumptions C07_uvarint_zero.

Theorem C07_uint32_roundtrip : forall x rest, x < 2^32 ->
  get_uint32 (put_uint32 x ++ rest) = Some x.
Proof. exact get_put_uint32. Qed.
Print Assumptions C07_uint32_roundtrip.

Theorem C07_uint32_format : forall x, x < 2^32 ->
  be_value (put_uint32 x) = x /\ length (put_uint32 x) = 4%nat.
Proof. exact be_uint32. Qed.
Print Assumptions C07_uint32_format.

Theorem C07_trigram_roundtrip : forall t rest, t < 2^24 ->
  get_trigram (put_trigram t ++ rest) = Some t.
Proof. exact get_put_trigram. Qed.
Print Assumptions C07_trigram_roundtrip.

Example C07_example : put_uvarint 4294967295 = [255;255;255;255;15] /\ 4294967295 < 2^32
  /\ put_uint32 305419896 = [18;52;86;120].
Proof. repeat split; vm_compute; reflexivity. Qed.
