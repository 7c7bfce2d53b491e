(** Integer encodings of the index file format. *)
From Verif Require Import Model.Base.
Local Open Scope N_scope.

(** codesearch/index/write.go:592-597 (writeUint32): the four bytes appended.
    [byte(x>>k)] is [x / 2^k mod 256]. *)
Definition put_uint32 (x : N) : bytes :=
  [ (x / 2^24) mod 256; (x / 2^16) mod 256; (x / 2^8) mod 256; x mod 256 ].

(** codesearch/index/write.go:585-590 (writeTrigram) and 338-340 (mergePost). *)
Definition put_trigram (t : N) : bytes :=
  [ (t / 2^16) mod 256; (t / 2^8) mod 256; t mod 256 ].

(** [byte(x|0x80)]. *)
Definition cont_byte (x : N) : N := (N.lor x 128) mod 256.

(** codesearch/index/write.go:599-615 (writeUvarint), argument already a uint32. *)
Definition put_uvarint (x : N) : bytes :=
  if x <? 2^7 then [x mod 256]
  else if x <? 2^14 then [cont_byte x; (x / 2^7) mod 256]
  else if x <? 2^21 then [cont_byte x; cont_byte (x / 2^7); (x / 2^14) mod 256]
  else if x <? 2^28 then
    [cont_byte x; cont_byte (x / 2^7); cont_byte (x / 2^14); (x / 2^21) mod 256]
  else
    [cont_byte x; cont_byte (x / 2^7); cont_byte (x / 2^14); cont_byte (x / 2^21);
     (x / 2^28) mod 256].

(** encoding/binary BigEndian.Uint32 (used by codesearch/index/read.go:127-129):
    panics on fewer than four bytes. *)
Definition get_uint32 (d : bytes) : option N :=
  match d with
  | a :: b :: c :: e :: _ => Some (a * 2^24 + b * 2^16 + c * 2^8 + e)
  | _ => None
  end.

(** read.go:182 / 204: [uint32(d[0])<<16 | uint32(d[1])<<8 | uint32(d[2])]. *)
Definition get_trigram (d : bytes) : option N :=
  match d with
  | a :: b :: c :: _ => Some (a * 2^16 + b * 2^8 + c)
  | _ => None
  end.

(** encoding/binary.Uvarint as used by read.go:137 and 249. [None] stands for a
    non-positive second result (truncated or overflowing encoding), which every
    caller treats as corruption. [b&0x7f] is [b mod 128]. *)
Fixpoint get_uvarint_from (i : nat) (s x : N) (buf : bytes) : option (N * nat) :=
  match buf with
  | [] => None
  | b :: rest =>
      if b <? 128 then
        if Nat.ltb 9 i || (Nat.eqb i 9 && (1 <? b)) then None
        else Some ((x + b * 2^s) mod 2^64, S i)
      else get_uvarint_from (S i) (s + 7) ((x + (b mod 128) * 2^s) mod 2^64) rest
  end.

Definition get_uvarint (buf : bytes) : option (N * nat) := get_uvarint_from 0 0 0 buf.
