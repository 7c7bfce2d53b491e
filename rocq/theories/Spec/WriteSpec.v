(** Specification of a sequence of writes to a file. *)
From Verif Require Import Model.Base Model.Codec.
Local Open Scope N_scope.

Inductive write_op :=
| WBytes (x : bytes)      (* write / writeString *)
| WByte (x : N)           (* writeByte *)
| WTrigram (t : N)        (* writeTrigram *)
| WUint32 (x : N)         (* writeUint32 *)
| WUvarint (x : N)        (* writeUvarint *)
| WFlush                  (* flush *)
| WCopy (extra : nat) (src : list write_op).  (* copyFile of what was written to another file, with room for 5 + extra bytes *)

(** The bytes an operation adds to the file. *)
Fixpoint op_bytes (o : write_op) : bytes :=
  match o with
  | WBytes x => x
  | WByte x => [x]
  | WTrigram t => [ (t / 65536) mod 256; (t / 256) mod 256; t mod 256 ]
  | WUint32 x => [ (x / 16777216) mod 256; (x / 65536) mod 256; (x / 256) mod 256; x mod 256 ]
  | WUvarint x => put_uvarint x  (* the base-128 form: C07_uvarint_format *)
  | WFlush => []
  | WCopy _ src => concat (map op_bytes src)
  end.

Definition ops_bytes (os : list write_op) : bytes := concat (map op_bytes os).
