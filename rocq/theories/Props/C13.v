(** C13: the buffered writer is transparent. *)
From Verif Require Import Model.Base Model.Codec Model.BufWriter Spec.WriteSpec Proofs.BufProofs.

(** [run_wops] performs the writes; the file finally holds their bytes in order, the
    reported offset is the number of bytes written (or the process stops because it
    does not fit 32 bits), and the buffer never outgrows its capacity. *)
Theorem C13_bufwriter : forall cap os, 5 <= cap ->
  let b := run_wops (buf_create cap) os in
  bfinish b = ops_bytes os /\
  (forall n, boffset b = Some n <-> n = nlen (ops_bytes os) /\ (n < 2^32)%N) /\
  length (bw_buf b) <= cap.
Proof. exact bufwriter_transparent. Qed.
Print Assumptions C13_bufwriter.

Example C13_example :
  let os := [WBytes [1;2;3]; WByte 4; WUint32 66051; WUvarint 300; WBytes [9;9;9;9;9;9;9]; WTrigram 7; WCopy 1 [WBytes [8;8]; WCopy 0 [WByte 6]; WUint32 5]]%N in
  bfinish (run_wops (buf_create 5) os) =
    [1;2;3;4;0;1;2;3;172;2;9;9;9;9;9;9;9;0;0;7;8;8;6;0;0;0;5]%N.
Proof. vm_compute. reflexivity. Qed.
