(** codesearch/index/write.go:490-615: bufWriter. *)
From Verif Require Import Model.Base Model.Codec.
Local Open Scope N_scope.

(** write.go:491-496. [bw_file] is the contents written to the file so far (the file
    position is at its end), [bw_buf] the pending bytes, [bw_cap] cap(b.buf).
    Write errors, which end the process with log.Fatalf, are not represented. *)
Record bufw := mkBuf { bw_file : bytes; bw_buf : bytes; bw_cap : nat }.

(** write.go:501-519 *)
Definition buf_create (cap : nat) : bufw := mkBuf [] [] cap.

(** write.go:566-575 *)
Definition bflush (b : bufw) : bufw :=
  match bw_buf b with
  | [] => b
  | _ => mkBuf (bw_file b ++ bw_buf b) [] (bw_cap b)
  end.

Definition bappend (b : bufw) (x : bytes) : bufw :=
  mkBuf (bw_file b) (bw_buf b ++ x) (bw_cap b).

(** write.go:521-533 (write) and, identically, 542-554 (writeString). *)
Definition bwrite (b : bufw) (x : bytes) : bufw :=
  let n := (bw_cap b - length (bw_buf b))%nat in
  if Nat.ltb n (length x) then
    let b := bflush b in
    if Nat.leb (bw_cap b) (length x) then mkBuf (bw_file b ++ x) (bw_buf b) (bw_cap b)
    else bappend b x
  else bappend b x.

(** write.go:535-540 *)
Definition bwrite_byte (b : bufw) (x : N) : bufw :=
  let b := if Nat.leb (bw_cap b) (length (bw_buf b)) then bflush b else b in
  bappend b [x].

(** write.go:585-590, 592-597, 599-615: reserve [k] bytes, then append. *)
Definition breserve (b : bufw) (k : nat) (x : bytes) : bufw :=
  let b := if Nat.ltb (bw_cap b - length (bw_buf b)) k then bflush b else b in
  bappend b x.
Definition bwrite_trigram (b : bufw) (t : N) : bufw := breserve b 3 (put_trigram t).
Definition bwrite_uint32 (b : bufw) (x : N) : bufw := breserve b 4 (put_uint32 x).
Definition bwrite_uvarint (b : bufw) (x : N) : bufw := breserve b 5 (put_uvarint x).

(** write.go:557-564; [None] is the log.Fatalf "index is larger than 4GB". *)
Definition boffset (b : bufw) : option N :=
  let off := nlen (bw_file b) + nlen (bw_buf b) in
  if u32 off =? off then Some off else None.

(** write.go:578-583 finish: flush, then the file is read from its start. *)
Definition bfinish (b : bufw) : bytes := bw_file (bflush b).

(** write.go:267-273 copyFile: io.Copy appends the source file's contents. *)
Definition bcopy (dst src : bufw) : bufw :=
  let dst := bflush dst in
  mkBuf (bw_file dst ++ bfinish src) (bw_buf dst) (bw_cap dst).
