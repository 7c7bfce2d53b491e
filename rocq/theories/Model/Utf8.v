(** UTF-8 as implemented by Go's unicode/utf8 (standard library behaviour used by
    codesearch/regexp/utf.go, codesearch/index/regexp.go and index/index.go). *)
From Verif Require Import Model.Base.
Local Open Scope N_scope.

Definition max_rune : N := 0x10FFFF.
Definition is_surrogate (r : N) : bool := (0xD800 <=? r) && (r <=? 0xDFFF).

(** utf8.EncodeRune / string(rune): surrogates and out-of-range values are encoded as
    U+FFFD. [t|byte(x)&maskx] is written as an addition (the bits are disjoint). *)
Definition encode_rune (r : N) : bytes :=
  if r <=? 0x7F then [r]
  else if r <=? 0x7FF then [0xC0 + r / 2^6; 0x80 + r mod 2^6]
  else if (max_rune <? r) || is_surrogate r then [0xEF; 0xBF; 0xBD]
  else if r <=? 0xFFFF then
    [0xE0 + r / 2^12; 0x80 + (r / 2^6) mod 2^6; 0x80 + r mod 2^6]
  else
    [0xF0 + r / 2^18; 0x80 + (r / 2^12) mod 2^6; 0x80 + (r / 2^6) mod 2^6; 0x80 + r mod 2^6].

(** string([]rune) *)
Definition encode_runes (rs : list N) : bytes := concat (map encode_rune rs).

(** utf8.DecodeRune: (rune, size). The [first] and [acceptRanges] tables of the standard
    library are written as comparisons on the first byte: number of bytes of the
    sequence and range of the second byte. *)
Definition rune_error : N := 0xFFFD.
Definition lead_info (b : N) : option (nat * N * N) :=
  if b <? 0xC2 then None
  else if b <=? 0xDF then Some (2%nat, 0x80, 0xBF)
  else if b =? 0xE0 then Some (3%nat, 0xA0, 0xBF)
  else if b <=? 0xEC then Some (3%nat, 0x80, 0xBF)
  else if b =? 0xED then Some (3%nat, 0x80, 0x9F)
  else if b <=? 0xEF then Some (3%nat, 0x80, 0xBF)
  else if b =? 0xF0 then Some (4%nat, 0x90, 0xBF)
  else if b <=? 0xF3 then Some (4%nat, 0x80, 0xBF)
  else if b =? 0xF4 then Some (4%nat, 0x80, 0x8F)
  else None.
Definition is_cont (b : N) : bool := (0x80 <=? b) && (b <=? 0xBF).
Definition decode_rune (p : bytes) : N * nat :=
  match p with
  | [] => (rune_error, 0%nat)
  | p0 :: r =>
      if p0 <? 0x80 then (p0, 1%nat)
      else match lead_info p0 with
      | None => (rune_error, 1%nat)
      | Some (sz, lo, hi) =>
          if Nat.ltb (length p) sz then (rune_error, 1%nat)
          else match r with
          | [] => (rune_error, 1%nat)
          | b1 :: r1 =>
              if (b1 <? lo) || (hi <? b1) then (rune_error, 1%nat)
              else if Nat.leb sz 2 then (p0 mod 2^5 * 2^6 + b1 mod 2^6, 2%nat)
              else match r1 with
              | [] => (rune_error, 1%nat)
              | b2 :: r2 =>
                  if negb (is_cont b2) then (rune_error, 1%nat)
                  else if Nat.leb sz 3 then
                    (p0 mod 2^4 * 2^12 + b1 mod 2^6 * 2^6 + b2 mod 2^6, 3%nat)
                  else match r2 with
                  | [] => (rune_error, 1%nat)
                  | b3 :: _ =>
                      if negb (is_cont b3) then (rune_error, 1%nat)
                      else (p0 mod 2^3 * 2^18 + b1 mod 2^6 * 2^12 + b2 mod 2^6 * 2^6
                              + b3 mod 2^6, 4%nat)
                  end
              end
          end
      end
  end.

(** utf8.RuneStart: b&0xC0 != 0x80 *)
Definition rune_start (b : N) : bool := negb (is_cont b).

(** utf8.Valid: the same walk over the buffer as DecodeRune performs; its ASCII fast
    path is omitted. [fuel] bounds the iterations, each consumes at least a byte. *)
Fixpoint utf8_valid_f (fuel : nat) (p : bytes) : bool :=
  match fuel, p with
  | _, [] => true
  | O, _ => false
  | S f, c :: r =>
      if c <? 0x80 then utf8_valid_f f r
      else let size := snd (decode_rune p) in
           if Nat.eqb size 1 then false else utf8_valid_f f (skipn size p)
  end.
Definition utf8_valid (p : bytes) : bool := utf8_valid_f (length p) p.

(** index/index.go:289-308 validUTF8IgnoringPartialTrailingRune *)
Fixpoint valid_partial_f (fuel : nat) (p : bytes) : bool :=
  match fuel, p with
  | _, [] => true
  | O, _ => false
  | S f, c :: r =>
      if c <? 0x80 then valid_partial_f f r
      else let size := snd (decode_rune p) in
           if Nat.eqb size 1 then Nat.ltb (length p) 4 && rune_start c
           else valid_partial_f f (skipn size p)
  end.
Definition valid_partial (p : bytes) : bool := valid_partial_f (length p) p.

(** index/index.go:24, 259-283 isTextFile, given the contents that were read without
    error: only the first filePeekSize bytes are looked at. *)
Definition file_peek_size : nat := 2048.
Definition is_text (content : bytes) : bool :=
  let buf := firstn file_peek_size content in
  if Nat.ltb (length buf) file_peek_size then utf8_valid buf else valid_partial buf.
