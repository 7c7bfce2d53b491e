(** How texts travel in a response (api/api.go:29-36 writeJson, client/client.go:117): a
    string literal as written by encoding/json (appendString with HTML escaping) and as
    read by it (unquote). [short]: whether \b and \f are written so, which depends on the
    version of the library. *)
From Verif Require Import Model.Base Model.Utf8.
Local Open Scope N_scope.

(** "0123456789abcdef"[x] *)
Definition lowerhex (x : N) : byte := if x <? 10 then 48 + x else 87 + x.
(** htmlSafeSet: ASCII except controls, the quote, ampersand, angle brackets and backslash *)
Definition html_safe (b : byte) : bool :=
  (32 <=? b) && negb ((b =? 34) || (b =? 38) || (b =? 60) || (b =? 62) || (b =? 92)).
Definition escape_ascii (short : bool) (b : byte) : str :=
  if html_safe b then [b]
  else if (b =? 92) || (b =? 34) then [92; b]
  else if (b =? 8) && short then [92; 98]
  else if (b =? 12) && short then [92; 102]
  else if b =? 10 then [92; 110]
  else if b =? 13 then [92; 114]
  else if b =? 9 then [92; 116]
  else [92; 117; 48; 48; lowerhex (b / 16); lowerhex (b mod 16)].
(** The escapes of U+2028, U+2029 and of U+FFFD. *)
Definition esc_line_sep (c : N) : str := [92; 117; 50; 48; 50; lowerhex (c mod 16)].
Definition esc_bad : str := [92; 117; 102; 102; 102; 100].

(** [fuel]: at least the length of the rest. *)
Fixpoint escape_text (short : bool) (fuel : nat) (s : str) : str :=
  match fuel, s with
  | _, [] | O, _ => []
  | S fuel, b :: r =>
      if b <? 0x80 then escape_ascii short b ++ escape_text short fuel r
      else
        let '(c, size) := decode_rune s in
        if (c =? rune_error) && Nat.eqb size 1 then esc_bad ++ escape_text short fuel r
        else if (c =? 0x2028) || (c =? 0x2029) then esc_line_sep c ++ escape_text short fuel (skipn size s)
        else firstn size s ++ escape_text short fuel (skipn size s)
  end.
Definition json_literal (short : bool) (s : str) : str := 34 :: escape_text short (length s) s ++ [34].

(** getu4 after \u *)
Definition hexval (c : byte) : option N :=
  if (48 <=? c) && (c <=? 57) then Some (c - 48)
  else if (97 <=? c) && (c <=? 102) then Some (c - 87)
  else if (65 <=? c) && (c <=? 70) then Some (c - 55)
  else None.
Definition hex4 (s : str) : option (N * str) :=
  match s with
  | a :: b :: c :: d :: r =>
      match hexval a, hexval b, hexval c, hexval d with
      | Some a, Some b, Some c, Some d => Some (((a * 16 + b) * 16 + c) * 16 + d, r)
      | _, _, _, _ => None
      end
  | _ => None
  end.
(** utf16.DecodeRune *)
Definition decode_pair (r1 r2 : N) : N :=
  if (0xD800 <=? r1) && (r1 <? 0xDC00) && (0xDC00 <=? r2) && (r2 <? 0xE000)
  then (r1 - 0xD800) * 1024 + (r2 - 0xDC00) + 0x10000 else rune_error.

(** The text up to the closing quote and what follows it; [None]: not a literal. [pre]:
    bytes read so far. *)
Fixpoint read_text (fuel : nat) (s : str) (pre : str) : option (str * str) :=
  match fuel, s with
  | _, [] | O, _ => None
  | S fuel, c :: r =>
      if c =? 34 then Some (pre, r)
      else if c =? 92 then
        match r with
        | [] => None
        | e :: r' =>
            if e =? 117 then
              match hex4 r' with
              | None => None
              | Some (rr, r2) =>
                  if is_surrogate rr then
                    match r2 with
                    | 92 :: 117 :: r3 =>
                        match hex4 r3 with
                        | Some (rr1, r4) =>
                            if decode_pair rr rr1 =? rune_error
                            then read_text fuel r2 (pre ++ encode_rune rune_error)
                            else read_text fuel r4 (pre ++ encode_rune (decode_pair rr rr1))
                        | None => read_text fuel r2 (pre ++ encode_rune rune_error)
                        end
                    | _ => read_text fuel r2 (pre ++ encode_rune rune_error)
                    end
                  else read_text fuel r2 (pre ++ encode_rune rr)
              end
            else if (e =? 34) || (e =? 92) || (e =? 47) then read_text fuel r' (pre ++ [e])
            else if e =? 98 then read_text fuel r' (pre ++ [8])
            else if e =? 102 then read_text fuel r' (pre ++ [12])
            else if e =? 110 then read_text fuel r' (pre ++ [10])
            else if e =? 114 then read_text fuel r' (pre ++ [13])
            else if e =? 116 then read_text fuel r' (pre ++ [9])
            else None
        end
      else if c <? 32 then None
      else if c <? 0x80 then read_text fuel r (pre ++ [c])
      else
        let '(rr, size) := decode_rune s in
        read_text fuel (skipn size s) (pre ++ encode_rune rr)
  end.
Definition read_literal (s : str) : option (str * str) :=
  match s with
  | 34 :: r => read_text (length r) r []
  | _ => None
  end.
