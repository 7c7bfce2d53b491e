(** The texts of JSON values (RFC 8259). Strings are UTF-8;
    an escaped surrogate stands for a character only as a half of a pair. *)
From Verif Require Import Model.Base Model.Json Spec.Names Spec.Utf8Spec Spec.JsonValueSpec.
Local Open Scope N_scope.

(** ws *)
Definition blank (s : str) : Prop := Forall (fun c => c = 0x20 \/ c = 0x09 \/ c = 0x0A \/ c = 0x0D) s.

Definition hex_digit (c v : N) : Prop :=
  (0x30 <= c <= 0x39 /\ v = c - 0x30) \/ (0x41 <= c <= 0x46 /\ v = c - 0x41 + 10) \/ (0x61 <= c <= 0x66 /\ v = c - 0x61 + 10).
Definition four_hex (s : str) (v : N) : Prop :=
  exists a b c d x y z w, s = [a; b; c; d] /\ hex_digit a x /\ hex_digit b y /\ hex_digit c z /\ hex_digit d w /\
    v = x * 4096 + y * 256 + z * 16 + w.

(** char: the text and the character *)
Inductive json_char : str -> N -> Prop :=
| jc_plain : forall r bs, utf8 r bs -> 0x20 <= r -> r <> 0x22 -> r <> 0x5C -> json_char bs r
| jc_quote : json_char (text "\""") 0x22
| jc_backslash : json_char (text "\\") 0x5C
| jc_slash : json_char (text "\/") 0x2F
| jc_b : json_char (text "\b") 0x08
| jc_f : json_char (text "\f") 0x0C
| jc_n : json_char (text "\n") 0x0A
| jc_r : json_char (text "\r") 0x0D
| jc_t : json_char (text "\t") 0x09
| jc_u : forall h r, four_hex h r -> scalar r -> json_char (text "\u" ++ h) r
| jc_pair : forall h h' hi lo, four_hex h hi -> four_hex h' lo -> 0xD800 <= hi <= 0xDBFF -> 0xDC00 <= lo <= 0xDFFF ->
    json_char (text "\u" ++ h ++ text "\u" ++ h') (0x10000 + (hi - 0xD800) * 0x400 + (lo - 0xDC00)).

(** *char: the text and the string in UTF-8 *)
Inductive json_chars : str -> str -> Prop :=
| jcs_nil : json_chars [] []
| jcs_cons : forall t r bs ts s, json_char t r -> utf8 r bs -> json_chars ts s -> json_chars (t ++ ts) (bs ++ s).
Definition json_string (s lit : str) : Prop := exists t, lit = text """" ++ t ++ text """" /\ json_chars t s.

(** Values, with [quoted] for the literals of strings. *)
Section Values.
Variable quoted : str -> str -> Prop.
Inductive text_of : jv -> str -> Prop :=
| jt_null : text_of VNull (text "null")
| jt_true : text_of (VBool true) (text "true")
| jt_false : text_of (VBool false) (text "false")
| jt_num : forall lit, number_text lit -> text_of (VNum lit) lit
| jt_str : forall s lit, quoted s lit -> text_of (VStr s) lit
| jt_arr0 : forall w, blank w -> text_of (VArr []) (text "[" ++ w ++ text "]")
| jt_arr : forall l t, items_of l t -> text_of (VArr l) (text "[" ++ t ++ text "]")
| jt_obj0 : forall w, blank w -> text_of (VObj []) (text "{" ++ w ++ text "}")
| jt_obj : forall l t, members_of l t -> text_of (VObj l) (text "{" ++ t ++ text "}")
with items_of : list jv -> str -> Prop :=
| ji_last : forall v s w w', text_of v s -> blank w -> blank w' -> items_of [v] (w ++ s ++ w')
| ji_more : forall v s w w' l t, text_of v s -> blank w -> blank w' -> items_of l t ->
    items_of (v :: l) (w ++ s ++ w' ++ text "," ++ t)
with members_of : list (str * jv) -> str -> Prop :=
| jm_last : forall k lit v s w w2 w3 w4, quoted k lit -> text_of v s -> blank w -> blank w2 -> blank w3 -> blank w4 ->
    members_of [(k, v)] (w ++ lit ++ w2 ++ text ":" ++ w3 ++ s ++ w4)
| jm_more : forall k lit v s w w2 w3 w4 l t, quoted k lit -> text_of v s -> blank w -> blank w2 -> blank w3 -> blank w4 ->
    members_of l t -> members_of ((k, v) :: l) (w ++ lit ++ w2 ++ text ":" ++ w3 ++ s ++ w4 ++ text "," ++ t).
End Values.
Arguments jt_null {quoted}. Arguments jt_true {quoted}. Arguments jt_false {quoted}. Arguments jt_num {quoted}. Arguments jt_str {quoted}.
Arguments jt_arr0 {quoted}. Arguments jt_arr {quoted}. Arguments jt_obj0 {quoted}. Arguments jt_obj {quoted}.
Arguments ji_last {quoted}. Arguments ji_more {quoted}. Arguments jm_last {quoted}. Arguments jm_more {quoted}.
Notation json_text := (text_of json_string).
Notation json_items := (items_of json_string).
Notation json_members := (members_of json_string).

(** As encoding/json reads strings: a byte that is not part of a UTF-8 character, or an
    escaped surrogate that is not part of a pair, is read as U+FFFD. *)
Inductive lax_char : str -> N -> Prop :=
| lc_char : forall t r, json_char t r -> lax_char t r
| lc_byte : forall b, 0x80 <= b -> lax_char [b] 0xFFFD
| lc_half : forall h r, four_hex h r -> 0xD800 <= r <= 0xDFFF -> lax_char (text "\u" ++ h) 0xFFFD.
Inductive lax_chars : str -> str -> Prop :=
| lcs_nil : lax_chars [] []
| lcs_cons : forall t r bs ts s, lax_char t r -> utf8 r bs -> lax_chars ts s -> lax_chars (t ++ ts) (bs ++ s).
Definition lax_string (s lit : str) : Prop := exists t, lit = text """" ++ t ++ text """" /\ lax_chars t s.
Notation lax_text := (text_of lax_string).

(** What may follow a number without being part of it. *)
Definition number_ends (rest : str) : Prop :=
  forall c r, rest = c :: r -> ~ (0x30 <= c <= 0x39) /\ c <> 0x2E /\ c <> 0x65 /\ c <> 0x45.
