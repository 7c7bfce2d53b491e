(** encoding/json for the values of a response: a compact text is written
    (Encoder.Encode) and read back (Decoder.Decode). Strings are those of Model/JsonText.v.
    A number is its text. *)
From Verif Require Import Model.Base Model.GoFmt Model.JsonText.
Local Open Scope N_scope.

Inductive jv :=
| VNull | VBool (b : bool) | VNum (lit : str) | VStr (s : str)
| VArr (l : list jv) | VObj (l : list (str * jv)).

Definition t_null : str := [110; 117; 108; 108].

Fixpoint commas (l : list str) : str :=
  match l with
  | [] => []
  | [x] => x
  | x :: r => x ++ 44 :: commas r
  end.

Fixpoint print (short : bool) (v : jv) : str :=
  match v with
  | VNull => t_null
  | VBool b => fmt_t b
  | VNum lit => lit
  | VStr s => json_literal short s
  | VArr l => 91 :: commas (map (print short) l) ++ [93]
  | VObj l => 123 :: commas (map (fun p => json_literal short (fst p) ++ 58 :: print short (snd p)) l) ++ [125]
  end.

Definition is_space (c : byte) : bool := (c =? 32) || (c =? 9) || (c =? 10) || (c =? 13).
Fixpoint skip_space (s : str) : str :=
  match s with
  | c :: r => if is_space c then skip_space r else s
  | [] => []
  end.

Definition is_digit (c : byte) : bool := (48 <=? c) && (c <=? 57).
Fixpoint digits (s : str) : str * str :=
  match s with
  | c :: r => if is_digit c then let '(a, b) := digits r in (c :: a, b) else ([], s)
  | [] => ([], [])
  end.
Definition some_digits (s : str) : option (str * str) := match digits s with ([], _) => None | p => Some p end.
(** 0 | [1-9][0-9]* *)
Definition read_int (s : str) : option (str * str) :=
  match s with
  | [] => None
  | c :: r => if c =? 48 then Some ([c], r) else some_digits s
  end.
Definition read_frac (s : str) : option (str * str) :=
  match s with
  | [] => Some ([], [])
  | c :: r => if c =? 46 then '(d, rest) <- some_digits r ;; Some (c :: d, rest) else Some ([], s)
  end.
Definition read_exp (s : str) : option (str * str) :=
  match s with
  | [] => Some ([], [])
  | c :: r =>
      if (c =? 101) || (c =? 69) then
        let '(sign, r) := match r with x :: r' => if (x =? 43) || (x =? 45) then ([x], r') else ([], r) | [] => ([], []) end in
        '(d, rest) <- some_digits r ;; Some (c :: sign ++ d, rest)
      else Some ([], s)
  end.
Definition read_number (s : str) : option (str * str) :=
  let '(sign, s) := match s with c :: r => if c =? 45 then ([c], r) else ([], s) | [] => ([], []) end in
  '(i, s) <- read_int s ;; '(f, s) <- read_frac s ;; '(e, s) <- read_exp s ;; Some (sign ++ i ++ f ++ e, s).

Fixpoint strip (word s : str) : option str :=
  match word, s with
  | [], _ => Some s
  | a :: w, b :: r => if a =? b then strip w r else None
  | _, [] => None
  end.

(** The value at the start of the text and what follows it. *)
Fixpoint parse (fuel : nat) (s : str) : option (jv * str) :=
  match fuel with
  | O => None
  | S fuel =>
      match skip_space s with
      | [] => None
      | c :: r =>
          if c =? 34 then '(t, rest) <- read_literal (c :: r) ;; Some (VStr t, rest)
          else if c =? 91 then
            match skip_space r with
            | [] => None
            | d :: rest =>
                if d =? 93 then Some (VArr [], rest)
                else '(l, rest) <- parse_items fuel r ;; Some (VArr l, rest)
            end
          else if c =? 123 then
            match skip_space r with
            | [] => None
            | d :: rest =>
                if d =? 125 then Some (VObj [], rest)
                else '(l, rest) <- parse_members fuel r ;; Some (VObj l, rest)
            end
          else if c =? 116 then rest <- strip (fmt_t true) (c :: r) ;; Some (VBool true, rest)
          else if c =? 102 then rest <- strip (fmt_t false) (c :: r) ;; Some (VBool false, rest)
          else if c =? 110 then rest <- strip t_null (c :: r) ;; Some (VNull, rest)
          else '(lit, rest) <- read_number (c :: r) ;; Some (VNum lit, rest)
      end
  end
with parse_items (fuel : nat) (s : str) : option (list jv * str) :=
  match fuel with
  | O => None
  | S fuel =>
      '(v, s1) <- parse fuel s ;;
      match skip_space s1 with
      | [] => None
      | c :: r =>
          if c =? 44 then '(l, rest) <- parse_items fuel r ;; Some (v :: l, rest)
          else if c =? 93 then Some ([v], r)
          else None
      end
  end
with parse_members (fuel : nat) (s : str) : option (list (str * jv) * str) :=
  match fuel with
  | O => None
  | S fuel =>
      '(k, s1) <- read_literal (skip_space s) ;;
      match skip_space s1 with
      | [] => None
      | c :: r =>
          if c =? 58 then
            '(v, s2) <- parse fuel r ;;
            match skip_space s2 with
            | [] => None
            | d :: r2 =>
                if d =? 44 then '(l, rest) <- parse_members fuel r2 ;; Some ((k, v) :: l, rest)
                else if d =? 125 then Some ([(k, v)], r2)
                else None
            end
          else None
      end
  end.
(** Decode reads one value. *)
Definition decode_json (s : str) : option (jv * str) := parse (S (length s)) s.
