(** Functions of Go's strings and strconv packages used by api, client and vcs. *)
From Verif Require Import Model.Base.
Local Open Scope N_scope.

(** strings.HasPrefix, strings.HasSuffix, strings.TrimPrefix *)
Fixpoint has_prefix (s p : str) : bool :=
  match p, s with
  | [], _ => true
  | x :: p', y :: s' => (x =? y) && has_prefix s' p'
  | _, _ => false
  end.
Definition has_suffix (s p : str) : bool := has_prefix (rev s) (rev p).
Definition trim_prefix (s p : str) : str := if has_prefix s p then skipn (length p) s else s.

(** strings.Index and strings.LastIndex for a one byte string. *)
Fixpoint index_byte (s : str) (c : byte) : option nat :=
  match s with
  | [] => None
  | x :: r => if x =? c then Some O else option_map S (index_byte r c)
  end.
Fixpoint last_index_byte (s : str) (c : byte) : option nat :=
  match s with
  | [] => None
  | x :: r => match last_index_byte r c with
              | Some i => Some (S i)
              | None => if x =? c then Some O else None
              end
  end.

(** strings.Split(s, ",") for a one byte separator; bytes.Split likewise. *)
Fixpoint split (s : str) (c : byte) : list str :=
  match s with
  | [] => [[]]
  | x :: r =>
      if x =? c then [] :: split r c
      else match split r c with
           | f :: fs => (x :: f) :: fs
           | [] => [[x]]
           end
  end.

(** strings.TrimSpace: the UTF-8 encodings of the characters with unicode.IsSpace. *)
Definition spaces : list bytes :=
  [[9]; [10]; [11]; [12]; [13]; [32];
   [0xC2; 0x85]; [0xC2; 0xA0]; [0xE1; 0x9A; 0x80];
   [0xE2; 0x80; 0x80]; [0xE2; 0x80; 0x81]; [0xE2; 0x80; 0x82]; [0xE2; 0x80; 0x83];
   [0xE2; 0x80; 0x84]; [0xE2; 0x80; 0x85]; [0xE2; 0x80; 0x86]; [0xE2; 0x80; 0x87];
   [0xE2; 0x80; 0x88]; [0xE2; 0x80; 0x89]; [0xE2; 0x80; 0x8A]; [0xE2; 0x80; 0xA8];
   [0xE2; 0x80; 0xA9]; [0xE2; 0x80; 0xAF]; [0xE2; 0x81; 0x9F]; [0xE3; 0x80; 0x80]].
(** Drop characters of [set] from the front; every one is at least one byte long. *)
Fixpoint drop_set (set : list bytes) (fuel : nat) (s : str) : str :=
  match fuel with
  | O => s
  | S fuel =>
      match find (fun c => has_prefix s c) set with
      | Some c => drop_set set fuel (skipn (length c) s)
      | None => s
      end
  end.
Definition trim_left (s : str) : str := drop_set spaces (length s) s.
(** DecodeLastRune finds a space at the end exactly if the string ends with its encoding. *)
Definition trim_right (s : str) : str := rev (drop_set (map (@rev N) spaces) (length s) (rev s)).
Definition trim_space (s : str) : str := trim_right (trim_left s).

(** strings.ToLower on ASCII letters. The only other characters with an ASCII lower case
    are U+0130 (i) and U+212A (k), which the words of parseAsBool do not contain. *)
Definition to_lower (s : str) : str :=
  map (fun c => if (65 <=? c) && (c <=? 90) then c + 32 else c) s.

(** strconv.ParseUint(s, 10, bits): [None] for an error. [uint64] arithmetic. *)
Definition u64 (x : N) : N := x mod 2 ^ 64.
Definition cutoff : N := (2 ^ 64 - 1) / 10 + 1.
Fixpoint parse_digits (maxVal n : N) (s : str) : option N :=
  match s with
  | [] => Some n
  | c :: r =>
      if (48 <=? c) && (c <=? 57) then
        if cutoff <=? n then None
        else
          let n := u64 (n * 10) in
          let n1 := u64 (n + (c - 48)) in
          if (n1 <? n) || (maxVal <? n1) then None
          else parse_digits maxVal n1 r
      else None
  end.
Definition parse_uint (s : str) (bits : N) : option N :=
  match s with [] => None | _ => parse_digits (2 ^ bits - 1) 0 s end.

(** strconv.ParseInt(s, 10, 64) *)
Definition parse_int (s : str) : option Z :=
  let '(neg, d) := match s with
                   | 43 :: r => (false, r)
                   | 45 :: r => (true, r)
                   | _ => (false, s)
                   end in
  match parse_uint d 64 with
  | None => None
  | Some un =>
      if negb neg && (2 ^ 63 <=? un) then None
      else if neg && (2 ^ 63 <? un) then None
      else Some (if neg then - Z.of_N un else Z.of_N un)%Z
  end.

(** int(x) of a uint64 on a 64-bit platform. *)
Definition to_int (x : N) : Z := if 2 ^ 63 <=? x then (Z.of_N x - 2 ^ 64)%Z else Z.of_N x.
