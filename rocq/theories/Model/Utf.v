(** codesearch/regexp/utf.go: compiling rune instructions to byte instructions.

    regexp/syntax.Prog before toByteProg is a list of [xinst]; toByteProg rewrites the
    instructions in place and appends new ones. Runes are non-negative ([N]); instruction
    counters do not wrap (programs have fewer than 2^32 instructions). unicode.SimpleFold
    is a parameter. *)
From Verif Require Import Model.Base Model.Utf8 Model.Matcher.
Local Open Scope N_scope.

(** syntax.Inst: instructions that toByteProg leaves alone (and those it creates), and the
    rune instructions. [XRune true] is InstRune1, [XRune false] is InstRune; [fold] is
    Arg & FoldCase. *)
Inductive xinst :=
| XB (i : inst)
| XRune (one : bool) (runes : list N) (fold : bool) (out : N)
| XAny (out : N)               (* InstRuneAny *)
| XAnyNotNL (out : N).         (* InstRuneAnyNotNL *)
Record xprog := mkX { x_inst : list xinst; x_start : N }.

Definition RuneSelf : N := 0x80.
Definition MaxRune : N := 0x10FFFF.
(** byte(r) *)
Definition to_byte (r : N) : N := r mod 256.

Section Fold.
(** unicode.SimpleFold, and a bound on the size of its orbits. *)
Variable simple_fold : N -> N.
Variable orbit_max : nat.

(** utf.go:110-122 *)
Definition asciiFold (r : N) : bool :=
  if RuneSelf <=? r then false
  else
    let r1 := simple_fold r in
    if RuneSelf <=? r1 then false
    else if r1 =? r then true
    else simple_fold r1 =? r.

(** utf.go:95: runes from lo to hi *)
Definition runes_between (lo hi : N) : list N :=
  map (fun k => lo + N.of_nat k) (seq 0 (N.to_nat (hi + 1 - lo))).

(** utf.go:72-108. The outer option is an index panic, the inner one is [ok]. *)
Definition oneByteRange (one : bool) (rs : list N) (fold : bool)
  : option (option (N * N * bool)) :=
  if one then
    r <- nth_error rs 0 ;;
    if r <? RuneSelf then Some (Some (to_byte r, to_byte r, false)) else Some None
  else
    match rs with
    | [r] =>
        if RuneSelf <=? r then Some None
        else if fold && negb (asciiFold r) then Some None
        else Some (Some (to_byte r, to_byte r, fold))
    | [r; r'] =>
        if r =? r' then
          if RuneSelf <=? r then Some None
          else if fold && negb (asciiFold r) then Some None
          else Some (Some (to_byte r, to_byte r, fold))
        else if r' <? RuneSelf then
          if fold && existsb asciiFold (runes_between r r') then Some None
          else Some (Some (to_byte r, to_byte r', fold))
        else Some None
    | [r0; r1; r2; r3] =>
        if (r0 =? r1) && (r2 =? r3) && (simple_fold r0 =? r2) && (simple_fold r2 =? r0)
        then Some (Some (to_byte r0, to_byte r0, true))
        else Some None
    | _ => Some None
    end.

(** copy.go:52-74 appendRange. The class is a list of ranges, the last one first. *)
Definition touches (lo hi rlo rhi : N) : bool := (lo <=? rhi + 1) && (rlo <=? hi + 1).
Definition widen (lo hi rlo rhi : N) : N * N :=
  (if lo <? rlo then lo else rlo, if rhi <? hi then hi else rhi).
Definition appendRange (r : list (N * N)) (lo hi : N) : list (N * N) :=
  match r with
  | (rlo, rhi) :: r' =>
      if touches lo hi rlo rhi then widen lo hi rlo rhi :: r'
      else
        match r' with
        | (rlo', rhi') :: r'' =>
            if touches lo hi rlo' rhi' then (rlo, rhi) :: widen lo hi rlo' rhi' :: r''
            else (lo, hi) :: r
        | [] => (lo, hi) :: r
        end
  | [] => [(lo, hi)]
  end.

(** copy.go:76-81 *)
Definition minFold : N := 0x41.
Definition maxFold : N := 0x1044f.

(** copy.go:108-112: the runes after c on its orbit *)
Fixpoint append_orbit (fuel : nat) (r : list (N * N)) (c f : N) : list (N * N) :=
  match fuel with
  | O => r
  | S n => if f =? c then r else append_orbit n (appendRange r f f) c (simple_fold f)
  end.
Definition append_folds (r : list (N * N)) (c : N) : list (N * N) :=
  append_orbit orbit_max (appendRange r c c) c (simple_fold c).

(** copy.go:83-115 *)
Definition appendFoldedRange (r : list (N * N)) (lo hi : N) : list (N * N) :=
  if (lo <=? minFold) && (maxFold <=? hi) then appendRange r lo hi
  else if (hi <? minFold) || (maxFold <? lo) then appendRange r lo hi
  else
    let '(r, lo) := if lo <? minFold then (appendRange r lo (minFold - 1), minFold) else (r, lo) in
    let '(r, hi) := if maxFold <? hi then (appendRange r (maxFold + 1) hi, maxFold) else (r, hi) in
    fold_left append_folds (runes_between lo hi) r.

(** utf.go:42-48, 53-59: a rune list is one rune, or pairs; odd lengths panic *)
Fixpoint pairs (rs : list N) : option (list (N * N)) :=
  match rs with
  | [] => Some []
  | lo :: hi :: rs' => l <- pairs rs' ;; Some ((lo, hi) :: l)
  | [_] => None
  end.
Definition ranges_of (rs : list N) : option (list (N * N)) :=
  match rs with [r] => Some [(r, r)] | _ => pairs rs end.

(** utf.go:38-50 *)
Definition class_ranges (rs : list N) (fold : bool) : option (list (N * N)) :=
  l <- ranges_of rs ;;
  if fold then
    Some (rev (fold_left (fun r lh => appendFoldedRange r (fst lh) (snd lh)) l []))
  else Some l.
End Fold.

(** utf.go:124-132 *)
Definition maxRune (n : N) : N :=
  let b := if n =? 1 then 7 else 8 - (n + 1) + 6 * (n - 1) in
  2 ^ b - 1.

(** utf.go:134-145; [b_inst] is b.p.Inst *)
Record key := mkKey { k_lo : N; k_hi : N; k_fold : bool; k_next : N }.
Definition key_eqb (a b : key) : bool :=
  (k_lo a =? k_lo b) && (k_hi a =? k_hi b) && Bool.eqb (k_fold a) (k_fold b) &&
  (k_next a =? k_next b).
Record builder := mkB { b_begin : N; b_out : N; b_cache : list (key * N); b_inst : list xinst }.

Definition set_inst (is : list xinst) (pc : N) (i : xinst) : option (list xinst) :=
  list_set is (N.to_nat pc) i.

(** utf.go:147-161 *)
Definition b_init (is : list xinst) (begin out : N) : option builder :=
  is' <- set_inst is begin (XB IFail) ;;
  Some (mkB begin out [] is').

(** utf.go:163-174 *)
Definition uncachedSuffix (b : builder) (lo hi : N) (fold : bool) (next : N) : builder * N :=
  let next := if next =? 0 then b_out b else next in
  let pc := nlen (b_inst b) in
  (mkB (b_begin b) (b_out b) (b_cache b) (b_inst b ++ [XB (IByte lo hi fold next)]), pc).

Fixpoint cache_get (c : list (key * N)) (k : key) : option N :=
  match c with
  | [] => None
  | (k', pc) :: c' => if key_eqb k' k then Some pc else cache_get c' k
  end.

(** utf.go:176-190 *)
Definition suffix (b : builder) (lo hi : N) (fold : bool) (next : N) : builder * N :=
  if (lo <? 0x80) || (0xbf <? hi) then uncachedSuffix b lo hi fold next
  else
    let k := mkKey lo hi fold next in
    match cache_get (b_cache b) k with
    | Some pc => (b, pc)
    | None =>
        let '(b, pc) := uncachedSuffix b lo hi fold next in
        (mkB (b_begin b) (b_out b) ((k, pc) :: b_cache b) (b_inst b), pc)
    end.

(** utf.go:192-211 *)
Definition addBranch (b : builder) (pc : N) : option builder :=
  i <- nth_error (b_inst b) (N.to_nat (b_begin b)) ;;
  match i with
  | XB IFail =>
      is <- set_inst (b_inst b) (b_begin b) (XB (INop pc)) ;;
      Some (mkB (b_begin b) (b_out b) (b_cache b) is)
  | XB (INop a) =>
      is <- set_inst (b_inst b) (b_begin b) (XB (IAlt a pc)) ;;
      Some (mkB (b_begin b) (b_out b) (b_cache b) is)
  | XB (IAlt a a') =>
      let apc := nlen (b_inst b) in
      is <- set_inst (b_inst b ++ [XB (IAlt a' pc)]) (b_begin b) (XB (IAlt a apc)) ;;
      Some (mkB apc (b_out b) (b_cache b) is)
  | _ => Some b
  end.

(** utf.go:263-266: the bytes from the last to the first *)
Fixpoint add_bytes (b : builder) (l : list (N * N)) (pc : N) : builder * N :=
  match l with
  | [] => (b, pc)
  | (lo, hi) :: l' => let '(b, pc) := suffix b lo hi false pc in add_bytes b l' pc
  end.

(** utf.go:223-230: the first i in 1..3 with lo <= maxRune(i) < hi *)
Fixpoint split_length (is : list N) (lo hi : N) : option N :=
  match is with
  | [] => None
  | i :: is' => if (lo <=? maxRune i) && (maxRune i <? hi) then Some (maxRune i)
                else split_length is' lo hi
  end.
(** utf.go:239-253: the last rune of the first part, if the range is split *)
Fixpoint split_lead (is : list N) (lo hi : N) : option N :=
  match is with
  | [] => None
  | i :: is' =>
      let m := 2 ^ (6 * i) - 1 in
      if negb (N.ldiff lo m =? N.ldiff hi m) then
        if negb (N.land lo m =? 0) then Some (N.lor lo m)
        else if negb (N.land hi m =? m) then Some (N.ldiff hi m - 1)
        else split_lead is' lo hi
      else split_lead is' lo hi
  end.

(** utf.go:213-268; the recursion is bounded by the size of the range. *)
Fixpoint addRange (fuel : nat) (b : builder) (lo hi : N) (fold : bool) : option builder :=
  match fuel with
  | O => None
  | S f =>
      if hi <? lo then Some b
      else
        match split_length [1; 2; 3] lo hi with
        | Some m => b <- addRange f b lo m fold ;; addRange f b (m + 1) hi fold
        | None =>
            if hi <? RuneSelf then
              let '(b, pc) := suffix b (to_byte lo) (to_byte hi) fold 0 in addBranch b pc
            else
              match split_lead [1; 2; 3] lo hi with
              | Some m => b <- addRange f b lo m fold ;; addRange f b (m + 1) hi fold
              | None =>
                  let ulo := encode_rune lo in
                  let uhi := encode_rune hi in
                  if Nat.eqb (length ulo) (length uhi) then
                    let '(b, pc) := add_bytes b (rev (combine ulo uhi)) 0 in addBranch b pc
                  else None
              end
        end
  end.
Definition range_fuel (lo hi : N) : nat := S (N.to_nat (hi + 1 - lo)).

(** utf.go:53-59 *)
Fixpoint add_ranges (b : builder) (l : list (N * N)) : option builder :=
  match l with
  | [] => Some b
  | (lo, hi) :: l' =>
      b <- addRange (range_fuel lo hi) b lo hi false ;;
      add_ranges b l'
  end.

Section Prog.
Variable simple_fold : N -> N.
Variable orbit_max : nat.

(** utf.go:24-67 *)
Definition byte_inst (is : list xinst) (pc : N) : option (list xinst) :=
  i <- nth_error is (N.to_nat pc) ;;
  match i with
  | XRune one rs fold out =>
      o <- oneByteRange simple_fold one rs fold ;;
      match o with
      | Some (lo, hi, f) => set_inst is pc (XB (IByte lo hi f out))
      | None =>
          l <- class_ranges simple_fold orbit_max rs fold ;;
          b <- b_init is pc out ;;
          b <- add_ranges b l ;;
          Some (b_inst b)
      end
  | XAny out | XAnyNotNL out =>
      b <- b_init is pc out ;;
      b <- add_ranges b [(0, MaxRune)] ;;
      Some (b_inst b)
  | XB _ => Some is
  end.

Fixpoint byte_insts (is : list xinst) (pcs : list nat) : option (list xinst) :=
  match pcs with
  | [] => Some is
  | pc :: pcs' => is <- byte_inst is (N.of_nat pc) ;; byte_insts is pcs'
  end.

(** The finished program; rune instructions would be ignored by the matcher. *)
Definition plain (i : xinst) : inst := match i with XB i => i | _ => IOther end.

(** utf.go:21-70; the range clause evaluates len(prog.Inst) once. *)
Definition toByteProg (p : xprog) : option prog :=
  is <- byte_insts (x_inst p) (seq 0 (length (x_inst p))) ;;
  Some (mkProg (map plain is) (x_start p)).
End Prog.
