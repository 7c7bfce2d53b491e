(** Patterns as they are written, and what they match. *)
From Verif Require Import Spec.Names Model.Base Model.Syntax Spec.Utf8Spec Spec.RegexSpec Spec.GrepSpec.
Local Open Scope N_scope.

(** Members of a class: the characters from one to another; digits, spaces, characters of words and
    so on, or the others. *)
Inductive kind := KDigit | KSpace | KWord | KAlnum | KAlpha | KAscii | KBlank | KCntrl | KGraph | KLower | KPrint | KPunct | KWhite | KUpper | KHex.
Inductive member := MRange (lo hi : N) | MKind (k : kind) (neg : bool).

(** A position: the start or the end of a line, an edge of a word, or none. *)
Inductive pat :=
| PEmpty
| PChar (r : N)
| PAny
| PClass (neg : bool) (ms : list member)
| PStart | PEnd | PEdge | PNoEdge
| PGroup (p : pat)
| PStar (p : pat)
| PPlus (p : pat)
| PQuest (p : pat)
| PCount (p : pat) (min : nat) (max : option nat)
| PThen (p q : pat).

(** Characters that do not stand for themselves: \ . + * ? ( ) | [ { ^ $ *)
Definition metachars : list N := [92; 46; 43; 42; 63; 40; 41; 124; 91; 123; 94; 36].
Definition letter_or_digit (c : N) : Prop := (48 <= c <= 57) \/ (65 <= c <= 90) \/ (97 <= c <= 122).
(** \a \f \n \r \t \v *)
Definition controls : list (N * N) := [(97, 7); (102, 12); (110, 10); (114, 13); (116, 9); (118, 11)].
(** \x and two digits, \x{ } with any number of them, a backslash and three octal digits; what stands
    after the backslash. *)
Definition hex_digit (c v : N) : Prop := (48 <= c <= 57 /\ v = c - 48) \/ (65 <= c <= 70 /\ v = c - 55) \/ (97 <= c <= 102 /\ v = c - 87).
Definition octal_digit (c v : N) : Prop := 48 <= c <= 55 /\ v = c - 48.
Inductive number : N -> str -> Prop :=
| nu_hex : forall a b x y, hex_digit a x -> hex_digit b y -> number (16 * x + y) [120; a; b]
| nu_braces : forall s vs r, Forall2 hex_digit s vs -> s <> [] -> r = fold_left (fun r v => 16 * r + v) vs 0 -> scalar r -> number r ([120; 123] ++ s ++ [125])
| nu_octal : forall a b c x y z, octal_digit a x -> octal_digit b y -> octal_digit c z -> number (64 * x + 8 * y + z) [a; b; c].

(** In a class: characters, \ [ ] ^ - escaped; ranges; \d \D \s \S \w \W;
    [:name:] and [:^name:]. A minus at the end stands
    for itself. *)
Definition class_metachars : list N := [92; 91; 93; 94; 45].
Inductive class_char : N -> str -> Prop :=
| cc_char : forall r bs, utf8 r bs -> ~ In r class_metachars -> class_char r bs
| cc_quoted : forall r, r < 0x80 -> ~ letter_or_digit r -> class_char r [92; r]
| cc_control : forall c r, In (c, r) controls -> class_char r [92; c]
| cc_number : forall r s, number r s -> class_char r (92 :: s).
Definition kinds : list (N * (kind * bool)) := [(100, (KDigit, false)); (68, (KDigit, true)); (115, (KSpace, false)); (83, (KSpace, true)); (119, (KWord, false)); (87, (KWord, true))].
Definition names : list (str * kind) :=
  [(text "alnum", KAlnum); (text "alpha", KAlpha); (text "ascii", KAscii); (text "blank", KBlank); (text "cntrl", KCntrl);
   (text "digit", KDigit); (text "graph", KGraph); (text "lower", KLower); (text "print", KPrint); (text "punct", KPunct);
   (text "space", KWhite); (text "upper", KUpper); (text "word", KWord); (text "xdigit", KHex)].
Inductive class_member : member -> str -> Prop :=
| cm_one : forall r s, class_char r s -> class_member (MRange r r) s
| cm_range : forall lo hi s t, class_char lo s -> class_char hi t -> lo <= hi -> class_member (MRange lo hi) (s ++ [45] ++ t)
| cm_kind : forall c k neg, In (c, (k, neg)) kinds -> class_member (MKind k neg) [92; c]
| cm_named : forall n k (neg : bool), In (n, k) names -> class_member (MKind k neg) ([91; 58] ++ (if neg then [94] else []) ++ n ++ [58; 93]).
Inductive class_members : list member -> str -> Prop :=
| cl_last : forall m s, class_member m s -> class_members [m] s
| cl_minus : forall m s, class_member m s -> class_members [m; MRange 45 45] (s ++ [45])
| cl_cons : forall m ms s t, class_member m s -> class_members ms t -> class_members (m :: ms) (s ++ t).

(** Characters as they are, between \Q and \E. *)
Inductive spelled : list N -> str -> Prop :=
| sp_nil : spelled [] []
| sp_cons : forall r bs rs s, utf8 r bs -> spelled rs s -> spelled (r :: rs) (bs ++ s).
Fixpoint verbatim (rs : list N) (q : pat) : pat := match rs with [] => q | r :: rs => PThen (PChar r) (verbatim rs q) end.

(** Counts: {n}, {n,} and {n,m}, with n and m at most 1000; of one character. *)
Definition decimal_digit (c v : N) : Prop := 48 <= c <= 57 /\ v = c - 48.
Definition decimal (n : N) (s : str) : Prop :=
  s <> [] /\ (forall s', s = 48 :: s' -> s' = []) /\ exists vs, Forall2 decimal_digit s vs /\ n = fold_left (fun r v => 10 * r + v) vs 0.
Inductive counting : nat -> option nat -> str -> Prop :=
| co_exact : forall n s, decimal n s -> n <= 1000 -> counting (N.to_nat n) (Some (N.to_nat n)) ([123] ++ s ++ [125])
| co_least : forall n s, decimal n s -> n <= 1000 -> counting (N.to_nat n) None ([123] ++ s ++ [44; 125])
| co_between : forall n m s t, decimal n s -> decimal m t -> n <= m -> m <= 1000 -> counting (N.to_nat n) (Some (N.to_nat m)) ([123] ++ s ++ [44] ++ t ++ [125]).
Definition single (p : pat) : bool := match p with PChar _ | PAny | PClass _ _ => true | _ => false end.

(** An atom; a piece: an atom that may be repeated (lazily, with a ? behind, which does not change
    what matches); pieces one after the other. *)
Inductive level := Atom | Piece | Seq.
Inductive written : level -> pat -> str -> Prop :=
| wr_char : forall r bs, utf8 r bs -> ~ In r metachars -> written Atom (PChar r) bs
| wr_quoted : forall r, r < 0x80 -> ~ letter_or_digit r -> written Atom (PChar r) [92; r]
| wr_control : forall c r, In (c, r) controls -> written Atom (PChar r) [92; c]
| wr_number : forall r s, number r s -> written Atom (PChar r) (92 :: s)
| wr_any : written Atom PAny [46]
| wr_class : forall (neg : bool) ms s, class_members ms s -> written Atom (PClass neg ms) ([91] ++ (if neg then [94] else []) ++ s ++ [93])
| wr_kind : forall c k neg, In (c, (k, neg)) kinds -> written Atom (PClass false [MKind k neg]) [92; c]
| wr_start : written Atom PStart [94]
| wr_end : written Atom PEnd [36]
| wr_edge : written Atom PEdge [92; 98]
| wr_noedge : written Atom PNoEdge [92; 66]
| wr_group : forall p s, written Seq p s -> written Atom (PGroup p) ([40] ++ s ++ [41])
| wr_plain : forall p s, written Seq p s -> written Atom (PGroup p) ([40; 63; 58] ++ s ++ [41])
| wr_once : forall p s, written Atom p s -> written Piece p s
| wr_star : forall p s lazy, written Atom p s -> In lazy [[]; [63]] -> written Piece (PStar p) (s ++ [42] ++ lazy)
| wr_plus : forall p s lazy, written Atom p s -> In lazy [[]; [63]] -> written Piece (PPlus p) (s ++ [43] ++ lazy)
| wr_quest : forall p s lazy, written Atom p s -> In lazy [[]; [63]] -> written Piece (PQuest p) (s ++ [63] ++ lazy)
| wr_count : forall p s min max b lazy, written Atom p s -> single p = true -> counting min max b -> In lazy [[]; [63]] -> written Piece (PCount p min max) (s ++ b ++ lazy)
| wr_nil : written Seq PEmpty []
| wr_cons : forall p q s t, written Piece p s -> written Seq q t -> written Seq (PThen p q) (s ++ t)
| wr_verbatim : forall rs s q t, spelled rs s -> (forall a b, s <> a ++ [92; 69] ++ b) -> written Seq q t -> written Seq (verbatim rs q) ([92; 81] ++ s ++ [92; 69] ++ t).

(** What a pattern matches: the part [w] of the text [pre ++ w ++ post]; up to case if [ic], with
    ^ and $ at every line if [ml]. *)
Section Match.
Variable sf : N -> N.
Variable ic ml : bool.
Definition same (r r' : N) : Prop := if ic then same_letter sf r r' else r' = r.
Definition of_kind (k : kind) (r : N) : Prop :=
  match k with
  | KDigit => 48 <= r <= 57
  | KSpace => In r [9; 10; 12; 13; 32]
  | KWord => word_byte r
  | KAlnum => letter_or_digit r
  | KAlpha => 65 <= r <= 90 \/ 97 <= r <= 122
  | KAscii => r < 128
  | KBlank => In r [9; 32]
  | KCntrl => r < 32 \/ r = 127
  | KGraph => 33 <= r <= 126
  | KLower => 97 <= r <= 122
  | KPrint => 32 <= r <= 126
  | KPunct => 33 <= r <= 126 /\ ~ letter_or_digit r
  | KWhite => 9 <= r <= 13 \/ r = 32
  | KUpper => 65 <= r <= 90
  | KHex => 48 <= r <= 57 \/ 65 <= r <= 70 \/ 97 <= r <= 102
  end.
(** The characters that a member is made of, and those it stands for. *)
Definition made_of (m : member) (r : N) : Prop := match m with MRange lo hi => lo <= r <= hi | MKind k _ => of_kind k r end.
Definition stands_for (m : member) (r' : N) : Prop :=
  let s := exists r, made_of m r /\ same r r' in match m with MKind _ true => ~ s | _ => s end.
Definition in_members (neg : bool) (ms : list member) (r : N) : Prop :=
  let s := exists m, In m ms /\ stands_for m r in if neg then ~ s else s.
Inductive pmatch : pat -> str -> str -> str -> Prop :=
| pm_empty : forall pre post, pmatch PEmpty pre [] post
| pm_char : forall r r' w pre post, utf8 r' w -> same r r' -> pmatch (PChar r) pre w post
| pm_any : forall r w pre post, utf8 r w -> r <> 10 -> pmatch PAny pre w post
| pm_class : forall neg ms r w pre post, utf8 r w -> in_members neg ms r -> pmatch (PClass neg ms) pre w post
| pm_start : forall pre post, pre = [] \/ (ml = true /\ exists b, pre = b ++ [10]) -> pmatch PStart pre [] post
| pm_end : forall pre post, post = [] \/ (ml = true /\ exists a, post = 10 :: a) -> pmatch PEnd pre [] post
| pm_edge : forall pre post, ~ (ends_word pre <-> starts_word post) -> pmatch PEdge pre [] post
| pm_noedge : forall pre post, (ends_word pre <-> starts_word post) -> pmatch PNoEdge pre [] post
| pm_group : forall p pre w post, pmatch p pre w post -> pmatch (PGroup p) pre w post
| pm_none : forall p pre post, pmatch (PStar p) pre [] post
| pm_more : forall p pre u v post, pmatch p pre u (v ++ post) -> pmatch (PStar p) (pre ++ u) v post -> pmatch (PStar p) pre (u ++ v) post
| pm_plus : forall p pre u v post, pmatch p pre u (v ++ post) -> pmatch (PStar p) (pre ++ u) v post -> pmatch (PPlus p) pre (u ++ v) post
| pm_quest0 : forall p pre post, pmatch (PQuest p) pre [] post
| pm_quest1 : forall p pre w post, pmatch p pre w post -> pmatch (PQuest p) pre w post
| pm_count : forall p min max k pre w post, (min <= k)%nat -> match max with Some m => (k <= m)%nat | None => True end ->
    pmatch (Nat.iter k (PThen p) PEmpty) pre w post -> pmatch (PCount p min max) pre w post
| pm_then : forall p q pre u v post, pmatch p pre u (v ++ post) -> pmatch q (pre ++ u) v post -> pmatch (PThen p q) pre (u ++ v) post.
End Match.

(** The characters of a pattern. *)
Fixpoint chars_of (p : pat) : list N :=
  match p with
  | PChar r => [r]
  | PGroup p | PStar p | PPlus p | PQuest p | PCount p _ _ => chars_of p
  | PThen p q => chars_of p ++ chars_of q
  | _ => []
  end.

(** Its classes. What is said of them below: no range begins or ends close to the surrogates (nor
    does one that ignoring case adds); a class is not just the two cases of one letter beyond
    U+1044F; when case is ignored, the ranges of a class have together at most 500 characters. *)
Fixpoint classes_of (p : pat) : list (bool * list member) :=
  match p with
  | PClass neg ms => [(neg, ms)]
  | PGroup p | PStar p | PPlus p | PQuest p | PCount p _ _ => classes_of p
  | PThen p q => classes_of p ++ classes_of q
  | _ => []
  end.
Definition far (r : N) : Prop := r < 0xD000 \/ (0xF000 <= r /\ r <= 0x10FFFF).
Definition width (m : member) : N := match m with MRange lo hi => hi + 1 - lo | MKind (KAscii | KGraph | KPrint) _ => 129 | MKind _ _ => 64 end.
Definition class_ok (sf : N -> N) (om : nat) (ic : bool) (neg : bool) (ms : list member) : Prop :=
  (if ic then forall m r r', In m ms -> made_of m r -> same_letter sf r r' -> far r' else forall lo hi, In (MRange lo hi) ms -> far lo /\ far hi) /\
  (forall r r', r < r' -> sf r = r' -> sf r' = r -> (forall x, x <= 0x10FFFF -> (in_members sf ic neg ms x <-> x = r \/ x = r')) -> r <= 0x1044f) /\
  (ic = true -> (om <= 4)%nat /\ fold_right N.add 0 (map width ms) <= 500).
Definition classes_ok (sf : N -> N) (om : nat) (ic : bool) (p : pat) : Prop := forall neg ms, In (neg, ms) (classes_of p) -> class_ok sf om ic neg ms.

(** Line [k] (from 0) of the file is [line], and a part of the file that lies within it matches. *)
Definition matched_line (sf : N -> N) (ic : bool) (p : pat) (file : str) (k : nat) (line : str) : Prop :=
  (exists lines, file_lines file lines /\ nth_error lines k = Some line) /\
  exists pre w post, file = pre ++ w ++ post /\ count_occ N.eq_dec pre 10 = k /\ ~ In 10 w /\ pmatch sf ic true p pre w post.
(** A part of the name matches that does not span lines, with regard to case. *)
Definition matched_name (sf : N -> N) (p : pat) (name : str) : Prop :=
  exists pre w post, name = pre ++ w ++ post /\ ~ In 10 w /\ pmatch sf false false p pre w post.
(** What matches between the last newline and the end of a file, where there is no line, matches
    in every line. *)
Definition within (sf : N -> N) (ic : bool) (p : pat) (line before after : str) : Prop :=
  exists u w v, line = u ++ w ++ v /\ pmatch sf ic true p (before ++ u) w (v ++ after).
Definition lines_only (sf : N -> N) (ic : bool) (p : pat) : Prop :=
  within sf ic p [] [10] [] -> forall line, ~ In 10 line -> within sf ic p line [10] [10].
