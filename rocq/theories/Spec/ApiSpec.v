(** What the parameters of a request mean. *)
From Verif Require Import Model.Base Model.Utf8.
Local Open Scope N_scope.

(** Decimal numbers. *)
Definition digit (c : N) : Prop := 48 <= c <= 57.
Definition decimal (s : str) (v : N) : Prop :=
  s <> [] /\ Forall digit s /\ v = fold_left (fun n c => 10 * n + (c - 48)) s 0.
Definition signed (s : str) (z : Z) : Prop :=
  exists v, (decimal s v /\ z = Z.of_N v) \/
    exists d, decimal d v /\ ((s = 43 :: d /\ z = Z.of_N v) \/ (s = 45 :: d /\ z = (- Z.of_N v)%Z)).
Definition int64_range (z : Z) : Prop := (- 2 ^ 63 <= z < 2 ^ 63)%Z.

(** One end of a page range: a number of 64 bits (as an int), everything else is 0. *)
Definition bound (s : str) (b : Z) : Prop :=
  (exists v, decimal s v /\ v < 2 ^ 64 /\ b = if v <? 2 ^ 63 then Z.of_N v else (Z.of_N v - 2 ^ 64)%Z) \/
  ((forall v, decimal s v -> 2 ^ 64 <= v) /\ b = 0%Z).
(** begin:end *)
Definition page (s : str) (b e : Z) : Prop :=
  (~ In 58 s /\ b = 0%Z /\ e = 0%Z) \/
  (exists l r, s = l ++ 58 :: r /\ ~ In 58 l /\ bound l b /\ bound r e).

(** Unicode white space. *)
Definition space_runes : list N :=
  [0x9; 0xA; 0xB; 0xC; 0xD; 0x20; 0x85; 0xA0; 0x1680;
   0x2000; 0x2001; 0x2002; 0x2003; 0x2004; 0x2005; 0x2006; 0x2007; 0x2008; 0x2009; 0x200A;
   0x2028; 0x2029; 0x202F; 0x205F; 0x3000].
Definition white (s : str) : Prop := exists rs, Forall (fun r => In r space_runes) rs /\ s = encode_runes rs.
(** [w] is [v] without the white space around it. *)
Definition trimmed (v w : str) : Prop :=
  (exists a b, v = a ++ w ++ b /\ white a /\ white b) /\
  forall r x, In r space_runes -> w <> encode_rune r ++ x /\ w <> x ++ encode_rune r.
(** [name] is an element of the comma separated list [w]. *)
Definition element (w name : str) : Prop :=
  ~ In 44 name /\ exists a b, w = a ++ name ++ b /\
    (a = [] \/ exists a', a = a' ++ [44]) /\ (b = [] \/ exists b', b = 44 :: b').
