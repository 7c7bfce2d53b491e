(** How text is written in an address. *)
From Verif Require Import Model.Base Spec.Utf8Spec.
Local Open Scope N_scope.

(** UTF-16 (Unicode D91): the code units of a scalar value. *)
Inductive utf16 : N -> list N -> Prop :=
  | utf16_1 r : scalar r -> r < 0x10000 -> utf16 r [r]
  | utf16_2 r x y : x < 1024 -> y < 1024 -> r = 0x10000 + x * 1024 + y -> utf16 r [0xD800 + x; 0xDC00 + y].
Inductive well_formed : list N -> Prop :=
  | wf_nil : well_formed []
  | wf_char r u s : utf16 r u -> well_formed s -> well_formed (u ++ s).

(** Escapes; a digit may be a small letter. *)
Definition hex (c x : N) : Prop := (x < 10 /\ c = 48 + x) \/ (10 <= x < 16 /\ (c = 55 + x \/ c = 87 + x)).
Inductive escapes : list N -> list N -> Prop :=
  | es_nil : escapes [] []
  | es_byte b x y c d bs s : hex c x -> hex d y -> b = 16 * x + y -> escapes bs s -> escapes (b :: bs) (37 :: c :: d :: s).
(** [written plus s t]: the address has [s] for the text [t]. A plus may stand for a space. *)
Inductive written (plus : bool) : list N -> list N -> Prop :=
  | wr_nil : written plus [] []
  | wr_plain c s t : c <> 37 -> c <> 38 -> c <> 61 -> (c <> 43 \/ plus = false) -> written plus s t -> written plus (c :: s) (c :: t)
  | wr_plus s t : plus = true -> written plus s t -> written plus (43 :: s) (32 :: t)
  | wr_char r bs e u s t : utf8 r bs -> escapes bs e -> utf16 r u -> written plus s t -> written plus (e ++ s) (u ++ t).
(** Names and values. *)
Inductive query : list N -> list (list N * list N) -> Prop :=
  | qu_one a b k v : written false a k -> written true b v -> query (a ++ 61 :: b) [(k, v)]
  | qu_more a b k v s l : written false a k -> written true b v -> query s l -> query (a ++ 61 :: b ++ 38 :: s) ((k, v) :: l).
(** Names that can stand in an address as they are. *)
Definition harmless (s : list N) : Prop :=
  well_formed s /\ Forall (fun c => ~ In c [37; 38; 61; 43; 35; 9; 10; 13]) s /\ (s = [] \/ exists s' c, s = s' ++ [c] /\ 32 < c).
