(** Texts of the page and texts of the server. *)
From Verif Require Import Model.Base Model.PageState Spec.Utf8Spec Spec.AddressSpec.
Local Open Scope N_scope.

(** [s] in UTF-16 and [b] in UTF-8 are the same text. *)
Inductive same_text : list N -> list N -> Prop :=
  | st_nil : same_text [] []
  | st_char r u bs s b : utf16 r u -> utf8 r bs -> same_text s b -> same_text (u ++ s) (bs ++ b).
(** An object with the members of [p], in some order. *)
Definition object_of (p o : params) : Prop := NoDup (map fst o) /\ forall k, get_param o k = get_param p k.
(** White space (Unicode 15, category Zs), tab, the line terminators of Javascript, vertical tab,
    form feed and the byte order mark. *)
Definition white (c : N) : Prop :=
  In c [9; 10; 11; 12; 13; 32; 0xA0; 0x1680; 0x2000; 0x2001; 0x2002; 0x2003; 0x2004; 0x2005; 0x2006; 0x2007; 0x2008; 0x2009; 0x200A;
        0x2028; 0x2029; 0x202F; 0x205F; 0x3000; 0xFEFF].
(** [t] is [s] without white space around it. *)
Definition within (s t : list N) : Prop :=
  exists a b, s = a ++ t ++ b /\ Forall white a /\ Forall white b /\
    (forall c r, t = c :: r -> ~ white c) /\ (forall c r, t = r ++ [c] -> ~ white c).
