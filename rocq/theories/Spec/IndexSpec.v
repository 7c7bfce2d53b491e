(** What it means for a text to contain a trigram, to qualify for indexing, and what
    an index over a list of texts has to return. Nothing here refers to the model. *)
From Coq Require Import List NArith Sorted.
Import ListNotations.
Local Open Scope N_scope.

(** The three bytes of trigram number [t] occur consecutively in [text]. *)
Definition has_trigram (text : list N) (t : N) : Prop :=
  exists p a b c s, text = p ++ [a; b; c] ++ s /\ t = a * 65536 + b * 256 + c.

(** [ts] lists the distinct trigrams of [text]. *)
Definition trigram_list (text ts : list N) : Prop :=
  NoDup ts /\ forall t, In t ts <-> has_trigram text t.

(** Byte classes of UTF-8: ASCII, continuation, leading byte, never used. *)
Inductive bclass := Ascii | Cont | Lead | Never.
Definition class_of (b : N) : bclass :=
  if b <? 0x80 then Ascii else if b <? 0xc0 then Cont else if b <? 0xf8 then Lead else Never.

(** Which class may follow which (a deliberately weak test: sequence lengths are not
    checked). *)
Definition may_follow (x y : bclass) : Prop :=
  match x, y with
  | Ascii, Ascii | Ascii, Lead => True
  | Cont, Ascii | Cont, Cont | Cont, Lead => True
  | Lead, Cont => True
  | _, _ => False
  end.

(** Every byte may follow its predecessor; the text starts as if after a NUL. *)
Definition pairs_ok (text : list N) : Prop :=
  forall p x y s, 0 :: text = p ++ [x; y] ++ s -> may_follow (class_of x) (class_of y).

(** [ls] are the newline-terminated lines of [text] (with their newline), [rest] what
    follows the last newline. *)
Definition lines_of (text : list N) (ls : list (list N)) (rest : list N) : Prop :=
  text = concat ls ++ rest /\ ~ In 10 rest /\
  Forall (fun l => exists body, l = body ++ [10] /\ ~ In 10 body) ls.

Definition len (l : list N) : N := N.of_nat (length l).
Definition count_long (ls : list (list N)) : N :=
  N.of_nat (length (filter (fun l => 2000 <? len l) ls)).

(** The criteria that do not involve counting trigrams. *)
Definition plain_criteria (text : list N) : Prop :=
  pairs_ok text /\
  len text <= 33554432 /\
  forall ls rest, lines_of text ls rest -> 10 * count_long ls <= N.of_nat (length ls).

(** More than 20000 distinct trigrams, and more than a tenth of [n]. *)
Definition too_many_trigrams (text : list N) (n : N) : Prop :=
  exists ts, trigram_list text ts /\ 20000 < len ts /\ n < 10 * len ts.

(** [ids] are the positions, in increasing order, of the texts satisfying [P]. *)
Definition positions_where (P : list N -> Prop) (texts : list (list N)) (ids : list N) : Prop :=
  StronglySorted N.lt ids /\
  forall i, In i ids <-> exists text, nth_error texts (N.to_nat i) = Some text /\ P text.
