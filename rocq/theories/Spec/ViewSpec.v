(** What the page should show of a file, independent of hound.js. *)
From Verif Require Import Model.Base Spec.PresentSpec.
Local Open Scope nat_scope.

(** A block of rows: at least one, with consecutive numbers. *)
Definition consecutive (g : list row) : Prop :=
  g <> [] /\ forall i r, nth_error g i = Some r -> row_no r = (row_no (hd r g) + Z.of_nat i)%Z.

(** A stretch of HTML as the browser shows it: characters, each emphasised or not. [b]: in
    an em element. A carriage return is read as a newline, one before a newline is not
    covered, nor are NUL and any other markup. *)
Local Open Scope N_scope.
Inductive shown : bool -> str -> list (N * bool) -> Prop :=
  | sh_end : shown false [] []
  | sh_em s t : shown true s t -> shown false ([60; 101; 109; 62] ++ s) t
  | sh_end_em s t : shown false s t -> shown true ([60; 47; 101; 109; 62] ++ s) t
  | sh_amp b s t : shown b s t -> shown b ([38; 97; 109; 112; 59] ++ s) ((38, b) :: t)
  | sh_lt b s t : shown b s t -> shown b ([38; 108; 116; 59] ++ s) ((60, b) :: t)
  | sh_gt b s t : shown b s t -> shown b ([38; 103; 116; 59] ++ s) ((62, b) :: t)
  | sh_nbsp b s t : shown b s t -> shown b ([38; 110; 98; 115; 112; 59] ++ s) ((0xA0, b) :: t)
  | sh_cr b s t : hd 0 s <> 10 -> shown b s t -> shown b (13 :: s) ((10, b) :: t)
  | sh_char b c s t : c <> 0 -> c <> 13 -> c <> 38 -> c <> 60 -> shown b s t -> shown b (c :: s) ((c, b) :: t).
Definition as_shown (c : N) : N := if c =? 13 then 10 else c.

(** An expression by its matches: [at_ s i j], the characters from [i] up to [j] of [s] are a
    match. [exec] finds the first one. *)
Local Open Scope nat_scope.
Definition finds (at_ : str -> nat -> nat -> Prop) (exec : str -> option (nat * nat)) : Prop :=
  forall s, match exec s with
            | Some (i, j) => i <= j <= length s /\ at_ s i j /\ forall i' j', i' < i -> ~ at_ s i' j'
            | None => forall i j, ~ at_ s i j
            end.
(** Whether there is a match does not depend on what is before it. *)
Definition context_free (at_ : str -> nat -> nat -> Prop) : Prop :=
  forall s k i j, k <= length s -> (at_ (skipn k s) i j <-> at_ s (k + i) (k + j)).
(** The matches from [k] on, from left to right, each the first one after the last. *)
Inductive all_matches (at_ : nat -> nat -> Prop) : nat -> list (nat * nat) -> Prop :=
  | am_none k : (forall i j, k <= i -> ~ at_ i j) -> all_matches at_ k []
  | am_next k i j st : k <= i -> i < j -> at_ i j -> (forall i' j', k <= i' < i -> ~ at_ i' j') ->
      all_matches at_ j st -> all_matches at_ k ((i, j) :: st).
(** What is emphasised is in one of the stretches. *)
Definition emphasised (cs : list (N * bool)) (st : list (nat * nat)) : Prop :=
  forall p c b, nth_error cs p = Some (c, b) -> (b = true <-> exists i j, In (i, j) st /\ i <= p < j).

(** The occurrences of a text. *)
Definition occurs (q s : str) (i j : nat) : Prop := j = i + length q /\ j <= length s /\ firstn (length q) (skipn i s) = q.

(** ECMA-262 22.2.1: an expression that is a sequence of characters, some of them escaped. *)
Local Open Scope N_scope.
Definition syntax_character (c : N) : Prop := In c [94; 36; 92; 46; 42; 43; 63; 40; 41; 91; 93; 123; 125; 124].
Definition identifier_part (c : N) : Prop := 48 <= c <= 57 \/ 65 <= c <= 90 \/ 97 <= c <= 122 \/ c = 95 \/ c = 36.
Inductive characters : str -> str -> Prop :=
  | cs_end : characters [] []
  | cs_plain c p q : ~ syntax_character c -> characters p q -> characters (c :: p) (c :: q)
  | cs_syntax c p q : syntax_character c -> characters p q -> characters (92 :: c :: p) (c :: q)
  | cs_identity c p q : ~ identifier_part c -> characters p q -> characters (92 :: c :: p) (c :: q).
