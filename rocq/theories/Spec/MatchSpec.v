(** What it means for a line to match a byte program, independent of the matcher: a
    non-deterministic run of the program over a part of the line. *)
From Coq Require Import List NArith Relations.
From Verif Require Import Model.Matcher.
Import ListNotations.
Local Open Scope N_scope.

Definition word (c : N) : Prop :=
  (65 <= c /\ c <= 90) \/ (97 <= c /\ c <= 122) \/ (48 <= c /\ c <= 57) \/ c = 95.
Definition word_before (line : list N) (k : nat) : Prop :=
  exists j c, k = S j /\ nth_error line j = Some c /\ word c.
Definition word_after (line : list N) (k : nat) : Prop :=
  exists c, nth_error line k = Some c /\ word c.

(** The zero-width assertions at position [k] of [line], which starts the text if [bot]
    and ends it if [eot]; numbered like regexp/syntax.EmptyOp. *)
Definition holds (line : list N) (bot eot : bool) (k : nat) (assertion : N) : Prop :=
  match assertion with
  | 0 => k = 0%nat                               (* begin line *)
  | 1 => k = length line                         (* end line *)
  | 2 => k = 0%nat /\ bot = true                 (* begin text *)
  | 3 => k = length line /\ eot = true           (* end text *)
  | 4 => ~ (word_before line k <-> word_after line k)   (* word boundary *)
  | 5 => word_before line k <-> word_after line k       (* no word boundary *)
  | _ => False
  end.

(** Byte [c] is in the range; with [fold], lower case letters count as upper case. *)
Definition in_range (lo hi : N) (fold : bool) (c : N) : Prop :=
  if fold then
    (97 <= c <= 122 /\ lo <= c - 32 <= hi) \/ (~ 97 <= c <= 122 /\ lo <= c <= hi)
  else lo <= c <= hi.

Definition instr (p : prog) (pc : N) (i : inst) : Prop :=
  nth_error (p_inst p) (N.to_nat pc) = Some i.

Inductive step (p : prog) (line : list N) (bot eot : bool) : N * nat -> N * nat -> Prop :=
| step_alt1 : forall pc k a b, instr p pc (IAlt a b) -> step p line bot eot (pc, k) (a, k)
| step_alt2 : forall pc k a b, instr p pc (IAlt a b) -> step p line bot eot (pc, k) (b, k)
| step_nop : forall pc k a, instr p pc (INop a) -> step p line bot eot (pc, k) (a, k)
| step_assert : forall pc k w a, instr p pc (IEmpty w a) ->
    (forall n, N.testbit w n = true -> holds line bot eot k n) ->
    step p line bot eot (pc, k) (a, k)
| step_consume : forall pc k lo hi fold a c, instr p pc (IByte lo hi fold a) ->
    nth_error line k = Some c -> in_range lo hi fold c ->
    step p line bot eot (pc, k) (a, S k).

(** Some part of the line matches. *)
Definition line_match (p : prog) (bot eot : bool) (line : list N) : Prop :=
  exists k0 pc k, (k0 <= length line)%nat /\
    clos_refl_trans _ (step p line bot eot) (p_start p, k0) (pc, k) /\ instr p pc IMatch.

(** All jump targets exist. *)
Definition targets (i : inst) : list N :=
  match i with
  | IAlt a b => [a; b]
  | INop a | IEmpty _ a | IByte _ _ _ a => [a]
  | _ => []
  end.
Definition wf_prog (p : prog) : Prop :=
  N.of_nat (length (p_inst p)) < 2^32 - 1 /\
  p_start p < N.of_nat (length (p_inst p)) /\
  forall i, In i (p_inst p) -> Forall (fun t => t < N.of_nat (length (p_inst p))) (targets i).

(** The lines of a text: the pieces between newlines (the last one, after the last
    newline, may be empty). *)
Definition splits (text : list N) (lines : list (list N)) : Prop :=
  lines <> [] /\ Forall (fun l => ~ In 10 l) lines /\
  exists init last, lines = init ++ [last] /\
    text = concat (map (fun l => l ++ [10]) init) ++ last.

(** [r] is the offset of the end of the first line satisfying [P bot eot line] where
    [bot]/[eot] tell whether the line starts/ends the text. *)
Definition is_nil {A} (l : list A) : bool := match l with [] => true | _ => false end.
Definition line_hit (P : bool -> bool -> list N -> Prop) (bt et : bool)
  (pre : list (list N)) (line : list N) (post : list (list N)) : Prop :=
  P (bt && is_nil pre)%bool (et && is_nil post)%bool line.
Definition first_hit (P : bool -> bool -> list N -> Prop) (bt et : bool) (text : list N)
  (r : option nat) : Prop :=
  forall lines, splits text lines ->
  match r with
  | Some e => exists pre line post, lines = pre ++ line :: post /\
      e = (length (concat (map (fun l => l ++ [10%N]) pre)) + length line)%nat /\
      line_hit P bt et pre line post /\
      (forall pre1 l post1, pre = pre1 ++ l :: post1 ->
         ~ line_hit P bt et pre1 l (post1 ++ line :: post))
  | None => forall pre l post, lines = pre ++ l :: post -> ~ line_hit P bt et pre l post
  end.
