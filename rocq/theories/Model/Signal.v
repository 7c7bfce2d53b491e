(** ui/assets/js/signal.js: a signal and its listeners. Arrays are objects: the heap has
    them by address, and one that is being gone through is found there again at each step.
    Listeners are numbers; what one does when called may depend on all calls before. *)
From Verif Require Import Model.Base.
Local Open Scope nat_scope.

Definition heap := list (list N).
Record signal := mkSig { sg_heap : heap; sg_listeners : nat; sg_called : list N }.
Definition array (h : heap) (a : nat) : list N := nth a h [].
Definition listeners (s : signal) : list N := array (sg_heap s) (sg_listeners s).
(** A new array. *)
Definition alloc (h : heap) (l : list N) : heap * nat := (h ++ [l], length h).
(** A change to an array where it is. *)
Fixpoint update (h : heap) (a : nat) (l : list N) : heap :=
  match h, a with
  | [], _ => []
  | _ :: h, 0 => l :: h
  | x :: h, S a => x :: update h a l
  end.

(** signal.js:7-9 *)
Definition new_signal : signal := let '(h, a) := alloc [] [] in mkSig h a [].
(** signal.js:16-20 *)
Definition tap (l : N) (s : signal) : signal :=
  let '(h, a) := alloc (sg_heap s) (listeners s ++ [l]) in mkSig h a (sg_called s).
Fixpoint index_of (l : N) (xs : list N) : option nat :=
  match xs with
  | [] => None
  | x :: xs => if N.eqb x l then Some 0 else option_map S (index_of l xs)
  end.
(** signal.js:29-39 *)
Definition untap (l : N) (s : signal) : signal :=
  match index_of l (listeners s) with
  | None => s
  | Some ix =>
      let '(h, a) := alloc (sg_heap s) (listeners s) in
      let xs := array h a in
      mkSig (update h a (firstn ix xs ++ skipn (S ix) xs)) a (sg_called s)
  end.

(** What a listener does. *)
Inductive act := Tap (l : N) | Untap (l : N) | Raise (v : N) | Throw.
(** A call: how deep in raises within raises, who, with what. *)
Record call := mkCall { c_depth : nat; c_who : N; c_arg : N }.

(** signal.js:47-49, executions that end; [true]: an exception came out. forEach (ECMA-262)
    takes the length once and looks for each element when it comes to it. *)
Inductive raises (behave : list N -> N -> N -> list act) : nat -> N -> signal -> signal -> list call -> bool -> Prop :=
| raise_all : forall d v s s' t b,
    each behave d v (sg_listeners s) 0 (length (listeners s)) s s' t b -> raises behave d v s s' t b
with each (behave : list N -> N -> N -> list act) : nat -> N -> nat -> nat -> nat -> signal -> signal -> list call -> bool -> Prop :=
| each_end : forall d v a i len s, len <= i -> each behave d v a i len s s [] false
| each_gap : forall d v a i len s s' t b, i < len -> nth_error (array (sg_heap s) a) i = None ->
    each behave d v a (S i) len s s' t b -> each behave d v a i len s s' t b
| each_call : forall d v a i len l s s1 s2 t1 t2 b, i < len -> nth_error (array (sg_heap s) a) i = Some l ->
    acts behave d (behave (sg_called s) l v) (mkSig (sg_heap s) (sg_listeners s) (l :: sg_called s)) s1 t1 false ->
    each behave d v a (S i) len s1 s2 t2 b ->
    each behave d v a i len s s2 (mkCall d l v :: t1 ++ t2) b
| each_throw : forall d v a i len l s s1 t1, i < len -> nth_error (array (sg_heap s) a) i = Some l ->
    acts behave d (behave (sg_called s) l v) (mkSig (sg_heap s) (sg_listeners s) (l :: sg_called s)) s1 t1 true ->
    each behave d v a i len s s1 (mkCall d l v :: t1) true
with acts (behave : list N -> N -> N -> list act) : nat -> list act -> signal -> signal -> list call -> bool -> Prop :=
| acts_end : forall d s, acts behave d [] s s [] false
| acts_tap : forall d l rest s s' t b, acts behave d rest (tap l s) s' t b -> acts behave d (Tap l :: rest) s s' t b
| acts_untap : forall d l rest s s' t b, acts behave d rest (untap l s) s' t b -> acts behave d (Untap l :: rest) s s' t b
| acts_raise : forall d v rest s s1 s2 t1 t2 b, raises behave (S d) v s s1 t1 false -> acts behave d rest s1 s2 t2 b ->
    acts behave d (Raise v :: rest) s s2 (t1 ++ t2) b
| acts_raise_throw : forall d v rest s s1 t1, raises behave (S d) v s s1 t1 true -> acts behave d (Raise v :: rest) s s1 t1 true
| acts_throw : forall d rest s, acts behave d (Throw :: rest) s s [] true.

Scheme raises_mind := Minimality for raises Sort Prop
  with each_mind := Minimality for each Sort Prop
  with acts_mind := Minimality for acts Sort Prop.
Combined Scheme signal_mind from raises_mind, each_mind, acts_mind.
