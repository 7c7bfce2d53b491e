(** What a query in memory means, read off the memory itself, and what a sequence of
    combinations should mean. *)
From Verif Require Import Model.Base Model.Query Model.QueryHeap.

(** [hsat h T p]: a text whose set of trigrams is [T] satisfies the query at [p]. *)
Inductive hsat (h : heap) (T : str -> Prop) : nat -> Prop :=
| hsat_all : forall p, n_op (node h p) = QAll -> hsat h T p
| hsat_and : forall p, n_op (node h p) = QAnd ->
    (forall t, In t (elems_s h (n_tri (node h p))) -> T t) ->
    (forall s, In s (elems_p h (n_sub (node h p))) -> hsat h T s) -> hsat h T p
| hsat_or_tri : forall p t, n_op (node h p) = QOr ->
    In t (elems_s h (n_tri (node h p))) -> T t -> hsat h T p
| hsat_or_sub : forall p s, n_op (node h p) = QOr ->
    In s (elems_p h (n_sub (node h p))) -> hsat h T s -> hsat h T p.

(** An object is the same in two memories. *)
Definition same (h h' : heap) (x : nat) : Prop :=
  node h' x = node h x /\ sarr h' x = sarr h x /\ parr h' x = parr h x.

(** A client of the package's query operations: it has a number of queries in hand,
    and may take the constants, combine two of the queries it holds (which uses both
    up) or add the trigrams of a set of strings to one. *)
Inductive qstep :=
| SAll | SNone
| SAnd (i j : nat) | SOr (i j : nat)
| STrigrams (i : nat) (l : list str).

Definition tset := str -> Prop.
Definition meaning := tset -> Prop.

Fixpoint take {A} (i : nat) (l : list A) : option (A * list A) :=
  match i, l with
  | _, [] => None
  | O, x :: r => Some (x, r)
  | S i', x :: r => match take i' r with Some (y, r') => Some (y, x :: r') | None => None end
  end.

(** Some string of the set is shorter than a trigram (or there is none), or all the
    trigrams of some string of the set are there. *)
Definition tri_of (x w : str) : Prop := exists u v, w = u ++ x ++ v /\ length x = 3%nat.
Definition some_string (l : list str) (T : tset) : Prop :=
  l = [] \/ (exists w, In w l /\ length w < 3)%nat \/
  exists w, In w l /\ forall x, tri_of x w -> T x.

Definition step_meaning (s : qstep) (l : list meaning) : option (list meaning) :=
  match s with
  | SAll => Some ((fun _ => True) :: l)
  | SNone => Some ((fun _ => False) :: l)
  | SAnd i j =>
      match take i l with
      | Some (a, r) => match take j r with
                       | Some (b, r') => Some ((fun T => a T /\ b T) :: r')
                       | None => None
                       end
      | None => None
      end
  | SOr i j =>
      match take i l with
      | Some (a, r) => match take j r with
                       | Some (b, r') => Some ((fun T => a T \/ b T) :: r')
                       | None => None
                       end
      | None => None
      end
  | STrigrams i w =>
      match take i l with
      | Some (a, r) => Some ((fun T => a T /\ some_string w T) :: r)
      | None => None
      end
  end.
Fixpoint steps_meaning (s : list qstep) (l : list meaning) : option (list meaning) :=
  match s with
  | [] => Some l
  | x :: r => match step_meaning x l with Some l' => steps_meaning r l' | None => None end
  end.

(** The same client running on the memory. *)
Section Run.
Variable grow : nat -> nat -> nat.
Definition step_run (fuel : nat) (s : qstep) (hl : heap * list nat) : option (heap * list nat) :=
  let '(h, l) := hl in
  match s with
  | SAll => Some (h, p_all :: l)
  | SNone => Some (h, p_none :: l)
  | SAnd i j =>
      '(a, r) <- take i l ;; '(b, r) <- take j r ;;
      '(h, p) <- and_or_h grow fuel h a b QAnd ;; Some (h, p :: r)
  | SOr i j =>
      '(a, r) <- take i l ;; '(b, r) <- take j r ;;
      '(h, p) <- and_or_h grow fuel h a b QOr ;; Some (h, p :: r)
  | STrigrams i w =>
      '(a, r) <- take i l ;;
      '(h, p) <- and_trigrams_h grow fuel h a w ;; Some (h, p :: r)
  end.
Fixpoint steps_run (fuel : nat) (s : list qstep) (hl : heap * list nat) : option (heap * list nat) :=
  match s with
  | [] => Some hl
  | x :: r => hl' <- step_run fuel x hl ;; steps_run fuel r hl'
  end.
End Run.
