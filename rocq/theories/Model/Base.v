(** Common representation choices of the model.

    - a Go [byte] is an [N] (values below 256, see [is_byte]);
    - a Go [string] / [[]byte] is a [list N];
    - a Go [uint32] is an [N]; every operation that can wrap uses [u32];
    - [option] is used for operations that may terminate the process
      ([log.Fatal], run-time panic): [None] is that outcome. *)
From Coq Require Export List NArith ZArith Lia Bool Arith.
Export ListNotations.

Notation byte := N (only parsing).
Notation bytes := (list N) (only parsing).
Notation str := (list N) (only parsing).

Definition is_byte (b : N) : Prop := (b < 256)%N.

(** uint32(x): truncation to 32 bits. *)
Definition u32 (x : N) : N := (x mod 2 ^ 32)%N.

(** Go's len() as an N. *)
Definition nlen {A} (l : list A) : N := N.of_nat (length l).

(** The process-terminating outcome as a monad. *)
Definition bind {A B} (x : option A) (f : A -> option B) : option B :=
  match x with Some a => f a | None => None end.
Declare Scope fatal_scope.
Delimit Scope fatal_scope with fatal.
Notation "x <- a ;; b" := (bind a (fun x => b))
  (at level 61, a at next level, right associativity) : fatal_scope.
Notation "' p <- a ;; b" := (bind a (fun x => match x with p => b end))
  (at level 61, p strict pattern, a at next level, right associativity) : fatal_scope.
Open Scope fatal_scope.

(** s[i] = v ; index out of range panics. *)
Fixpoint list_set {A} (l : list A) (i : nat) (v : A) : option (list A) :=
  match l, i with
  | [], _ => None
  | _ :: t, O => Some (v :: t)
  | x :: t, S i' => t' <- list_set t i' v ;; Some (x :: t')
  end.

(** s[off:off+n]; slice bounds out of range panics. *)
Definition sub_slice {A} (l : list A) (off n : nat) : option (list A) :=
  if Nat.leb (off + n) (length l) then Some (firstn n (skipn off l)) else None.

Fixpoint str_eqb (a b : str) : bool :=
  match a, b with
  | [], [] => true
  | x :: a', y :: b' => N.eqb x y && str_eqb a' b'
  | _, _ => false
  end.

(** Go's string comparison [a < b] (lexicographic on bytes). *)
Fixpoint str_ltb (a b : str) : bool :=
  match a, b with
  | _, [] => false
  | [], _ :: _ => true
  | x :: a', y :: b' =>
      if N.ltb x y then true else if N.ltb y x then false else str_ltb a' b'
  end.

Definition str_leb (a b : str) : bool := negb (str_ltb b a).
