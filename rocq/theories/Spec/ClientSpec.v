(** What the command-line client should show, independent of coalesce.go and ack.go. *)
From Verif Require Import Model.Base Model.Grep Model.Client.
From Coq Require Import Sorted.
Local Open Scope nat_scope.

(** A match taken from a file: line [h_no] (from 1) with the lines around it. *)
Definition first_line (m : hit) := h_no m - length (h_before m).
Definition last_line (m : hit) := h_no m + length (h_after m).
Definition from_file (file : list str) (m : hit) : Prop :=
  length (h_before m) < h_no m /\ nth_error file (h_no m - 1) = Some (h_line m) /\
  (forall i l, nth_error (h_before m) i = Some l -> nth_error file (first_line m - 1 + i) = Some l) /\
  (forall i l, nth_error (h_after m) i = Some l -> nth_error file (h_no m + i) = Some l).

(** Matches of one file as the server sends them: by line, and none reaches further back
    than an earlier one. *)
Definition in_order (ms : list hit) : Prop :=
  StronglySorted (fun m m' => h_no m < h_no m' /\ first_line m <= first_line m') ms.

(** The rows a block prints: number, text, mark (ack.go:86-99). *)
Fixpoint rows_from (n : Z) (lines : list str) (marks : list bool) : list (Z * str * bool) :=
  match lines, marks with
  | l :: lines', b :: marks' => (n, l, b) :: rows_from (n + 1) lines' marks'
  | _, _ => []
  end.
Definition rows (b : block) := rows_from (b_start b) (b_lines b) (b_matches b).

Definition shows (file : list str) (ms : list hit) (bs : list block) : Prop :=
  Forall (fun b => b_lines b <> [] /\ length (b_matches b) = length (b_lines b)) bs /\
  StronglySorted (fun r r' => fst (fst r) < fst (fst r'))%Z (flat_map rows bs) /\
  (forall k, (exists t mk, In (k, t, mk) (flat_map rows bs)) <->
     exists m, In m ms /\ (Z.of_nat (first_line m) <= k <= Z.of_nat (last_line m))%Z) /\
  (forall k t mk, In (k, t, mk) (flat_map rows bs) ->
     (0 < k)%Z /\ nth_error file (Z.to_nat k - 1) = Some t /\
     (mk = true <-> exists m, In m ms /\ Z.of_nat (h_no m) = k)).

(** A colour sequence: ESC [ digits and semicolons m. [coloured s out]: [out] is [s] with
    colour sequences inserted. *)
Definition colour_seq (q : str) : Prop :=
  exists body, q = [27; 91]%N ++ body ++ [109]%N /\ Forall (fun c => (48 <= c <= 57)%N \/ c = 59%N) body.
Inductive coloured : str -> str -> Prop :=
  | col_nil : coloured [] []
  | col_char c s out : coloured s out -> coloured (c :: s) (c :: out)
  | col_seq q s out : colour_seq q -> coloured s out -> coloured s (q ++ out).

(** Removing the escape sequences: ESC [ ... m *)
Fixpoint strip (skip : bool) (s : str) : str :=
  match s with
  | [] => []
  | c :: s' =>
      if skip then strip (negb (N.eqb c 109)) s'
      else if N.eqb c 27 then strip true s'
      else c :: strip false s'
  end.

(** Match positions of FindAllStringIndex: in order, disjoint, within the line. *)
Fixpoint positions (from : nat) (len : nat) (idxs : list (nat * nat)) : Prop :=
  match idxs with
  | [] => from <= len
  | (i, j) :: rest => from <= i /\ i <= j /\ j <= len /\ positions j len rest
  end.
