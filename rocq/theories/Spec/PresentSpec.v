(** The text of the command line client's answer, without colours. *)
From Verif Require Import Model.Base Model.Grep Spec.ApiSpec Spec.ClientSpec.
From Coq Require Import Sorted.
Local Open Scope nat_scope.

(** A line of a file that is shown: its number, its text, and whether it is a match. *)
Definition row : Type := (Z * str * bool)%type.
Definition row_no (r : row) : Z := fst (fst r).

(** The rows that show matches of a file: every line that is a match or in the context of
    one, once, in order; marked exactly if it is a match. *)
Definition covers (file : list str) (ms : list hit) (rs : list row) : Prop :=
  StronglySorted (fun r r' => row_no r < row_no r')%Z rs /\
  (forall k, (exists t mk, In (k, t, mk) rs) <->
     exists m, In m ms /\ (Z.of_nat (first_line m) <= k <= Z.of_nat (last_line m))%Z) /\
  (forall k t mk, In (k, t, mk) rs ->
     (0 < k)%Z /\ nth_error file (Z.to_nat k - 1) = Some t /\
     (mk = true <-> exists m, In m ms /\ Z.of_nat (h_no m) = k)).

(** The number without leading zeros, a colon for a match or a dash, spaces up to the
    seventh column, the text. *)
Definition row_text (r : row) (s : str) : Prop :=
  let '(k, t, mk) := r in
  exists d, decimal d (Z.to_N k) /\ (forall r, d = 48%N :: r -> r = []) /\
    s = d ++ [if mk then 58%N else 45%N] ++ repeat 32%N (6 - length d) ++ t ++ [10%N].

(** Rows with consecutive numbers, at least one; if context was asked for, a line "--". *)
Definition group_text (ctx : Z) (g : list row) (s : str) : Prop :=
  g <> [] /\
  (forall i r, nth_error g i = Some r -> row_no r = (row_no (hd r g) + Z.of_nat i)%Z) /\
  exists ts, Forall2 row_text g ts /\ s = concat ts ++ (if (0 <? ctx)%Z then [45; 45; 10]%N else []).

Definition file_text (ctx : Z) (file : list str) (f : str * list hit) (s : str) : Prop :=
  exists gs ts, covers file (snd f) (concat gs) /\ Forall2 (group_text ctx) gs ts /\
    s = fst f ++ [10%N] ++ concat ts ++ [10%N].

(** [src repo name]: the lines of the file; [names]: display names. *)
Definition repo_text (ctx : Z) (src : str -> str -> list str) (names : str -> str)
  (r : str * list (str * list hit)) (s : str) : Prop :=
  exists ts, Forall2 (fun f => file_text ctx (src (fst r) (fst f)) f) (snd r) ts /\
    s = names (fst r) ++ [10%N] ++ concat ts.

Definition answer_text ctx src names (results : list (str * list (str * list hit))) (s : str) : Prop :=
  exists ts, Forall2 (repo_text ctx src names) results ts /\ s = concat ts.
