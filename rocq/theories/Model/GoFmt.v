(** fmt.Sprintf: %d of an int and %t. *)
From Verif Require Import Model.Base.
Local Open Scope N_scope.

(** The decimal digits of [n], in front of [acc]. *)
Fixpoint fmt_digits (fuel : nat) (n : N) (acc : str) : str :=
  match fuel with
  | O => acc
  | S fuel =>
      let acc := 48 + n mod 10 :: acc in
      if n <? 10 then acc else fmt_digits fuel (n / 10) acc
  end.
Definition fmt_uint (n : N) : str := fmt_digits (S (N.to_nat (N.size n))) n [].
Definition fmt_d (z : Z) : str :=
  if (z <? 0)%Z then 45 :: fmt_uint (Z.to_N (- z)) else fmt_uint (Z.to_N z).
Definition fmt_t (b : bool) : str := if b then [116; 114; 117; 101] else [102; 97; 108; 115; 101].
