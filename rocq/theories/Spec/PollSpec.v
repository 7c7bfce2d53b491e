(** How often a repository is fetched, and how often somebody asked for it. *)
From Verif Require Import Model.Base Model.Server.

Fixpoint attempts (i : nat) (tr : list event) : nat :=
  match tr with [] => 0 | Attempt j :: r => if Nat.eq_dec i j then S (attempts i r) else attempts i r | _ :: r => attempts i r end.
(** Update requests that were acknowledged, and signals to stop (each may wake the loop once). *)
Fixpoint asked (i : nat) (tr : list event) : nat :=
  match tr with
  | [] => 0
  | Ack j :: r | StopSent j :: r => if Nat.eq_dec i j then S (asked i r) else asked i r
  | _ :: r => asked i r
  end.
