(** Complete indexes, and what has happened to directories, seen from the events. *)
From Verif Require Import Model.Base Model.Startup.

(** The whole index of revision [r] of [u] under the options [o]. *)
Definition complete (W : world) (u r : str) (o : nat) (x : dir) : Prop :=
  raw x = Some (raw_of W u r o) /\ tri x = Some (tri_of W (raw_of W u r o)) /\
  excl x = Some (excl_of W u r o) /\ man x = Some (enc W u r o).

(** The removal of [d] has begun and not ended. *)
Definition hurt_by (d : nat) (b : bool) (e : event) : bool :=
  match e with
  | Removing d' => if Nat.eqb d' d then true else b
  | Removed d' => if Nat.eqb d' d then false else b
  | _ => b end.
Definition hurt (d : nat) (tr : list event) : bool := fold_left (hurt_by d) tr false.
(** A crash has interrupted the removal of [d]. *)
Definition interrupted (d : nat) (tr : list event) : Prop :=
  exists t1 t2, tr = t1 ++ Crash :: t2 /\ hurt d t1 = true.

Definition configured (u : str) (o : nat) (tr : list event) : Prop :=
  exists cfg f, In (Start cfg f) tr /\ In (u, o) cfg.
Definition distinct_urls (tr : list event) : Prop := forall cfg f, In (Start cfg f) tr -> NoDup (map fst cfg).

(** The directory searches of repository [i] use. *)
Definition live_dir (s : state) (i d : nat) : Prop :=
  match proc s with
  | Some p => match jobs p i with JLive e _ | JUpd e _ _ _ _ | JOld e _ _ => d = e | _ => False end
  | None => False end.
