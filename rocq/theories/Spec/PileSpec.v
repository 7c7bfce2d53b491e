(** Which index directories a serving process has a use for. *)
From Verif Require Import Model.Base Model.Startup.

(** What has happened since the last start. *)
Definition since_start (tr t : list event) : Prop :=
  exists t1 cfg f, tr = t1 ++ Start cfg f :: t /\ forall c g, ~ In (Start c g) t.
Fixpoint failures (t : list event) : list nat :=
  match t with [] => [] | Failed d :: t' => d :: failures t' | _ :: t' => failures t' end.

(** The directory a repository is searched in, the one being built for it, the one being removed. *)
Inductive uses : job -> nat -> Prop :=
  | u_live d r : uses (JLive d r) d
  | u_upd d r d' r' ops : uses (JUpd d r d' r' ops) d
  | u_next d r d' r' ops : uses (JUpd d r d' r' ops) d'
  | u_swapped d r old : uses (JOld d r old) d
  | u_old d r old : uses (JOld d r old) old.
Definition under_way (j : job) : bool := match j with JUpd _ _ _ _ _ | JOld _ _ _ => true | _ => false end.
(** How many repositories are being updated. *)
Definition busy (p : process) : nat := length (filter (fun i => under_way (jobs p i)) (seq 0 (length (config p)))).
