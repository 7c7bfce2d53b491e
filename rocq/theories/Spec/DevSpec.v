(** What a file holds over time. Of the model only the events are used. *)
From Verif Require Import Model.Base Model.DevPages.
(** [on_disk v es w]: the file was [v] before the events [es] and is [w] after them. *)
Inductive on_disk {T} (v : option T) : list (event T) -> option T -> Prop :=
| disk_start : on_disk v [] v
| disk_edit : forall es w x, on_disk v es x -> on_disk v (es ++ [Edit w]) w
| disk_other : forall es e w, on_disk v es w -> (forall x, e <> Edit x) -> on_disk v (es ++ [e]) w.
(** A request reads the file, stores what came of it, and goes on to the page. *)
Definition begins {T} (v : option T) (a : list (event T)) (i : nat) (w : option T) : Prop := exists a1 a2, a = a1 ++ Parse i :: a2 /\ on_disk v a1 w.
