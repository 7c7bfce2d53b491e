(** Working copies: vcsDirFor (searcher.go:272-274) names the directory of a repository after
    the hash of its Url (taken to be injective), so repositories with one Url share one working
    copy. Any number of repositories pull (searcher.go:358, 411) and build (370, 438;
    index.go:369-465) concurrently; the limiter is left out (more schedules). A pull first
    brings the files to some revision and then asks for it (git.go:91-114: reset, rev-parse);
    a build reads the files one by one. Not for the local driver, whose files are the user's. *)
From Verif Require Import Model.Base.

Inductive event := Built (k : nat) (r : str) (seen : list str).
(** [seen]: for each file read so far, the revision it was read at. *)
Inductive phase :=
  | Idle | Reset | Pulled (r : str) | Building (r : str) (seen : list str).
Record system := mkSystem { tree : str -> str; phases : nat -> phase }.
Definition set_phase (f : nat -> phase) k p := fun i => if Nat.eqb i k then p else f i.
Definition set_tree (f : str -> str) u r := fun v => if str_eqb v u then r else f v.

Section Urls.
Context (url : nat -> str).

Inductive step : system -> option event -> system -> Prop :=
  | st_reset s k r : phases s k = Idle ->
      step s None (mkSystem (set_tree (tree s) (url k) r) (set_phase (phases s) k Reset))
  | st_rev s k : phases s k = Reset ->
      step s None (mkSystem (tree s) (set_phase (phases s) k (Pulled (tree s (url k)))))
  | st_skip s k r : phases s k = Pulled r ->
      step s None (mkSystem (tree s) (set_phase (phases s) k Idle))
  | st_start s k r : phases s k = Pulled r ->
      step s None (mkSystem (tree s) (set_phase (phases s) k (Building r [])))
  | st_file s k r seen : phases s k = Building r seen ->
      step s None (mkSystem (tree s) (set_phase (phases s) k (Building r (seen ++ [tree s (url k)]))))
  | st_built s k r seen : phases s k = Building r seen ->
      step s (Some (Built k r seen)) (mkSystem (tree s) (set_phase (phases s) k Idle)).

Inductive runs : list event -> system -> Prop :=
  | runs_init t : runs [] (mkSystem t (fun _ => Idle))
  | runs_silent tr s1 s2 : runs tr s1 -> step s1 None s2 -> runs tr s2
  | runs_event tr s1 e s2 : runs tr s1 -> step s1 (Some e) s2 -> runs (tr ++ [e]) s2.
End Urls.
