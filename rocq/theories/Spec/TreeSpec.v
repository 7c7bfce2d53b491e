(** Directory trees as the indexer should see them. Of the model only the types of trees,
    options and reasons are used. *)
From Verif Require Import Model.Base Model.Grep Model.Writer Model.IndexDir Spec.RunSpec Spec.IndexSpec.
Local Open Scope N_scope.

(** A name the indexer leaves out: special, or a dot name if so configured. *)
Definition special (opt : iopts) (name : str) : Prop := In name (io_special opt).
Definition dotted (opt : iopts) (name : str) : Prop := io_dot opt = true /\ exists r, name = 46 :: r.
Definition hidden (opt : iopts) (name : str) : Prop := special opt name \/ dotted opt name.

(** [found opt name nd cs m x]: below the node [nd] called [name], the path [cs] leads
    to the entry [x], called [m], without passing through a hidden or unreadable directory. *)
Inductive found (opt : iopts) : str -> node -> list str -> str -> node -> Prop :=
| found_here : forall name nd, found opt name nd [] name nd
| found_sub : forall name es n x cs m y, ~ hidden opt name -> In (n, x) es ->
    found opt n x cs m y -> found opt name (NDir false es) (n :: cs) m y.

(** Trees as file systems have them: names are non-empty, without slash, and differ
    within a directory. *)
Inductive good_tree : node -> Prop :=
| good_dir : forall u es, NoDup (map fst es) ->
    (forall n x, In (n, x) es -> n <> [] /\ ~ In 47 n /\ good_tree x) -> good_tree (NDir u es)
| good_file : forall p b, (forall evs, b = Some evs -> Forall is_byte (ev_content evs)) -> good_tree (NFile p b)
| good_irregular : good_tree NIrregular
| good_gone : good_tree NGone.

(** The name of a file in the index: its components separated by slashes. *)
Inductive joined : list str -> str -> Prop :=
| joined_one : forall c, joined [c] c
| joined_more : forall c cs s, joined cs s -> joined (c :: cs) (c ++ 47 :: s).

(** The entry at a path, whatever the indexer can see of it. *)
Inductive lies : node -> list str -> node -> Prop :=
| lies_here : forall nd, lies nd [] nd
| lies_sub : forall u es n x cs y, In (n, x) es -> lies x cs y -> lies (NDir u es) (n :: cs) y.
