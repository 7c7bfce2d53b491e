(** The life of an IndexWriter as index/index.go drives it: Create (write.go:63), then
    AddPaths (105) and Add (123) for every file in turn, then Flush (223); cf.
    indexAllFiles, index/index.go:369-464. *)
From Verif Require Import Model.Base Model.Sparse Model.Writer.
Local Open Scope N_scope.

(** A sequence of Adds. [run_adds] returns the results and the final state. *)
Fixpoint run_adds (cap : nat) (w : iw) (files : list (str * list read_ev))
  : option (list (option skip_reason) * iw) :=
  match files with
  | [] => Some ([], w)
  | (name, evs) :: rest =>
      r <- iw_add cap w name evs ;;
      r2 <- run_adds cap (snd r) rest ;;
      Some (fst r :: fst r2, snd r2)
  end.

(** ** Building a whole index: create, AddPaths, Adds, Flush. *)
Definition build_index (cap : nat) (mem : N -> N) (paths : list str) (files : list (str * list read_ev))
  : option (list (option skip_reason) * bytes) :=
  r <- run_adds cap (add_paths (iw_create mem) paths) files ;;
  b <- iw_flush (snd r) ;;
  Some (fst r, b).

