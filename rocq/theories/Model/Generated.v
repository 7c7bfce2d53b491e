(** searcher/searcher.go: the list of generated files in the manifests of a searcher's indexes, from
    newSearcher (406-447) through the rounds of its loop (updateAndReindex, 343-391). Locks, the
    limiter and waiting are left out, and so is the content of the indexes. *)
From Verif Require Import Model.Base Model.Vcs.

(** index.go:36-43 *)
Record manifest := mkMan { m_rev : str; m_auto : list str }.

Section Searcher.
Context (w : world) (d : driver) (dir url : str).

(** 406-447. [found]: the list in the manifest of the index that findExistingRefs found for a
    revision, if there is one (429-436, index.go:519-526). The result: opt.AutoGeneratedFiles and
    the manifest of the index. *)
Definition newSearcher (conf : list str) (found : str -> option (list str)) : act (option (list str * manifest)) :=
  r <~ PullOrClone w d dir url ;;
  match r with
  | None => ret None
  | Some rv =>
      auto <~ auto_files w d dir conf ;;
      ret (Some (auto, mkMan rv (match found rv with Some l => l | None => auto end)))
  end.

(** 343-391 with index.go:503-509. [ok]: the build and the swap succeed. *)
Definition updateAndReindex (auto : list str) (rv : str) (ok : bool) : act (option manifest) :=
  r <~ PullOrClone w d dir url ;;
  ret (match r with
       | None => None
       | Some rv' => if str_eqb rv' rv then None else if ok then Some (mkMan rv' auto) else None
       end).

(** 457-498: the manifests of the indexes that become live, one round after the other. *)
Fixpoint rounds (auto : list str) (rv : str) (oks : list bool) : act (list manifest) :=
  match oks with
  | [] => ret []
  | ok :: oks =>
      m <~ updateAndReindex auto rv ok ;;
      match m with
      | None => rounds auto rv oks
      | Some m => ms <~ rounds auto (m_rev m) oks ;; ret (m :: ms)
      end
  end.
Definition searcher (conf : list str) (found : str -> option (list str)) (oks : list bool) : act (option (manifest * list manifest)) :=
  s <~ newSearcher conf found ;;
  match s with
  | None => ret None
  | Some (auto, m) => ms <~ rounds auto (m_rev m) oks ;; ret (Some (m, ms))
  end.
End Searcher.
