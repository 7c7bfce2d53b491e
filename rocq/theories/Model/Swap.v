(** One Searcher while it serves: searches (searcher.go:131-135, index.go:146-257), the
    listing of excluded files (searcher.go:139-146) and the update loop's replacement of the
    index (searcher.go:343-391, 117-125; index.go:118-125). Any number of searches run
    concurrently with the single update loop; one step is one lock operation, one access to
    s.idx, or one access to the files and the memory mapping of an index.

    An Index object is known by its number in the order of opening; the first one is opened
    by newSearcher. Simplified: what a search computes is left to Model/Search.v (a search here
    is any number of accesses, [Touch]); lock fairness of sync.RWMutex is left out (more
    schedules); an access to an unmapped index is recorded and not fatal (in the code: a
    fault that ends the process); the partial directory of a failed build is not an Index. *)
From Verif Require Import Model.Base.

(** [mapped]: the "tri" file is mapped. [intact]: no file of the directory has been removed. *)
Record index := mkIndex { rev : str; mapped : bool; intact : bool }.
Definition usable (x : index) : bool := mapped x && intact x.

Inductive event :=
  | Call (t : nat)                              (* Searcher.Search is called *)
  | Touch (t i : nat) (good : bool)             (* the search reads index i *)
  | Answer (t i : nat) (r : str)                (* index.Search returns, with i's Revision *)
  | Listed (t i : nat) (good : bool)            (* GetExcludedFiles has read i's list *)
  | PullFailed | PullSame | BuildFailed
  | Publish (i : nat) (r : str)                 (* s.idx = idx *)
  | Updated (i : nat) | SwapFailed (i : nat)    (* the result of swapIndexes *)
  | Undone (i : nat) (ok : bool)                (* the result of idx.Destroy(), logged *)
  | Exit.                                       (* log.Fatal *)

Inductive sphase :=
  | SNew | SCalled
  | SLocked                                     (* s.lck read-locked *)
  | SHas (i : nat)                              (* s.idx read *)
  | SRuns (i : nat)                             (* the index's lock read-locked too *)
  | SLeft                                       (* the index's lock released *)
  | SDone.
Inductive xphase := XNew | XHas (i : nat) | XDone.

Inductive uphase :=
  | UIdle | UPulled (r : str)
  | UBuilt (n : nat) (r : str)                  (* buildAndOpenIndex has returned index n *)
  | ULocked (n : nat) (r : str)                 (* s.lck locked *)
  | USet (n : nat) (r : str) (old : nat)        (* s.idx written *)
  | UOld (n : nat) (r : str) (old : nat)        (* the old index's lock locked *)
  | UOldClosed (n : nat) (r : str) (old : nat)  (* unmapped, directory not yet removed *)
  | UOldLeft (n : nat) (r : str) (old : nat) (ok : bool)  (* Destroy has its result, lock held *)
  | UResult (n : nat) (r : str) (ok : bool)     (* the old index's lock released *)
  | UUndo (n : nat)                             (* swap failed, s.lck released *)
  | UNew (n : nat) | UNewClosed (n : nat) | UNewLeft (n : nat) (ok : bool).  (* the same for idx.Destroy() *)

Record searcher := mkSearcher {
  heap : list index; cur : nat; known : str (* the loop's rev *);
  search : nat -> sphase; excl : nat -> xphase; up : uphase; alive : bool }.

Definition upd {A} (f : nat -> A) k (a : A) := fun i => if Nat.eqb i k then a else f i.
Definition set_search s t p :=
  mkSearcher (heap s) (cur s) (known s) (upd (search s) t p) (excl s) (up s) (alive s).
Definition set_excl s t p :=
  mkSearcher (heap s) (cur s) (known s) (search s) (upd (excl s) t p) (up s) (alive s).
Definition set_up s u :=
  mkSearcher (heap s) (cur s) (known s) (search s) (excl s) u (alive s).
Definition set_heap s h u :=
  mkSearcher h (cur s) (known s) (search s) (excl s) u (alive s).

Fixpoint put {A} (l : list A) (i : nat) (a : A) : list A :=
  match l, i with
  | [], _ => []
  | _ :: r, O => a :: r
  | x :: r, S j => x :: put r j a
  end.

(** Who holds s.lck, and who holds the lock of index [i]. *)
Definition reads_s (p : sphase) : bool :=
  match p with SLocked | SHas _ | SRuns _ | SLeft => true | _ => false end.
Definition reads_i (i : nat) (p : sphase) : bool :=
  match p with SRuns j => Nat.eqb i j | _ => false end.
Definition writes_s (u : uphase) : bool :=
  match u with
  | ULocked _ _ | USet _ _ _ | UOld _ _ _ | UOldClosed _ _ _ | UOldLeft _ _ _ _ | UResult _ _ _ => true
  | _ => false end.
Definition writes_i (i : nat) (u : uphase) : bool :=
  match u with
  | UOld _ _ old | UOldClosed _ _ old | UOldLeft _ _ old _ => Nat.eqb i old
  | UNew n | UNewClosed n | UNewLeft n _ => Nat.eqb i n
  | _ => false end.

(** mmap_linux.go:31-38 (unmmapFile): Munmap of an already unmapped region is an error, and
    either call may fail. *)
Inductive closes (x : index) : bool -> index -> Prop :=
  | cl_ok : mapped x = true -> closes x true (mkIndex (rev x) false (intact x))
  | cl_munmap : closes x false x
  | cl_close : mapped x = true -> closes x false (mkIndex (rev x) false (intact x)).
(** os.RemoveAll: on failure any part may be gone. *)
Inductive removes (x : index) : bool -> index -> Prop :=
  | rm_ok : removes x true (mkIndex (rev x) (mapped x) false)
  | rm_none : removes x false x
  | rm_part : removes x false (mkIndex (rev x) (mapped x) false).

Inductive step : searcher -> option event -> searcher -> Prop :=
  (* searcher.go:131-135 *)
  | st_call s t : alive s = true -> search s t = SNew ->
      step s (Some (Call t)) (set_search s t SCalled)
  | st_rlock s t : alive s = true -> search s t = SCalled -> writes_s (up s) = false ->
      step s None (set_search s t SLocked)
  | st_read s t : alive s = true -> search s t = SLocked ->
      step s None (set_search s t (SHas (cur s)))
  (* index.go:149-150 *)
  | st_irlock s t i : alive s = true -> search s t = SHas i -> writes_i i (up s) = false ->
      step s None (set_search s t (SRuns i))
  (* index.go:187-250 *)
  | st_touch s t i x : alive s = true -> search s t = SRuns i -> nth_error (heap s) i = Some x ->
      step s (Some (Touch t i (usable x))) s
  | st_answer s t i x : alive s = true -> search s t = SRuns i -> nth_error (heap s) i = Some x ->
      step s (Some (Answer t i (rev x))) (set_search s t SLeft)
  | st_runlock s t : alive s = true -> search s t = SLeft ->
      step s None (set_search s t SDone)
  (* searcher.go:140-141, no lock *)
  | st_xread s t : alive s = true -> excl s t = XNew ->
      step s None (set_excl s t (XHas (cur s)))
  | st_xlist s t i x : alive s = true -> excl s t = XHas i -> nth_error (heap s) i = Some x ->
      step s (Some (Listed t i (intact x))) (set_excl s t XDone)
  (* searcher.go:358-367 *)
  | st_pullfail s : alive s = true -> up s = UIdle -> step s (Some PullFailed) s
  | st_pullsame s : alive s = true -> up s = UIdle -> step s (Some PullSame) s
  | st_pull s r : alive s = true -> up s = UIdle -> r <> known s -> step s None (set_up s (UPulled r))
  (* searcher.go:370-380; the index package ends the process on many errors *)
  | st_buildfail s r : alive s = true -> up s = UPulled r -> step s (Some BuildFailed) (set_up s UIdle)
  | st_fatal s r : alive s = true -> up s = UPulled r ->
      step s (Some Exit) (mkSearcher (heap s) (cur s) (known s) (search s) (excl s) (up s) false)
  | st_build s r : alive s = true -> up s = UPulled r ->
      step s None (set_heap s (heap s ++ [mkIndex r true true]) (UBuilt (length (heap s)) r))
  (* searcher.go:118 *)
  | st_lock s n r : alive s = true -> up s = UBuilt n r -> (forall t, reads_s (search s t) = false) ->
      step s None (set_up s (ULocked n r))
  (* searcher.go:121-122 *)
  | st_set s n r : alive s = true -> up s = ULocked n r ->
      step s (Some (Publish n r))
           (mkSearcher (heap s) n (known s) (search s) (excl s) (USet n r (cur s)) (alive s))
  (* searcher.go:124, index.go:118-125 *)
  | st_oldlock s n r old : alive s = true -> up s = USet n r old ->
      (forall t, reads_i old (search s t) = false) ->
      step s None (set_up s (UOld n r old))
  | st_oldclose s n r old x ok x' : alive s = true -> up s = UOld n r old ->
      nth_error (heap s) old = Some x -> closes x ok x' ->
      step s None (set_heap s (put (heap s) old x')
                     (if ok then UOldClosed n r old else UOldLeft n r old false))
  | st_oldremove s n r old x ok x' : alive s = true -> up s = UOldClosed n r old ->
      nth_error (heap s) old = Some x -> removes x ok x' ->
      step s None (set_heap s (put (heap s) old x') (UOldLeft n r old ok))
  | st_oldunlock s n r old ok : alive s = true -> up s = UOldLeft n r old ok ->
      step s None (set_up s (UResult n r ok))
  (* searcher.go:119 (deferred), 390 *)
  | st_swapped s n r : alive s = true -> up s = UResult n r true ->
      step s (Some (Updated n)) (mkSearcher (heap s) (cur s) r (search s) (excl s) UIdle (alive s))
  (* searcher.go:119 (deferred), 382-388 *)
  | st_swapfail s n r : alive s = true -> up s = UResult n r false ->
      step s (Some (SwapFailed n)) (set_up s (UUndo n))
  | st_newlock s n : alive s = true -> up s = UUndo n -> (forall t, reads_i n (search s t) = false) ->
      step s None (set_up s (UNew n))
  | st_newclose s n x ok x' : alive s = true -> up s = UNew n ->
      nth_error (heap s) n = Some x -> closes x ok x' ->
      step s None (set_heap s (put (heap s) n x') (if ok then UNewClosed n else UNewLeft n false))
  | st_newremove s n x ok x' : alive s = true -> up s = UNewClosed n ->
      nth_error (heap s) n = Some x -> removes x ok x' ->
      step s None (set_heap s (put (heap s) n x') (UNewLeft n ok))
  | st_newunlock s n ok : alive s = true -> up s = UNewLeft n ok ->
      step s (Some (Undone n ok)) (set_up s UIdle).

(** newSearcher has opened the first index, of revision [r0]. *)
Definition initial (r0 : str) : searcher :=
  mkSearcher [mkIndex r0 true true] 0 r0 (fun _ => SNew) (fun _ => XNew) UIdle true.

Inductive runs : searcher -> list event -> searcher -> Prop :=
  | runs_nil s : runs s [] s
  | runs_silent s tr s1 s2 : runs s tr s1 -> step s1 None s2 -> runs s tr s2
  | runs_event s tr s1 e s2 : runs s tr s1 -> step s1 (Some e) s2 -> runs s (tr ++ [e]) s2.

(** The repository can be searched: the process runs and the current index is in order. *)
Definition searchable (s : searcher) : Prop :=
  alive s = true /\ exists x, nth_error (heap s) (cur s) = Some x /\ usable x = true.
