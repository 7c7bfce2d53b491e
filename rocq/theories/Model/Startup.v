(** The index directories below the database path, over restarts and crashes of the server:
    searcher.go findExistingRefs (212-229), find, claim, removeUnclaimed (75-113), newSearcher
    (395-447), buildAndOpenIndex (233-250), updateAndReindex (343-391), MakeAll (285-327) and
    index.go Build (488-516), Read (470-486), Open (519-526), Destroy and Remove (108-125).

    Directories are named by numbers; nextIndexDir's 64 random bits (205-208) are taken never to
    repeat a name in use. The order of the directory listing is left open: [find] may take any
    directory that fits. One process runs at a time and may die at any moment (crash, log.Fatal,
    a failing removeUnclaimed, an exit); what it has written stays. Removing a directory goes
    file by file in any order. A failing munmap or removal after a swap is the subject of
    Model/Swap.v and left out here. Working copies hold what was pulled (Model/Shared.v). *)
From Verif Require Import Model.Base.

(** What a finished index of a revision under given options consists of. [dec]: gob decoding of
    a manifest (index.go 481), which is self-delimiting: what has been cut off does not decode.
    The time in the manifest (index.go 503-509) is left out: nothing here depends on it. *)
Record world := mkWorld {
  raw_of : str -> str -> nat -> list (str * bytes);
  excl_of : str -> str -> nat -> bytes;
  tri_of : list (str * bytes) -> bytes;
  enc : str -> str -> nat -> bytes;
  dec : bytes -> option (str * str);
  dec_enc : forall u r o, dec (enc u r o) = Some (u, r);
  dec_cut : forall u r o p b q, enc u r o = p ++ b :: q -> dec p = None }.

(** An index directory: raw/, tri, excluded_files.json, metadata.gob. *)
Record dir := mkDir { raw : option (list (str * bytes)); tri : option bytes; excl : option bytes; man : option bytes }.
Definition empty_dir : dir := mkDir None None None None.

(** Writes of Build; each gives the new content of one part. *)
Inductive op := SetRaw (l : list (str * bytes)) | SetTri (b : bytes) | SetExcl (b : bytes) | SetMan (b : bytes).
Definition apply (x : dir) (o : op) : dir :=
  match o with
  | SetRaw l => mkDir (Some l) (tri x) (excl x) (man x)
  | SetTri b => mkDir (raw x) (Some b) (excl x) (man x)
  | SetExcl b => mkDir (raw x) (tri x) (Some b) (man x)
  | SetMan b => mkDir (raw x) (tri x) (excl x) (Some b)
  end.
(** 495-513, 392-462: raw/ is made, tri and excluded_files.json are created, files are copied
    to raw/ piece by piece, then the excluded files, then tri are written, at last the manifest. *)
Definition builds (W : world) (u r : str) (o : nat) (ops : list op) : Prop :=
  exists rs es ts ms, Forall (fun p => exists q, enc W u r o = p ++ q) ms /\
    ops = SetRaw [] :: SetTri [] :: SetExcl [] :: map SetRaw rs ++ [SetRaw (raw_of W u r o)] ++
          map SetExcl es ++ [SetExcl (excl_of W u r o)] ++
          map SetTri ts ++ [SetTri (tri_of W (raw_of W u r o))] ++
          map SetMan ms ++ [SetMan (enc W u r o)].

(** Parts of a directory may be gone (os.RemoveAll under way). *)
Definition lost {A} (a b : option A) : Prop := a = b \/ a = None.
Definition less (x y : dir) : Prop :=
  (match raw x, raw y with Some l, Some l' => incl l l' | None, _ => True | Some _, None => False end) /\
  lost (tri x) (tri y) /\ lost (excl x) (excl y) /\ lost (man x) (man y).

(** index.go 470-486 *)
Definition read_man (W : world) (x : dir) : option (str * str) :=
  match man x with Some b => dec W b | None => None end.
(** searcher.go 218-222: on an error the reference has no Url and no Rev. *)
Definition read_ref (W : world) (x : dir) : str * str :=
  match read_man W x with Some p => p | None => ([], []) end.

Inductive job :=
  | JNew                                              (* newSearcher not done *)
  | JBuild (d : nat) (r : str) (ops : list op)        (* in index.Build *)
  | JFail
  | JLive (d : nat) (r : str)
  | JUpd (d : nat) (r : str) (d' : nat) (r' : str) (ops : list op)   (* building the next one *)
  | JOld (d : nat) (r : str) (old : nat).             (* swapped, removing the old one *)
Inductive phase := Starting | Cleaning (cur : option nat) | Serving.

Record process := mkProcess {
  config : list (str * nat);                 (* Url and options of each repository *)
  refs : nat -> option (str * str);          (* found at the start *)
  claimed : nat -> bool;
  at_phase : phase;
  jobs : nat -> job }.
Record state := mkState { disk : nat -> option dir; proc : option process }.

Inductive event :=
  | Start (cfg : list (str * nat)) (found : nat -> option dir)
  | Live (i d : nat)                 (* a newly built index becomes live *)
  | Reused (i d : nat)               (* an index found on disk becomes live *)
  | Pulled (i : nat) (u r : str)     (* at the start *)
  | Ready                            (* MakeAll returns *)
  | Removing (d : nat) | Removed (d : nat)
  | Failed (d : nat)                 (* building or opening the index in this directory failed *)
  | Crash.

Definition set {A} (f : nat -> A) (d : nat) (a : A) : nat -> A := fun e => if Nat.eqb e d then a else f e.
Definition set_job p i j := mkProcess (config p) (refs p) (claimed p) (at_phase p) (set (jobs p) i j).
Definition set_claimed p d i j := mkProcess (config p) (refs p) (set (claimed p) d true) (at_phase p) (set (jobs p) i j).
Definition set_phase p ph := mkProcess (config p) (refs p) (claimed p) ph (jobs p).

Definition mentions (j : job) (d : nat) : Prop :=
  match j with
  | JNew | JFail => False
  | JBuild e _ _ | JLive e _ => d = e
  | JUpd e _ e' _ _ => d = e \/ d = e'
  | JOld e _ e' => d = e \/ d = e'
  end.
Definition fresh (s : state) (p : process) (d : nat) : Prop :=
  disk s d = None /\ forall i, ~ mentions (jobs p i) d.

Inductive step (W : world) : state -> list event -> state -> Prop :=
  (* main, 285-294 *)
  | st_start s cfg : proc s = None ->
      step W s [Start cfg (disk s)]
        (mkState (disk s) (Some (mkProcess cfg (fun d => option_map (read_ref W) (disk s d)) (fun _ => false) Starting (fun _ => JNew))))
  (* 406-414: nothing has been created yet *)
  | st_nopull s p i : proc s = Some p -> i < length (config p) -> jobs p i = JNew ->
      step W s [] (mkState (disk s) (Some (set_job p i JFail)))
  (* 429-432, 241, 490 *)
  | st_new s p i u o r d ops : proc s = Some p -> nth_error (config p) i = Some (u, o) -> jobs p i = JNew ->
      (forall e, refs p e <> Some (u, r)) -> fresh s p d -> builds W u r o ops ->
      step W s [Pulled i u r] (mkState (set (disk s) d (Some empty_dir)) (Some (set_job p i (JBuild d r ops))))
  (* 433-436, 249, 519-526 *)
  | st_reuse s p i u o r d x : proc s = Some p -> nth_error (config p) i = Some (u, o) -> jobs p i = JNew ->
      refs p d = Some (u, r) -> disk s d = Some x -> read_man W x <> None -> tri x <> None ->
      step W s [Pulled i u r; Reused i d] (mkState (disk s) (Some (set_claimed p d i (JLive d r))))
  (* the manifest cannot be read *)
  | st_reuse_bad s p i u o r d x : proc s = Some p -> nth_error (config p) i = Some (u, o) -> jobs p i = JNew ->
      refs p d = Some (u, r) -> disk s d = Some x -> read_man W x = None ->
      step W s [Pulled i u r; Failed d] (mkState (disk s) (Some (set_claimed p d i JFail)))
  (* read.go Open ends the process when there is no tri *)
  | st_reuse_fatal s p i u o r d x : proc s = Some p -> nth_error (config p) i = Some (u, o) -> jobs p i = JNew ->
      refs p d = Some (u, r) -> disk s d = Some x -> read_man W x <> None -> tri x = None ->
      step W s [Pulled i u r; Crash] (mkState (disk s) None)
  (* 240-241: the directory has gone in the meantime *)
  | st_rebuild s p i u o r d ops : proc s = Some p -> nth_error (config p) i = Some (u, o) -> jobs p i = JNew ->
      refs p d = Some (u, r) -> disk s d = None -> builds W u r o ops ->
      step W s [Pulled i u r] (mkState (set (disk s) d (Some empty_dir)) (Some (set_claimed p d i (JBuild d r ops))))
  (* 488-516 *)
  | st_write s p i d r w ops x : proc s = Some p -> jobs p i = JBuild d r (w :: ops) -> disk s d = Some x ->
      step W s [] (mkState (set (disk s) d (Some (apply x w))) (Some (set_job p i (JBuild d r ops))))
  (* an error; what has been written stays *)
  | st_build_fail s p i d r ops : proc s = Some p -> jobs p i = JBuild d r ops ->
      step W s [Failed d] (mkState (disk s) (Some (set_job p i JFail)))
  (* 246 *)
  | st_built s p i d r : proc s = Some p -> jobs p i = JBuild d r [] ->
      step W s [Live i d] (mkState (disk s) (Some (set_job p i (JLive d r))))
  (* 306-317, once there is a result for every repository *)
  | st_clean s p : proc s = Some p -> at_phase p = Starting ->
      (forall i, i < length (config p) -> jobs p i = JFail \/ exists d r, jobs p i = JLive d r) ->
      step W s [] (mkState (disk s) (Some (set_phase p (Cleaning None))))
  (* 103-111 *)
  | st_clean_begin s p d : proc s = Some p -> at_phase p = Cleaning None ->
      refs p d <> None -> claimed p d = false -> disk s d <> None ->
      step W s [Removing d] (mkState (disk s) (Some (set_phase p (Cleaning (Some d)))))
  | st_clean_part s p d x x' : proc s = Some p -> at_phase p = Cleaning (Some d) -> disk s d = Some x -> less x' x ->
      step W s [] (mkState (set (disk s) d (Some x')) (Some p))
  | st_clean_end s p d : proc s = Some p -> at_phase p = Cleaning (Some d) ->
      step W s [Removed d] (mkState (set (disk s) d None) (Some (set_phase p (Cleaning None))))
  | st_ready s p : proc s = Some p -> at_phase p = Cleaning None ->
      (forall d, refs p d <> None -> claimed p d = false -> disk s d = None) ->
      step W s [Ready] (mkState (disk s) (Some (set_phase p Serving)))
  (* 358-372 *)
  | st_update s p i u o d r d' r' ops : proc s = Some p -> at_phase p = Serving -> nth_error (config p) i = Some (u, o) ->
      jobs p i = JLive d r -> r' <> r -> fresh s p d' -> builds W u r' o ops ->
      step W s [] (mkState (set (disk s) d' (Some empty_dir)) (Some (set_job p i (JUpd d r d' r' ops))))
  | st_update_write s p i d r d' r' w ops x : proc s = Some p -> jobs p i = JUpd d r d' r' (w :: ops) -> disk s d' = Some x ->
      step W s [] (mkState (set (disk s) d' (Some (apply x w))) (Some (set_job p i (JUpd d r d' r' ops))))
  | st_update_fail s p i d r d' r' ops : proc s = Some p -> jobs p i = JUpd d r d' r' ops ->
      step W s [Failed d'] (mkState (disk s) (Some (set_job p i (JLive d r))))
  (* 382, 117-126 *)
  | st_swap s p i d r d' r' : proc s = Some p -> jobs p i = JUpd d r d' r' [] ->
      step W s [Live i d'; Removing d] (mkState (disk s) (Some (set_job p i (JOld d' r' d))))
  | st_old_part s p i d r old x x' : proc s = Some p -> jobs p i = JOld d r old -> disk s old = Some x -> less x' x ->
      step W s [] (mkState (set (disk s) old (Some x')) (Some p))
  | st_old_end s p i d r old : proc s = Some p -> jobs p i = JOld d r old ->
      step W s [Removed old] (mkState (set (disk s) old None) (Some (set_job p i (JLive d r))))
  | st_crash s p : proc s = Some p -> step W s [Crash] (mkState (disk s) None).

(** A new database path. *)
Definition initial : state := mkState (fun _ => None) None.

Inductive runs (W : world) : list event -> state -> Prop :=
  | runs_nil : runs W [] initial
  | runs_step tr s es s' : runs W tr s -> step W s es s' -> runs W (tr ++ es) s'.
