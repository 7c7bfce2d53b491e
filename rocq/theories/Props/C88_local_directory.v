(** C88: a local directory is the one that is indexed, at the first start and at every later
    one. [called] and [source] are in Spec/SourceSpec.v; [local_start] and [index_source] are
    what the start of a searcher does with the working copy (Model/Source.v). *)
From Verif Require Import Model.Base Model.GoStr Model.Writer Model.IndexRun Model.Grep Model.Vcs Model.LocalVcs Model.Drivers Model.IndexDir Model.Source
  Spec.Names Spec.SourceSpec Proofs.SourceProofs.
Local Open Scope N_scope.

(** For the absolute path [p] of a directory: the first start leaves a link to it and nothing else,
    every later start, from whatever working directory, leaves that as it is and finds the same
    revision, and what is indexed is the directory at [p]. *)
Theorem C88_local_partial : forall sha1 files at_path cwd l d p n u es rev fs,
  called p n -> at_path p = Some (Node (NDir u es)) -> at_path (47 :: d) = None ->
  local_start sha1 files at_path cwd l (47 :: d) (text "file://" ++ p) = Some (rev, fs) ->
  (forall q, q <> 47 :: d -> fs q = at_path q) /\
  (forall cwd', local_start sha1 files fs cwd' l (47 :: d) (text "file://" ++ p) = Some (rev, fs)) /\
  (forall cwd' cap opt mk cr js mem, index_source fs cwd' cap opt mk cr js mem (47 :: d) =
     index_all_files cap opt mk cr js mem n (NDir u es)).
Proof.
  intros sha1 files at_path cwd l d p n u es rev fs C A NO H.
  destruct (local_tree _ _ _ _ _ _ _ _ _ _ _ _ C A NO H) as (SR & F & R).
  split; [exact F|]. split; [exact R|]. intros. apply source_index. exact SR.
Qed.
Print Assumptions C88_local_partial.

Definition a_file := NFile (Some (RChunk [97;98;99] true REof)) (Some [([97;98;99], ErrNil)]).
Definition one_file := NDir false [(text "a", a_file)].
Definition places (l : list (str * object)) (p : str) : option object :=
  match find (fun e => str_eqb (fst e) p) l with Some e => Some (snd e) | None => None end.
Definition plain := mkLocal false [].

(** The path is that of a link to a directory: os.Stat, as any other program, sees a directory with a
    file; the repository is started without an error and holds nothing. *)
Theorem C88_link_refuted : exists at_path p rev fs b,
  Stat at_path (text "/") p = Some one_file /\
  local_start (fun b => b) (fun _ => None) at_path (text "/") plain (text "/db/vcs-1") (text "file://" ++ p) = Some (rev, fs) /\
  index_source fs (text "/") 5 (build_options (Local plain) false) (fun _ => true) (fun _ => true) true (fun _ => 0) (text "/db/vcs-1") =
    Some (Some (b, [], [(text ".", InvalidMode)])) /\
  build_index 5 (fun _ => 0) [] [] = Some ([], b).
Proof.
  exists (places [(text "/home/link", Link (text "src")); (text "/home/src", Node one_file)]), (text "/home/link").
  do 3 eexists. split; [reflexivity|]. split; [reflexivity|]. split; vm_compute; reflexivity.
Qed.
Print Assumptions C88_link_refuted.

(** The path does not exist: the repository is started without an error and holds nothing; and
    when the directory is there later, the revision is still the one that was indexed, so that
    the empty index is kept. *)
Theorem C88_missing_refuted : exists at_path p rev fs b,
  Stat at_path (text "/") p = None /\
  local_start (fun b => b) (fun _ => None) at_path (text "/") plain (text "/db/vcs-1") (text "file://" ++ p) = Some (rev, fs) /\
  index_source fs (text "/") 5 (build_options (Local plain) false) (fun _ => true) (fun _ => true) true (fun _ => 0) (text "/db/vcs-1") =
    Some (Some (b, [], [(text ".", InvalidMode)])) /\
  build_index 5 (fun _ => 0) [] [] = Some ([], b) /\
  exists later, (forall q, q <> p -> later q = fs q) /\ Stat later (text "/") p = Some one_file /\
    local_start (fun b => b) (fun _ => None) later (text "/") plain (text "/db/vcs-1") (text "file://" ++ p) = Some (rev, later).
Proof.
  exists (places []), (text "/home/src"). eexists.
  exists (fun q => if str_eqb q (text "/db/vcs-1") then Some (Link (text "/home/src")) else None). eexists.
  split; [reflexivity|]. split; [reflexivity|]. split; [vm_compute; reflexivity|]. split; [vm_compute; reflexivity|].
  exists (fun q => if str_eqb q (text "/home/src") then Some (Node one_file) else
            if str_eqb q (text "/db/vcs-1") then Some (Link (text "/home/src")) else None).
  split. { intros q NE. destruct (str_eqb q (text "/home/src")) eqn:E; [apply StrLemmas.str_eqb_eq in E; contradiction|reflexivity]. }
  split; reflexivity.
Qed.
Print Assumptions C88_missing_refuted.

(** A relative path, of a directory as seen from the working directory of the process: nothing is
    indexed, and the second start fails because the link is there already. *)
Theorem C88_relative_refuted : exists at_path p rev fs b,
  Stat at_path (text "/home") p = Some one_file /\
  local_start (fun b => b) (fun _ => None) at_path (text "/home") plain (text "/db/vcs-1") (text "file://" ++ p) = Some (rev, fs) /\
  index_source fs (text "/home") 5 (build_options (Local plain) false) (fun _ => true) (fun _ => true) true (fun _ => 0) (text "/db/vcs-1") =
    Some (Some (b, [], [(text ".", InvalidMode)])) /\
  build_index 5 (fun _ => 0) [] [] = Some ([], b) /\
  local_start (fun b => b) (fun _ => None) fs (text "/home") plain (text "/db/vcs-1") (text "file://" ++ p) = None.
Proof.
  exists (places [(text "/home/src", Node one_file)]), (text "src"). do 3 eexists.
  split; [reflexivity|]. split; [reflexivity|]. split; [vm_compute; reflexivity|]. split; [vm_compute; reflexivity|reflexivity].
Qed.
Print Assumptions C88_relative_refuted.

(** A relative path, of a directory as seen from the place of the link: the process ends. *)
Theorem C88_relative_panic_refuted : exists at_path p rev fs,
  Stat at_path (text "/db") p = Some one_file /\
  local_start (fun b => b) (fun _ => None) at_path (text "/home") plain (text "/db/vcs-1") (text "file://" ++ p) = Some (rev, fs) /\
  index_source fs (text "/home") 5 (build_options (Local plain) false) (fun _ => true) (fun _ => true) true (fun _ => 0) (text "/db/vcs-1") = None.
Proof.
  exists (places [(text "/db/src", Node one_file)]), (text "src"). do 2 eexists.
  split; [reflexivity|]. split; [reflexivity|]. vm_compute. reflexivity.
Qed.
Print Assumptions C88_relative_panic_refuted.

(** A directory with a file: the hypotheses hold and the file is indexed. *)
Example C88_example :
  let at_path := places [(text "/home/src", Node one_file)] in
  called (text "/home/src") (text "src") /\ at_path (text "/home/src") = Some (Node one_file) /\ at_path (text "/db/vcs-1") = None /\
  exists rev fs b, local_start (fun b => b) (fun _ => None) at_path (text "/") plain (text "/db/vcs-1") (text "file://" ++ text "/home/src") = Some (rev, fs) /\
    index_source fs (text "/") 5 (build_options (Local plain) false) (fun _ => true) (fun _ => true) true (fun _ => 0) (text "/db/vcs-1") =
      Some (Some (b, [(text "a", [97;98;99])], [])).
Proof.
  cbv zeta. split.
  { exists (text "home/"), []. split; [reflexivity|]. split; [right; exists (text "home"); reflexivity|].
    split; [discriminate|]. split; [intros X; vm_compute in X; repeat (destruct X as [X|X]; [discriminate|]); exact X|constructor]. }
  split; [reflexivity|]. split; [reflexivity|]. do 3 eexists. split; [reflexivity|]. vm_compute. reflexivity.
Qed.
