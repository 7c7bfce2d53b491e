(** C87: the data of the version control system is never searchable, and nothing else is lost.
    [left_out], [unseen], [leads] and [source] are in Spec/SourceSpec.v; the driver is the one the
    configuration asks for. *)
From Verif Require Import Model.Base Model.GoStr Model.Writer Model.IndexRun Model.Reader Model.Grep Model.Vcs Model.LocalVcs Model.Drivers Model.IndexDir Model.Source
  Spec.Names Spec.RunSpec Spec.IndexSpec Spec.TreeSpec Spec.SourceSpec
  Proofs.FillProofs Proofs.IndexProofs Proofs.EndToEnd Proofs.SourceProofs.
Local Open Scope N_scope.

(** No part of the name of a file that is indexed, or listed as excluded, is a name that is left out. *)
Theorem C87_special : forall kind conf wd at_path cwd cap exdot mk cr js mem dir n u es b raw excl,
  New kind conf = Some wd -> (1 <= cap)%nat -> source at_path dir n (NDir u es) -> good_tree (NDir u es) ->
  index_source at_path cwd cap (build_options wd exdot) mk cr js mem dir = Some (Some (b, raw, excl)) ->
  exists files vs docs, build_index cap mem [] files = Some (vs, b) /\ kept files vs docs /\
    forall cs name, joined cs name -> Forall (fun c => c <> [] /\ ~ In 47 c) cs ->
      In name (map fst docs) \/ In name (map fst excl) -> forall c, In c cs -> ~ left_out wd c.
Proof.
  intros kind conf wd at_path cwd cap exdot mk cr js mem dir n u es b raw excl _ C SR G H.
  destruct (index_special _ _ _ _ _ _ _ _ _ _ _ _ _ _ _ _ C SR G H) as (files & vs & docs & B & K & A & _).
  exists files, vs, docs. auto.
Qed.
Print Assumptions C87_special.

(** In the working copy of git, hg, svn or bzr every other file is indexed or listed, unless it
    cannot be read to its end or lies in a directory that cannot be listed (C24). *)
Theorem C87_copy_partial : forall kind conf d at_path cwd cap exdot mk cr js mem p h u es b raw excl,
  New kind conf = Some (Command d) -> (1 <= cap)%nat ->
  source at_path (47 :: p) (text "vcs-" ++ h) (NDir u es) -> good_tree (NDir u es) ->
  index_source at_path cwd cap (build_options (Command d) exdot) mk cr js mem (47 :: p) = Some (Some (b, raw, excl)) ->
  exists files vs docs, build_index cap mem [] files = Some (vs, b) /\ kept files vs docs /\
    forall cs name q body, leads (NDir u es) cs (NFile q body) -> joined cs name ->
      (forall c, In c cs -> ~ unseen (Command d) exdot c) ->
      In name (map fst docs) \/ In name (map fst excl) \/ exists evs, body = Some evs /\ ~ ev_ok evs.
Proof.
  intros kind conf d at_path cwd cap exdot mk cr js mem p h u es b raw excl _ C SR G H.
  destruct (index_special _ _ _ _ _ _ _ _ _ _ _ _ _ _ _ _ C SR G H) as (files & vs & docs & B & K & _ & A).
  exists files, vs, docs. split; [exact B|]. split; [exact K|]. apply A. apply copy_seen.
Qed.
Print Assumptions C87_copy_partial.

(** In a local directory as well, if its own name is not one that is left out. *)
Theorem C87_local_partial : forall kind conf l at_path cwd cap exdot mk cr js mem dir n u es b raw excl,
  New kind conf = Some (Local l) -> (1 <= cap)%nat ->
  source at_path dir n (NDir u es) -> ~ unseen (Local l) exdot n -> good_tree (NDir u es) ->
  index_source at_path cwd cap (build_options (Local l) exdot) mk cr js mem dir = Some (Some (b, raw, excl)) ->
  exists files vs docs, build_index cap mem [] files = Some (vs, b) /\ kept files vs docs /\
    forall cs name q body, leads (NDir u es) cs (NFile q body) -> joined cs name ->
      (forall c, In c cs -> ~ unseen (Local l) exdot c) ->
      In name (map fst docs) \/ In name (map fst excl) \/ exists evs, body = Some evs /\ ~ ev_ok evs.
Proof.
  intros kind conf l at_path cwd cap exdot mk cr js mem dir n u es b raw excl _ C SR NU G H.
  destruct (index_special _ _ _ _ _ _ _ _ _ _ _ _ _ _ _ _ C SR G H) as (files & vs & docs & B & K & _ & A).
  exists files, vs, docs. split; [exact B|]. split; [exact K|]. exact (A NU).
Qed.
Print Assumptions C87_local_partial.

Definition a_file := NFile (Some (RChunk [97;98;99] true REof)) (Some [([97;98;99], ErrNil)]).
Definition one_file := NDir false [(text "a", a_file)].
Definition one_place (link : str) (p : str) : option object :=
  if str_eqb p (text "/db/vcs-1") then Some (Link link) else if str_eqb p link then Some (Node one_file) else None.

Lemma one_file_good : good_tree one_file.
Proof.
  constructor; [repeat constructor; intros []|]. intros n x [E|[]]. injection E as <- <-.
  split; [discriminate|]. split; [intros [X|[]]; discriminate|]. constructor. intros evs E. injection E as <-. repeat constructor.
Qed.

(** A local directory whose own name begins with a dot, with dot files excluded: nothing in it is
    indexed or listed, although no name below it begins with a dot. *)
Theorem C87_local_refuted : exists kind conf l at_path cwd dir n b,
  New kind conf = Some (Local l) /\ source at_path dir n one_file /\ good_tree one_file /\
  index_source at_path cwd 5 (build_options (Local l) true) (fun _ => true) (fun _ => true) true (fun _ => 0) dir = Some (Some (b, [], [])) /\
  build_index 5 (fun _ => 0) [] [] = Some ([], b) /\
  exists cs name q evs, leads one_file cs (NFile q (Some evs)) /\ joined cs name /\
    (forall c, In c cs -> ~ unseen (Local l) true c) /\ ev_ok evs.
Proof.
  exists (text "local"), None, (mkLocal false []), (one_place (text "/home/.notes")), (text "/"), (text "/db/vcs-1"), (text ".notes").
  eexists. split; [reflexivity|]. split.
  { apply src_link with (text "/home/.notes").
    - eexists. reflexivity.
    - reflexivity.
    - exists (text "home/"), []. split; [reflexivity|]. split; [right; exists (text "home"); reflexivity|].
      split; [discriminate|]. split; [intros X; vm_compute in X; repeat (destruct X as [X|X]; [discriminate|]); exact X|constructor].
    - reflexivity. }
  split; [exact one_file_good|]. split; [vm_compute; reflexivity|]. split; [vm_compute; reflexivity|].
  exists [text "a"], (text "a"), (Some (RChunk [97;98;99] true REof)), [([97;98;99], ErrNil)].
  split. { econstructor; [left; reflexivity|constructor]. }
  split; [constructor|]. split; [|exact I].
  intros c [<-|[]] [L|[_ [r R]]]; [inversion L; subst; contradiction|discriminate].
Qed.
Print Assumptions C87_local_refuted.

(** A git working copy with its .git directory, one in a subdirectory too, and files. *)
Example C87_example :
  let es := [(text ".git", NDir false [(text "config", a_file)]); (text "a", a_file);
             (text "b", NDir false [(text ".git", a_file); (text "c", a_file)])] in
  let at_path p := if str_eqb p (text "/db/vcs-1") then Some (Node (NDir false es)) else None in
  New (text "git") None = Some (Command (Git (mkGit false []))) /\
  source at_path (text "/db/vcs-1") (text "vcs-" ++ text "1") (NDir false es) /\ good_tree (NDir false es) /\
  exists b, index_source at_path (text "/") 5 (build_options (Command (Git (mkGit false []))) false) (fun _ => true) (fun _ => true) true (fun _ => 0)
    (text "/db/vcs-1") = Some (Some (b, [(text "a", [97;98;99]); (text "b/c", [97;98;99])], [])).
Proof.
  assert (T : good_tree a_file). { constructor. intros evs E. injection E as <-. repeat constructor. }
  cbv zeta. split; [reflexivity|]. split.
  { apply src_own; [|reflexivity]. exists (text "db/"), []. split; [reflexivity|]. split; [right; exists (text "db"); reflexivity|].
    split; [discriminate|]. split; [intros X; vm_compute in X; repeat (destruct X as [X|X]; [discriminate|]); exact X|constructor]. }
  split.
  { assert (NS : forall n, existsb (N.eqb 47) n = false -> ~ In 47 n).
    { intros n E I. assert (X : existsb (N.eqb 47) n = true) by (apply existsb_exists; exists 47; split; [exact I|reflexivity]). congruence. }
    constructor; [repeat constructor; cbn; intros X; repeat (destruct X as [X|X]; [discriminate|]); exact X|].
    intros n x [E|[E|[E|[]]]]; injection E as <- <-; (split; [discriminate|]; split; [apply NS; reflexivity|]); try exact T.
    - constructor; [repeat constructor; intros []|]. intros n x [E|[]]. injection E as <- <-.
      split; [discriminate|]. split; [apply NS; reflexivity|exact T].
    - constructor; [repeat constructor; cbn; intros X; repeat (destruct X as [X|X]; [discriminate|]); exact X|].
      intros n x [E|[E|[]]]; injection E as <- <-; (split; [discriminate|]; split; [apply NS; reflexivity|exact T]). }
  eexists. vm_compute. reflexivity.
Qed.
