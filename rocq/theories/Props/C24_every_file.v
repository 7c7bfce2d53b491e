(** C24: every file is either searchable or explained. [found] (Spec/TreeSpec.v) are the
    entries reached without passing through a special, dotted (if configured) or
    unreadable directory. The index is described by the documents [docs] it was built
    from: C03, C04, C05 and C23 say what the index answers in terms of [kept]. *)
From Verif Require Import Model.Base Model.Writer Model.IndexRun Model.Reader Model.Utf8 Model.Grep Model.IndexDir
  Spec.RunSpec Spec.IndexSpec Spec.TreeSpec Spec.Utf8Spec Proofs.FillProofs Proofs.IndexProofs Proofs.EndToEnd Proofs.DirProofs Proofs.DirTop.
Local Open Scope N_scope.

(** Partial: the third alternative below (a read error in the middle of a file, or an
    unreadable directory, which [found] does not enter) is not explained; see the refuted
    theorems. *)
Theorem C24_every_file_partial : forall cap opt mk_ok cr_ok json_ok mem rname u es b raw excl,
  (1 <= cap)%nat -> good_tree (NDir u es) ->
  index_all_files cap opt mk_ok cr_ok json_ok mem rname (NDir u es) = Some (Some (b, raw, excl)) ->
  exists files vs docs, build_index cap mem [] files = Some (vs, b) /\ files_ok files /\ kept files vs docs /\
    (* never both, never twice *)
    NoDup (map fst docs ++ map fst excl) /\ NoDup (map fst raw) /\
    (* indexed files: complete, with a complete copy, not hidden *)
    (forall name c, In (name, c) docs -> In (name, c) raw /\
       exists cs m p evs, found opt rname (NDir u es) cs m (NFile (Some p) (Some evs)) /\ joined cs name /\ ~ hidden opt m /\
         is_text (rd_content p) = true /\ ev_ok evs /\ c = ev_content evs /\ accepted c) /\
    (* listed files: the reason holds *)
    (forall name why, In (name, why) excl ->
       exists cs m x, found opt rname (NDir u es) cs m x /\ joined cs name /\ ~ special opt m /\ justified opt m x why) /\
    (* every regular file *)
    (forall cs m p body name, found opt rname (NDir u es) cs m (NFile p body) -> joined cs name -> ~ special opt m ->
       (exists c, In (name, c) docs) \/ (exists why, In (name, why) excl) \/
       (exists evs, body = Some evs /\ ~ ev_ok evs)) /\
    (* every other non-directory *)
    (forall cs m name, found opt rname (NDir u es) cs m NIrregular -> joined cs name -> ~ special opt m ->
       exists why, In (name, why) excl).
Proof. exact index_tree. Qed.
Print Assumptions C24_every_file_partial.

(** A file that cannot be read to its end is neither indexed nor listed. *)
Theorem C24_read_error_refuted : exists opt es b raw cs m p body name,
  good_tree (NDir false es) /\
  index_all_files 5 opt (fun _ => true) (fun _ => true) true (fun _ => 0) [114] (NDir false es) = Some (Some (b, raw, [])) /\
  build_index 5 (fun _ => 0) [] [] = Some ([], b) /\
  found opt [114] (NDir false es) cs m (NFile p body) /\ joined cs name /\ ~ special opt m.
Proof.
  exists (mkIOpts false []), [([102], NFile (Some (RChunk [97;98] false REof)) (Some [([97], ErrNil); ([], Model.Writer.ErrOther)]))].
  do 2 eexists. exists [[102]], [102]. do 2 eexists. exists [102].
  split. { constructor; [repeat constructor; intros []|]. intros n x [E|[]]. injection E as <- <-.
    split; [discriminate|]. split; [intros [X|[]]; discriminate|]. constructor. intros evs E. injection E as <-. repeat constructor. }
  split; [vm_compute; reflexivity|]. split; [vm_compute; reflexivity|].
  split; [|split; [constructor|intros []]]. econstructor; [|left; reflexivity|apply found_here].
  intros [[]|[X _]]. discriminate.
Qed.
Print Assumptions C24_read_error_refuted.

(** A readable file in a directory that cannot be listed is neither indexed nor listed. *)
Theorem C24_unreadable_dir_refuted : exists opt es b raw cs p evs name,
  good_tree (NDir false es) /\
  index_all_files 5 opt (fun _ => true) (fun _ => true) true (fun _ => 0) [114] (NDir false es) = Some (Some (b, raw, [])) /\
  build_index 5 (fun _ => 0) [] [] = Some ([], b) /\
  lies (NDir false es) cs (NFile p (Some evs)) /\ joined cs name /\ (forall m, ~ hidden opt m) /\ ev_ok evs.
Proof.
  exists (mkIOpts false []), [([100], NDir true [([102], NFile (Some (RChunk [97;98] false REof)) (Some [([97], ErrNil)]))])].
  do 2 eexists. exists [[100]; [102]]. do 2 eexists. exists [100; 47; 102].
  split. { constructor; [repeat constructor; intros []|]. intros n x [E|[]]. injection E as <- <-.
    split; [discriminate|]. split; [intros [X|[]]; discriminate|].
    constructor; [repeat constructor; intros []|]. intros n x [E|[]]. injection E as <- <-.
    split; [discriminate|]. split; [intros [X|[]]; discriminate|]. constructor. intros evs E. injection E as <-. repeat constructor. }
  split; [vm_compute; reflexivity|]. split; [vm_compute; reflexivity|].
  split. { econstructor; [left; reflexivity|]. econstructor; [left; reflexivity|]. constructor. }
  split; [apply (joined_more [100] [[102]] [102]); constructor|]. split; [|exact I].
  intros m [[]|[X _]]. discriminate.
Qed.
Print Assumptions C24_unreadable_dir_refuted.

(** A tree with a text file, a binary file, a dot file, a symbolic link, a special
    directory and a subdirectory. *)
Example C24_example :
  let text := NFile (Some (RChunk [97;98;99] true REof)) (Some [([97;98;99], ErrNil)]) in
  let es := [([46;103], NDir false [([120], text)]); ([46;104], text); ([97], text); ([98], NFile (Some (RChunk [255] false REof)) (Some []));
             ([100], NDir false [([101], text)]); ([108], NIrregular)] in
  good_tree (NDir false es) /\
  (exists b, index_all_files 5 (mkIOpts true [[46;103]]) (fun _ => true) (fun _ => true) true (fun _ => 0) [114] (NDir false es)
    = Some (Some (b, [([97], [97;98;99]); ([100;47;101], [97;98;99])],
                  [([46;104], DotFile); ([98], NotText); ([108], InvalidMode)]))).
Proof.
  cbv zeta. split.
  - assert (T : good_tree (NFile (Some (RChunk [97;98;99] true REof)) (Some [([97;98;99], ErrNil)]))).
    { constructor. intros evs E. injection E as <-. repeat constructor. }
    assert (N : forall c d, c <> 47 -> d <> 47 -> [c;d] <> [] /\ ~ In 47 [c;d]).
    { intros c d A B. split; [discriminate|]. intros [X|[X|[]]]; congruence. }
    assert (N1 : forall c, c <> 47 -> [c] <> [] /\ ~ In 47 [c]).
    { intros c A. split; [discriminate|]. intros [X|[]]; congruence. }
    constructor.
    { repeat constructor; cbn; intros H; decompose [or] H; try discriminate; contradiction. }
    intros n x H. cbn [In] in H.
    destruct H as [E|[E|[E|[E|[E|[E|[]]]]]]]; injection E as <- <-.
    + split; [apply N; discriminate|]. split; [apply N; discriminate|]. constructor; [repeat constructor; intros []|].
      intros n x [E|[]]. injection E as <- <-. split; [apply N1; discriminate|]. split; [apply N1; discriminate|exact T].
    + split; [apply N; discriminate|]. split; [apply N; discriminate|exact T].
    + split; [apply N1; discriminate|]. split; [apply N1; discriminate|exact T].
    + split; [apply N1; discriminate|]. split; [apply N1; discriminate|]. constructor. intros evs E. injection E as <-. constructor.
    + split; [apply N1; discriminate|]. split; [apply N1; discriminate|]. constructor; [repeat constructor; intros []|].
      intros n x [E|[]]. injection E as <- <-. split; [apply N1; discriminate|]. split; [apply N1; discriminate|exact T].
    + split; [apply N1; discriminate|]. split; [apply N1; discriminate|constructor].
  - eexists. vm_compute. reflexivity.
Qed.
