(** C83: what is opened is closed. [sane]: numbers of files not yet opened are not in use;
    a result [None] is the end of the process. *)
From Verif Require Import Model.Base Model.Handles Proofs.HandlesProofs Proofs.HandlesTame.
From Coq Require Import Lia.
Local Open Scope N_scope.

(** Building an index, when it succeeds, leaves no temporary file and no mapping, and three
    open files. *)
Theorem C83_built_partial : forall vs w w', sane w -> Build vs w = Some (true, w') ->
  w_temp w' = w_temp w /\ w_maps w' = w_maps w /\ exists a b c, w_open w' = [a; b; c] ++ w_open w.
Proof.
  intros vs w w' W R. destruct (build_leaves _ _ _ _ W R) as (_ & cs & (_ & _ & O & M) & T & L). split; [exact T|]. split; [exact M|].
  destruct cs as [|a [|b [|c [|d cs]]]]; try discriminate L. eauto.
Qed.
Print Assumptions C83_built_partial.

(** Each that fails leaves three temporary files at least, open. *)
Theorem C83_failed : forall vs w w', sane w -> indexAllFiles vs w = Some (false, w') ->
  w_maps w' = w_maps w /\ exists cs, (3 <= length cs)%nat /\ w_temp w' = cs ++ w_temp w /\ w_open w' = cs ++ w_open w.
Proof.
  intros vs w w' W R. destruct (index_leaves _ _ _ _ W R) as (cs & (_ & _ & O & M) & L & T). split; [exact M|]. exists cs. auto.
Qed.
Print Assumptions C83_failed.

(** Whether it succeeds or not, no other files than temporary ones are left open. *)
Theorem C83_only_temporary : forall vs w ok w', Build vs w = Some (ok, w') ->
  forall x, In x (w_open w') -> In x (w_open w) \/ In x (w_made w').
Proof. intros vs w ok w' R x X. destruct (build_tame _ _ _ _ R) as (_ & O). destruct (O _ X) as [Y|[Y|[]]]; auto. Qed.
Print Assumptions C83_only_temporary.

(** The files that a search looks at are closed, whatever fails. *)
Theorem C83_search : forall n w ok w', sane w -> grep_files n w = Some (ok, w') ->
  w_open w' = w_open w /\ w_temp w' = w_temp w /\ w_maps w' = w_maps w.
Proof. intros n w ok w' W R. destruct (greps_clean _ _ _ _ W R) as (_ & _ & O & T & M). auto. Qed.
Print Assumptions C83_search.

(** A searcher has one mapping at most after any number of updates, whatever fails; its open
    files grow by three at least with every update, and all of them are temporary files
    beside that of the index in use. *)
Theorem C83_mapping : forall there vs size w idx w1, sane w -> buildAndOpenIndex there vs size w = Some (Some idx, w1) ->
  forall ds cur n w', live ds idx w1 = Some ((cur, n), w') ->
  (w_maps w' = w_maps w \/ exists m, w_maps w' = m :: w_maps w /\ sl_map (mm_o cur) = Some m) /\
  (3 * n + length (w_open w) <= length (w_open w'))%nat /\
  forall x, In x (w_open w') -> In x (w_open w) \/ In x (w_made w') \/
    (x = mm_f cur /\ exists m, sl_map (mm_o cur) = Some m /\ In m (w_maps w')).
Proof.
  intros there vs size w idx w1 W R ds cur n w' L. destruct (opened_state _ _ _ _ _ _ W R) as (W1 & S1).
  pose proof (live_kept _ _ _ _ _ _ _ _ W1 S1 (first_kept _ _ _ _ _ _ W R) L) as K.
  destruct (live_state _ _ _ _ _ _ _ W1 S1 L) as (_ & (m & c & _ & E & _ & _ & D)). cbn [fst snd] in *.
  destruct D as [(D1 & _ & l1 & l2 & D2 & _ & D3)|(D1 & _ & D2)].
  - split; [right; exists m; rewrite E; auto|]. split; [|exact K]. rewrite D2. rewrite app_length in *. cbn [length]. lia.
  - split; [left; exact D1|]. split; [exact D2|exact K].
Qed.
Print Assumptions C83_mapping.

Definition quiet : world := mkW [] 10 [1; 2] [] [] [].
Lemma quiet_sane : sane quiet.
Proof. split; [|split]; repeat constructor. Qed.
(** An index is built, no error, and files stay open. *)
Theorem C83_handles_refuted : exists vs w w', sane w /\ Build vs w = Some (true, w') /\ w_open w' <> w_open w.
Proof.
  exists [Dir; File false 100; Passed; File true 0], quiet. eexists. split; [apply quiet_sane|]. split; [vm_compute; reflexivity|]. discriminate.
Qed.
Print Assumptions C83_handles_refuted.
(** A file cannot be opened (the ninth answer): the temporary files stay. *)
Theorem C83_temp_refuted : exists vs w w', sane w /\ Build vs w = Some (false, w') /\ w_temp w' <> w_temp w.
Proof.
  exists [File false 100], (mkW [true; true; true; true; true; true; true; true; false] 10 [1; 2] [] [] []). eexists.
  split; [split; [|split]; repeat constructor|]. split; [vm_compute; reflexivity|]. discriminate.
Qed.
Print Assumptions C83_temp_refuted.

(** With chunks: as many trigrams as fit into memory, and one more. *)
Example C83_example_chunk : exists k ix ix' w', sane quiet /\ wr_postFile ix = [] /\ add_posts k ix quiet = Some (ix', w') /\
  length (wr_postFile ix') = 1%nat /\ length (w_temp w') = 1%nat.
Proof.
  exists (N.to_nat npost + 1)%nat, (mkWr 1 2 3 4 0 [] []).
  destruct (add_posts 1 (mkWr 1 2 3 4 npost [] []) quiet) as [[ix' w']|] eqn:E; [|vm_compute in E; discriminate].
  exists ix', w'. split; [apply quiet_sane|]. split; [reflexivity|]. split.
  - rewrite add_posts_app. unfold andThen. rewrite add_posts_few by (rewrite N2Nat.id; apply N.le_refl). rewrite N2Nat.id. exact E.
  - vm_compute in E. injection E as <- <-. split; reflexivity.
Qed.
(** Two updates and a search between them. *)
Example C83_example_life : exists idx w1 cur w', buildAndOpenIndex false [File false 5] 100 quiet = Some (Some idx, w1) /\
  live [Update false [File false 6] 200; Search 3; Update false [Dir] 300] idx w1 = Some ((cur, 2%nat), w') /\
  length (w_maps w') = 1%nat /\ length (w_open w') = 12%nat /\ w_temp w' = [].
Proof. eexists. eexists. eexists. eexists. split; [vm_compute; reflexivity|]. split; [vm_compute; reflexivity|]. split; [|split]; reflexivity. Qed.
