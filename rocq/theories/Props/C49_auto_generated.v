(** C49: which files are flagged auto-generated. *)
From Verif Require Import Model.Base Model.Query Model.Matcher Model.Reader Model.Search Model.Vcs Model.Generated Spec.VcsSpec Proofs.VcsProofs Proofs.GeneratedProofs.
Local Open Scope N_scope.

(** Without a configured list: the paths whose linguist-generated attribute is "true" in
    the listing, for all listings. *)
Theorem C49_listing_partial : forall w g dir h es out, Forall entry_ok es ->
  w_exec w (h ++ [mkRun dir ls_args (snd (w_exec w h dir ls_args))]) dir attr_args = (out, true) -> out = listing es ->
  forall p, In p (snd (auto_files w (Git g) dir [] h)) <-> says_true es p.
Proof. exact auto_listing. Qed.
Print Assumptions C49_listing_partial.

(** With one: the configured list alone. *)
Theorem C49_configured_partial : forall w d dir c h, c <> [] -> snd (auto_files w d dir c h) = c.
Proof. exact auto_configured. Qed.
Print Assumptions C49_configured_partial.

(** Sources that are not git repositories: the configured list, or none; no program is run. *)
Theorem C49_other_sources : forall w d dir c h, (forall g, d <> Git g) -> auto_files w d dir c h = (h, c).
Proof. intros w d dir [|x c] h N1; [|reflexivity]. destruct d; try reflexivity. exfalso. exact (N1 _ eq_refl). Qed.
Print Assumptions C49_other_sources.
(** git that fails: none. *)
Theorem C49_failed : forall w g dir h out, w_exec w (h ++ [mkRun dir ls_args (snd (w_exec w h dir ls_args))]) dir attr_args = (out, false) ->
  snd (auto_files w (Git g) dir [] h) = [].
Proof. exact auto_failed. Qed.
Print Assumptions C49_failed.

(** Every file of every search response carries the flag exactly when it is in the list
    (index.Search, for all queries, filters and page ranges). *)
Theorem C49_flag : forall fuel o raw auto rev ix q re fre xre r,
  search fuel o raw auto rev ix q re fre xre = Some (Some r) ->
  forall f, In f (rs_matches r) -> (fm_auto f = true <-> In (fm_name f) auto).
Proof. exact search_flags. Qed.
Print Assumptions C49_flag.

(** A world whose attribute listing is [es]. *)
Definition C49_world (es : list VcsSpec.entry) := mkWorld (fun _ _ _ => (listing es, true)) (fun _ _ => true).

(** The attribute can also be set without a value; git then answers "set". *)
Theorem C49_set_refuted : exists w g dir h es p, Forall entry_ok es /\
  (forall h' d args, w_exec w h' d args = (listing es, true)) /\
  says_generated es p /\ ~ In p (snd (auto_files w (Git g) dir [] h)).
Proof.
  set (es := [mkEntry [97] generated_attr val_set]).
  exists (C49_world es), (mkGit false []), [100], [], es, [97].
  split; [|split; [reflexivity|split; [right; left; reflexivity|vm_compute; auto]]].
  constructor; [|constructor]. unfold entry_ok, no_nul. cbn. intuition discriminate.
Qed.
Print Assumptions C49_set_refuted.

(** A configured list hides what the attributes say. *)
Theorem C49_config_hides_refuted : exists w g dir c h es p, Forall entry_ok es /\
  (forall h' d args, w_exec w h' d args = (listing es, true)) /\
  says_true es p /\ ~ In p (snd (auto_files w (Git g) dir c h)).
Proof.
  set (es := [mkEntry [97] generated_attr val_true]).
  exists (C49_world es), (mkGit false []), [100], [[98]], [], es, [97].
  split; [|split; [reflexivity|split; [left; reflexivity|cbn; intuition discriminate]]].
  constructor; [|constructor]. unfold entry_ok, no_nul. cbn. intuition discriminate.
Qed.
Print Assumptions C49_config_hides_refuted.

(** a: generated; b: other attribute; c: unspecified. *)
Definition C49_es := [mkEntry [97] generated_attr val_true; mkEntry [98] val_set val_true; mkEntry [99] generated_attr val_set].
Example C49_example : Forall entry_ok C49_es /\
  snd (auto_files (C49_world C49_es) (Git (mkGit false [])) [100] [] []) = [[97]].
Proof.
  split; [|vm_compute; reflexivity]. repeat constructor; unfold no_nul; cbn; intuition discriminate.
Qed.

(** ** The indexes of a searcher, from its start through all updates *)
(** With a configured list all indexes built have it. *)
Theorem C49_configured_indexes_partial : forall w d dir url conf found oks h h' m ms, searcher w d dir url conf found oks h = (h', Some (m, ms)) -> conf <> [] ->
  (forall n, In n ms -> m_auto n = conf) /\ (found (m_rev m) = None -> m_auto m = conf).
Proof.
  intros w d dir url conf found oks h h' m ms E C. destruct (searcher_auto _ _ _ _ _ _ _ _ _ _ _ E) as (_ & A & B). cbn zeta in A, B. rewrite (auto_configured _ _ _ _ _ C) in A, B.
  split; [exact A|]. intros F. rewrite F in B. exact B.
Qed.
Print Assumptions C49_configured_indexes_partial.
(** Otherwise the list of all of them is that of the revision pulled at the start. *)
Theorem C49_first_listing_partial : forall w g dir url found oks h h' m ms es, searcher w (Git g) dir url [] found oks h = (h', Some (m, ms)) ->
  let h1 := fst (PullOrClone w (Git g) dir url h) in
  w_exec w (h1 ++ [mkRun dir ls_args (snd (w_exec w h1 dir ls_args))]) dir attr_args = (listing es, true) -> Forall entry_ok es ->
  forall n, In n ms \/ (n = m /\ found (m_rev m) = None) -> forall p, In p (m_auto n) <-> says_true es p.
Proof.
  intros w g dir url found oks h h' m ms es E h1 L F n N p. destruct (searcher_auto _ _ _ _ _ _ _ _ _ _ _ E) as (_ & A & B). cbn zeta in A, B.
  assert (Q : m_auto n = snd (auto_files w (Git g) dir [] h1)) by (destruct N as [N|(-> & N)]; [exact (A n N)|rewrite N in B; exact B]).
  rewrite Q. exact (auto_listing _ _ _ _ _ _ F L eq_refl p).
Qed.
Print Assumptions C49_first_listing_partial.

(** Not that of the revision indexed: the second revision marks the file a, the index of the second
    revision does not. *)
Definition seen (args : list str) (h : history) : nat :=
  length (filter (fun r => if list_eq_dec (list_eq_dec N.eq_dec) (run_args r) args then true else false) h).
Definition C49_later (es : list VcsSpec.entry) := mkWorld (fun h _ args =>
  if list_eq_dec (list_eq_dec N.eq_dec) args rev_args then ([97 + N.of_nat (seen rev_args h)], true) else
  if list_eq_dec (list_eq_dec N.eq_dec) args attr_args then (if Nat.leb 2 (seen rev_args h) then listing es else [], true) else ([], true)) (fun _ _ => true).
Theorem C49_updated_refuted : exists w g dir url oks h h' m n es p, searcher w (Git g) dir url [] (fun _ => None) oks h = (h', Some (m, [n])) /\
  Forall entry_ok es /\ w_exec w (h' ++ [mkRun dir ls_args (snd (w_exec w h' dir ls_args))]) dir attr_args = (listing es, true) /\
  says_true es p /\ ~ In p (m_auto n).
Proof.
  set (es := [mkEntry [97] generated_attr val_true]).
  exists (C49_later es), (mkGit false []), [100], [117], [true], []. do 3 eexists. exists es, [97].
  split; [vm_compute; reflexivity|]. split; [repeat constructor; unfold no_nul; cbn; intuition discriminate|].
  split; [vm_compute; reflexivity|]. split; [left; reflexivity|]. intros [].
Qed.
Print Assumptions C49_updated_refuted.

(** Four revisions; the second and third cannot be indexed. *)
Definition C49_marked := mkWorld (fun h _ args =>
  if list_eq_dec (list_eq_dec N.eq_dec) args rev_args then ([97 + N.of_nat (seen rev_args h)], true) else
  if list_eq_dec (list_eq_dec N.eq_dec) args attr_args then (listing C49_es, true) else ([], true)) (fun _ _ => true).
Example C49_example_rounds : Forall entry_ok C49_es /\
  (exists h', searcher C49_marked (Git (mkGit false [])) [100] [117] [] (fun _ => None) [false; false; true] [] = (h', Some (mkMan [97] [[97]], [mkMan [100] [[97]]]))) /\
  (exists h', searcher C49_marked Hg [100] [117] [[98]] (fun _ => None) [true] [] = (h', Some (mkMan [] [[98]], []))).
Proof.
  split; [repeat constructor; unfold no_nul; cbn; intuition discriminate|]. split; eexists; vm_compute; reflexivity.
Qed.
