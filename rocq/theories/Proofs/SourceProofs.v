(** Lemmas about the source of a repository (Model/Source.v). *)
From Coq Require Import Lia.
From Verif Require Import Model.Base Model.GoStr Model.Writer Model.IndexRun Model.Reader Model.Vcs Model.LocalVcs Model.Drivers Model.IndexDir Model.Source
  Spec.Names Spec.RunSpec Spec.IndexSpec Spec.TreeSpec Spec.SourceSpec
  Proofs.StrLemmas Proofs.FillProofs Proofs.IndexProofs Proofs.EndToEnd Proofs.DirProofs Proofs.DirTop.
Local Open Scope N_scope.

Lemma special_iff : forall wd exdot n, special (build_options wd exdot) n <-> left_out wd n.
Proof.
  intros wd exdot n. unfold special, build_options. cbn [io_special]. split.
  - intros I. destruct wd as [[g| |g|]|l]; cbn [SpecialFiles] in I.
    1-4: destruct I as [<-|[]]; constructor.
    constructor. exact I.
  - intros L. destruct L; cbn [SpecialFiles]; [left; reflexivity..|assumption].
Qed.

Lemma hidden_iff : forall wd exdot n, hidden (build_options wd exdot) n <-> unseen wd exdot n.
Proof.
  intros wd exdot n. unfold hidden, unseen. rewrite special_iff. unfold dotted. cbn [build_options io_dot]. reflexivity.
Qed.

Lemma until_slash_app : forall a b, ~ In 47 a -> until_slash (a ++ 47 :: b) = a.
Proof.
  induction a as [|c a IH]; intros b A; [reflexivity|]. cbn [until_slash app].
  destruct (c =? 47) eqn:E; [apply N.eqb_eq in E; subst; exfalso; apply A; left; reflexivity|].
  rewrite IH; [reflexivity|]. intros I. apply A. right. exact I.
Qed.

Lemma drop_slashes_app : forall s c r, Forall (eq 47) s -> c <> 47 -> drop_slashes (s ++ c :: r) = c :: r.
Proof.
  induction s as [|x s IH]; intros c r F C.
  - cbn [app drop_slashes]. destruct r; [reflexivity|]. destruct (c =? 47) eqn:E; [apply N.eqb_eq in E; contradiction|reflexivity].
  - pose proof (Forall_inv F) as X. cbv beta in X. subst x. apply Forall_inv_tail in F.
    cbn [app drop_slashes]. destruct (s ++ c :: r) as [|y l] eqn:D.
    + destruct s; discriminate.
    + rewrite <- D. cbn [N.eqb Pos.eqb]. apply IH; assumption.
Qed.

Lemma base_name_called : forall p n, called p n -> base_name p = n.
Proof.
  intros p n (d & s & -> & D & NE & NS & F). unfold base_name.
  replace (List.rev (47 :: d ++ n ++ s)) with (List.rev s ++ List.rev n ++ List.rev d ++ [47])
    by (cbn [List.rev]; rewrite !rev_app_distr, <- !app_assoc; reflexivity).
  destruct (List.rev n) as [|c r] eqn:R.
  { exfalso. apply NE. rewrite <- (rev_involutive n), R. reflexivity. }
  assert (NR : ~ In 47 (c :: r)). { rewrite <- R. intros I. apply NS. apply in_rev. exact I. }
  assert (RN : List.rev r ++ [c] = n) by (rewrite <- (rev_involutive n), R; reflexivity).
  cbn [app]. rewrite drop_slashes_app.
  - destruct D as [->|(d' & ->)].
    + cbn [List.rev app]. rewrite until_slash_app by (intros I; apply NR; right; exact I).
      exact RN.
    + rewrite rev_app_distr. cbn [List.rev app]. rewrite until_slash_app by (intros I; apply NR; right; exact I).
      exact RN.
  - apply Forall_forall. intros x I. apply in_rev in I. rewrite Forall_forall in F. apply F. exact I.
  - intros ->. apply NR. left. reflexivity.
Qed.

Lemma absolute_called : forall base p n, called p n -> absolute base p = p.
Proof. intros base p n (d & s & -> & _). reflexivity. Qed.

Lemma source_index : forall at_path cwd cap opt mk cr js mem dir n nd, source at_path dir n nd ->
  index_source at_path cwd cap opt mk cr js mem dir = index_all_files cap opt mk cr js mem n nd.
Proof.
  intros at_path cwd cap opt mk cr js mem dir n nd SR. unfold index_source, resolved, root_of, Stat, Lstat.
  destruct SR as [n u es C A|p n u es [d ->] L C A].
  - rewrite (absolute_called _ _ _ C). cbn [follow]. rewrite A. rewrite (absolute_called _ _ _ C), A, (base_name_called _ _ C). reflexivity.
  - change (absolute (cwd ++ [47]) (47 :: d)) with (47 :: d). cbn [follow]. rewrite L.
    rewrite (absolute_called _ _ _ C), A.
    rewrite (absolute_called _ _ _ C), A, (base_name_called _ _ C). reflexivity.
Qed.

Lemma found_parts : forall opt name nd cs m x, found opt name nd cs m x -> ~ special opt m -> forall c, In c cs -> ~ special opt c.
Proof.
  intros opt name nd cs m x F. induction F as [name nd|name es n x cs m y NH I F IH]; intros NM c IC; [destruct IC|].
  destruct IC as [<-|IC]; [|exact (IH NM c IC)].
  inversion F; subst; [exact NM|]. intros SP. match goal with H : ~ hidden opt n |- _ => apply H end. left. exact SP.
Qed.

Lemma leads_found : forall opt nd cs x, leads nd cs x -> forall name, ~ hidden opt name -> (forall c, In c cs -> ~ hidden opt c) ->
  exists m, found opt name nd cs m x /\ ~ hidden opt m.
Proof.
  intros opt nd cs x L. induction L as [nd|es n x cs y I L IH]; intros name NH A.
  - exists name. split; [constructor|exact NH].
  - destruct (IH n) as (m & F & NM).
    + apply A. left. reflexivity.
    + intros c IC. apply A. right. exact IC.
    + exists m. split; [|exact NM]. econstructor; eassumption.
Qed.

Lemma joined_parts : forall cs ds s, joined cs s -> joined ds s -> good_path cs -> good_path ds -> cs = ds.
Proof.
  intros cs ds s A B GA GB. apply joined_iff in A. apply joined_iff in B. destruct A as [A1 A2], B as [B1 B2].
  apply join_inj; try assumption. congruence.
Qed.

Lemma in_fst : forall {A} (l : list (str * A)) n, In n (map fst l) -> exists v, In (n, v) l.
Proof. intros A l n I. apply in_map_iff in I. destruct I as ([k v] & <- & I). exists v. exact I. Qed.

Lemma index_special : forall at_path cwd cap wd exdot mk cr js mem dir n u es b raw excl,
  (1 <= cap)%nat -> source at_path dir n (NDir u es) -> good_tree (NDir u es) ->
  index_source at_path cwd cap (build_options wd exdot) mk cr js mem dir = Some (Some (b, raw, excl)) ->
  exists files vs docs, build_index cap mem [] files = Some (vs, b) /\ kept files vs docs /\
    (forall cs name, joined cs name -> Forall (fun c => c <> [] /\ ~ In 47 c) cs ->
       In name (map fst docs) \/ In name (map fst excl) -> forall c, In c cs -> ~ left_out wd c) /\
    (~ unseen wd exdot n -> forall cs name p body, leads (NDir u es) cs (NFile p body) -> joined cs name ->
       (forall c, In c cs -> ~ unseen wd exdot c) ->
       In name (map fst docs) \/ In name (map fst excl) \/ exists evs, body = Some evs /\ ~ ev_ok evs).
Proof.
  intros at_path cwd cap wd exdot mk cr js mem dir n u es b raw excl C SR G H.
  rewrite (source_index _ cwd cap _ mk cr js mem _ _ _ SR) in H.
  destruct (index_tree _ _ _ _ _ _ _ _ _ _ _ _ C G H) as (files & vs & docs & B & _ & K & _ & _ & D & X & A & _).
  exists files, vs, docs. split; [exact B|]. split; [exact K|]. split.
  - intros cs name J P I c IC LO. apply (special_iff wd exdot) in LO.
    assert (EX : exists cs' m x, found (build_options wd exdot) n (NDir u es) cs' m x /\ joined cs' name /\ ~ special (build_options wd exdot) m).
    { destruct I as [I|I]; apply in_fst in I; destruct I as [v I].
      - destruct (D _ _ I) as (_ & cs' & m & p & evs & F & J' & NH & _). exists cs', m, (NFile (Some p) (Some evs)).
        split; [exact F|]. split; [exact J'|]. intros SP. apply NH. left. exact SP.
      - destruct (X _ _ I) as (cs' & m & x & F & J' & NS & _). exists cs', m, x. auto. }
    destruct EX as (cs' & m & x & F & J' & NM).
    assert (cs = cs') by exact (joined_parts _ _ _ J J' P (proj1 (found_good _ _ _ _ _ _ F G))). subst cs'.
    exact (found_parts _ _ _ _ _ _ F NM c IC LO).
  - intros NU cs name p body L J Q.
    destruct (leads_found (build_options wd exdot) _ _ _ L n) as (m & F & NM).
    + rewrite hidden_iff. exact NU.
    + intros c IC. rewrite hidden_iff. exact (Q c IC).
    + destruct (A cs m p body name F J) as [[c I]|[[w I]|E]].
      * intros SP. apply NM. left. exact SP.
      * left. apply in_map_iff. exists (name, c). auto.
      * right. left. apply in_map_iff. exists (name, w). auto.
      * right. right. exact E.
Qed.

Lemma copy_seen : forall d exdot h, ~ unseen (Command d) exdot (text "vcs-" ++ h).
Proof.
  intros d exdot h [L|[_ [r E]]]; [|discriminate]. remember (text "vcs-" ++ h) as x eqn:X. remember (Command d) as w eqn:W.
  destruct L; try discriminate.
Qed.

Lemma resolved_link : forall fs cwd d p n u es, fs (47 :: d) = Some (Link p) -> called p n -> fs p = Some (Node (NDir u es)) ->
  resolved fs cwd (47 :: d) = p /\ exists_ fs cwd (47 :: d) = true.
Proof.
  intros fs cwd d p n u es L C A. unfold exists_, resolved, Stat, Lstat.
  change (absolute (cwd ++ [47]) (47 :: d)) with (47 :: d). cbn [follow]. rewrite L, (absolute_called _ _ _ C), A. auto.
Qed.

Lemma local_tree : forall sha1 files at_path cwd l d p n u es rev fs,
  called p n -> at_path p = Some (Node (NDir u es)) -> at_path (47 :: d) = None ->
  local_start sha1 files at_path cwd l (47 :: d) (text "file://" ++ p) = Some (rev, fs) ->
  source fs (47 :: d) n (NDir u es) /\ (forall q, q <> 47 :: d -> fs q = at_path q) /\
  (forall cwd', local_start sha1 files fs cwd' l (47 :: d) (text "file://" ++ p) = Some (rev, fs)).
Proof.
  intros sha1 files at_path cwd l d p n u es rev fs C A NO H. unfold local_start in H.
  assert (EX : exists_ at_path cwd (47 :: d) = false).
  { unfold exists_, Stat. change (absolute (cwd ++ [47]) (47 :: d)) with (47 :: d). cbn [follow]. rewrite NO. reflexivity. }
  rewrite EX in H.
  assert (HP : has_prefix (text "file://" ++ p) file_scheme = true) by (destruct p; reflexivity).
  assert (TP : trim_prefix (text "file://" ++ p) file_scheme = p) by (unfold trim_prefix; rewrite HP; reflexivity).
  rewrite HP, TP in H. cbn [negb] in H. unfold Symlink, Lstat in H.
  change (absolute (cwd ++ [47]) (47 :: d)) with (47 :: d) in H. rewrite NO in H. cbn [bind] in H.
  set (fs0 := fun p0 => if str_eqb p0 (47 :: d) then Some (Link p) else at_path p0) in H.
  destruct (Pull sha1 l (fun d0 => files (resolved fs0 cwd d0)) (47 :: d)) as [r|] eqn:R; [|discriminate].
  cbn [bind] in H. assert (r = rev /\ fs0 = fs) as [-> EF] by (split; congruence). subst fs. clear H.
  assert (F1 : fs0 (47 :: d) = Some (Link p)). { unfold fs0. rewrite str_eqb_refl. reflexivity. }
  assert (F2 : forall q, q <> 47 :: d -> fs0 q = at_path q).
  { intros q Q. unfold fs0. destruct (str_eqb q (47 :: d)) eqn:E; [apply str_eqb_eq in E; contradiction|reflexivity]. }
  assert (PD : p <> 47 :: d) by congruence.
  assert (F3 : fs0 p = Some (Node (NDir u es))) by (rewrite F2; assumption).
  split; [|split; [exact F2|]].
  - apply src_link with p; eauto.
  - intros cwd'. unfold local_start.
    destruct (resolved_link _ cwd' _ _ _ _ _ F1 C F3) as [RS ->].
    destruct (resolved_link _ cwd _ _ _ _ _ F1 C F3) as [RS0 _].
    assert (PE : Pull sha1 l (fun d0 => files (resolved fs0 cwd' d0)) (47 :: d) = Some rev).
    { rewrite <- R. unfold Pull, HeadRev. destruct (WatchChanges l); [|reflexivity]. cbn [negb]. rewrite RS, RS0. reflexivity. }
    rewrite PE. reflexivity.
Qed.
