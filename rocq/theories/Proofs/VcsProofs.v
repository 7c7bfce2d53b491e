From Coq Require Import Strings.String.
From Verif Require Import Model.Base Model.GoStr Model.Vcs Proofs.GoStrProofs Proofs.DirProofs Proofs.StrLemmas
  Model.Query Model.Reader Model.Matcher Model.Grep Model.Search Spec.VcsSpec.
From Coq Require Import Lia.
Local Open Scope N_scope.

Definition all_ok (rs : list run_of) : Prop := Forall (fun r => run_ok r = true) rs.

(** ** Drivers that report every failure *)
Lemma head_rev_runs : forall w args dir h, exists r,
  head_rev w args dir h = (h ++ [mkRun dir args (snd (w_exec w h dir args))], r) /\
  (r <> None <-> snd (w_exec w h dir args) = true) /\
  (forall v, r = Some v -> v = trim_space (fst (w_exec w h dir args))).
Proof.
  intros. unfold head_rev, andthen, exec, ret. destruct (w_exec w h dir args) as [out []]; cbn [fst snd].
  - eexists. split; [reflexivity|]. split; [split; [reflexivity|discriminate]|]. intros v X. congruence.
  - eexists. split; [reflexivity|]. split; [split; [congruence|discriminate]|]. discriminate.
Qed.

Definition reports (a : act result) : Prop := forall h h' r, a h = (h', r) ->
  exists rs, h' = h ++ rs /\ rs <> [] /\ (r <> None <-> all_ok rs).

Lemma all_ok_cons : forall r rs, all_ok (r :: rs) <-> run_ok r = true /\ all_ok rs.
Proof. intros. unfold all_ok. split; [intros H; inversion H; auto|intros [A B]; constructor; auto]. Qed.
Lemma all_ok_nil : all_ok [] <-> True.
Proof. split; [auto|constructor]. Qed.

Lemma two_step : forall w dir args dir2 args2,
  reports (r <~ exec w dir args ;; if snd r then head_rev w args2 dir2 else ret None).
Proof.
  intros w dir args dir2 args2 h h' r E. unfold andthen, exec in E.
  destruct (w_exec w h dir args) as [out []] eqn:X; cbn [fst snd] in E.
  - destruct (head_rev_runs w args2 dir2 (h ++ [mkRun dir args true])) as (r1 & E1 & OK & _). rewrite E1 in E.
    injection E as <- <-. eexists. rewrite <- app_assoc. split; [reflexivity|]. split; [discriminate|].
    rewrite OK. cbn [app]. rewrite !all_ok_cons, all_ok_nil. cbn [run_ok]. tauto.
  - unfold ret in E. injection E as <- <-. eexists. split; [reflexivity|]. split; [discriminate|].
    rewrite all_ok_cons. cbn [run_ok]. split; [congruence|intros [Y _]; discriminate].
Qed.

Theorem others_report : forall w d dir url, (forall g, d <> Git g) -> reports (PullOrClone w d dir url).
Proof.
  intros w d dir url NG h h' r E. unfold PullOrClone in E.
  destruct d as [g| |g|]; [exfalso; apply (NG g); reflexivity| | |];
    (destruct (w_exists w h dir); [eapply two_step; exact E|]);
    cbn [Clone] in E; unfold hg_Clone, svn_Clone, bzr_Clone in E; destruct (path_split dir) as [par rep];
    eapply two_step; exact E.
Qed.

(** ** git *)
Lemma git_run_eq : forall w dir args h,
  git_run w dir args h = (h ++ [mkRun dir args (snd (w_exec w h dir args))], Some (fst (w_exec w h dir args))).
Proof. reflexivity. Qed.

Definition detect_args : list str := Eval vm_compute in
  [lit "git"%string; lit "remote"%string; lit "show"%string; lit "origin"%string].
Definition rev_args : list str := Eval vm_compute in [lit "git"%string; lit "rev-parse"%string; lit "HEAD"%string].

(** Everything a pull does. *)
Lemma pull_runs : forall w g dir h h' r, git_Pull w g dir h = (h', r) ->
  exists det b1 b2 b3, 
    (targetRef w g dir h = (h ++ det, snd (targetRef w g dir h))) /\
    (det = [] \/ exists b, det = [mkRun dir detect_args b]) /\
    h' = h ++ det ++ [mkRun dir (fetches (snd (targetRef w g dir h))) b1;
               mkRun dir (checks_out (snd (targetRef w g dir h))) b2; mkRun dir rev_args b3] /\
    (r <> None <-> b3 = true).
Proof.
  intros w g dir h h' r E. unfold git_Pull, andthen in E.
  assert (T : exists det, targetRef w g dir h = (h ++ det, snd (targetRef w g dir h)) /\
     (det = [] \/ exists b, det = [mkRun dir detect_args b])).
  { unfold targetRef, andthen. destruct (Ref g) as [|c s].
    - destruct (DetectRef g).
      + unfold detectRef, andthen. rewrite git_run_eq. unfold ret. cbn [fst snd].
        eexists. split; [reflexivity|]. right. eexists. reflexivity.
      + unfold ret. exists []. rewrite app_nil_r. split; [reflexivity|auto].
    - unfold ret. exists []. rewrite app_nil_r. split; [reflexivity|auto]. }
  destruct T as (det & T1 & T2). rewrite T1 in E. set (t := snd (targetRef w g dir h)) in *.
  rewrite git_run_eq in E. rewrite git_run_eq in E. unfold git_HeadRev in E.
  match type of E with head_rev _ ?a _ ?hh = _ => destruct (head_rev_runs w a dir hh) as (r1 & E1 & OK & _) end.
  rewrite E1 in E. injection E as <- <-.
  exists det. eexists _, _, _. split; [exact T1|]. split; [exact T2|]. split; [|exact OK].
  clear. rewrite <- !app_assoc. reflexivity.
Qed.

Definition clone_args (dir url : str) : list str :=
  [lit "git"%string; lit "clone"%string; lit "--depth"%string; lit "1"%string; url; snd (path_split dir)].

(** Failures of clone and of rev-parse are reported. *)
Theorem git_reports : forall w g dir url h h' r, PullOrClone w (Git g) dir url h = (h', r) ->
  exists rs, h' = h ++ rs /\
    (r <> None <-> forall x, In x rs -> run_args x = clone_args dir url \/ run_args x = rev_args -> run_ok x = true).
Proof.
  intros w g dir url h h' r E. unfold PullOrClone in E.
  assert (PULL : forall h0 h1, git_Pull w g dir h0 = (h1, r) -> exists rs, h1 = h0 ++ rs /\
    (r <> None <-> forall x, In x rs -> run_args x = clone_args dir url \/ run_args x = rev_args -> run_ok x = true)).
  { intros h0 h1 EP. destruct (pull_runs _ _ _ _ _ _ EP) as (det & b1 & b2 & b3 & _ & D & -> & OK).
    eexists. split; [reflexivity|]. rewrite OK. split.
    - intros -> x I. apply in_app_or in I. destruct I as [I|[<-|[<-|[<-|[]]]]].
      + destruct D as [->|(b & ->)]; [destruct I|]. destruct I as [<-|[]]. cbn [run_args].
        intros [X|X]; discriminate.
      + cbn [run_args]. intros [X|X]; discriminate.
      + cbn [run_args]. intros [X|X]; discriminate.
      + reflexivity.
    - intros H. apply (H (mkRun dir rev_args b3)); [|right; reflexivity].
      apply in_or_app. right. right. right. left. reflexivity. }
  destruct (w_exists w h dir); [apply PULL; exact E|].
  cbn [Clone] in E. unfold git_Clone in E. 
  destruct (path_split dir) as [par rep] eqn:PS. unfold andthen, exec in E.
  match type of E with context [w_exec w h par ?a] => set (ca := a) in * end.
  assert (ECA : ca = clone_args dir url) by (unfold ca, clone_args; rewrite PS; reflexivity).
  destruct (w_exec w h par ca) as [out []] eqn:X; cbn [fst snd] in E.
  - destruct (PULL _ _ E) as (rs & -> & OK). exists (mkRun par ca true :: rs). split; [rewrite <- app_assoc; reflexivity|].
    rewrite OK. split.
    + intros H x [<-|I] Q; [reflexivity|apply H; assumption].
    + intros H x I Q. apply H; [right; exact I|exact Q].
  - unfold ret in E. injection E as <- <-. eexists. split; [reflexivity|]. split; [congruence|].
    intros H. specialize (H _ (or_introl eq_refl)). cbn [run_args run_ok] in H. rewrite ECA in H. intuition discriminate.
Qed.

(** ** The reference (C50) *)
Lemma app_inj_len : forall {A} (a a' b b' : list A), length a = length a' -> a ++ b = a' ++ b' -> a = a' /\ b = b'.
Proof.
  induction a as [|x a IH]; intros [|y a'] b b' L E; cbn in L; try discriminate; cbn [app] in E; [auto|].
  injection E as -> E. injection L as L. destruct (IH a' b b' L E) as (-> & ->). auto.
Qed.
Lemma announce_eq : head_branch = announce. Proof. reflexivity. Qed.

Lemma until_nl_split : forall s, exists post, s = until_nl s ++ post /\ ~ In 10 (until_nl s) /\
  (post = [] \/ exists r, post = 10 :: r).
Proof.
  induction s as [|c s IH]; cbn [until_nl].
  - exists []. cbn. auto.
  - destruct (N.eqb_spec c 10) as [->|NE].
    + exists (10 :: s). cbn. split; [reflexivity|]. split; [auto|]. right. eauto.
    + destruct IH as (post & E & NI & P). exists post. split; [cbn [app]; congruence|]. split; [|exact P].
      intros [X|X]; [congruence|contradiction].
Qed.

Lemma until_nl_app : forall b post, ~ In 10 b -> (post = [] \/ exists r, post = 10 :: r) -> until_nl (b ++ post) = b.
Proof.
  induction b as [|c b IH]; intros post NI P; cbn [app until_nl].
  - destruct P as [->|(r & ->)]; reflexivity.
  - destruct (N.eqb_spec c 10) as [->|NE]; [exfalso; apply NI; left; reflexivity|].
    f_equal. apply IH; [|exact P]. intros I. apply NI. right. exact I.
Qed.

Lemma find_branch_some : forall s b, find_branch s = Some b -> names_branch s b.
Proof.
  induction s as [|c s IH]; intros b H.
  - cbn in H. discriminate.
  - cbn [find_branch] in H.
    set (here := if has_prefix (c :: s) head_branch then until_nl (skipn (length head_branch) (c :: s)) else []) in H.
    destruct here as [|x y] eqn:EH.
    + destruct (IH b H) as (n & (pre & post & E & L & R) & MIN).
      exists (S n). split.
      * exists (c :: pre), post. cbn [app length]. split; [congruence|]. split; [congruence|exact R].
      * intros n' b' (pre' & post' & E' & L' & NE' & NI' & P'). destruct pre' as [|c' pre'].
        -- exfalso. cbn [app] in E'. subst here. rewrite E' in EH. 
           assert (HP : has_prefix (announce ++ b' ++ post') head_branch = true) by (apply has_prefix_iff; eauto).
           rewrite HP in EH. change (skipn (length head_branch) (announce ++ b' ++ post')) with (b' ++ post') in EH.
           rewrite until_nl_app in EH by assumption. congruence.
        -- cbn [app] in E'. injection E' as -> E'. cbn [length] in L'. rewrite <- L'. apply le_n_S.
           apply (MIN (length pre') b'). exists pre', post'. auto.
    + injection H as <-. exists 0%nat. split; [|intros; lia]. subst here.
      destruct (has_prefix (c :: s) head_branch) eqn:HP; [|discriminate].
      apply has_prefix_iff in HP. destruct HP as (t & HP). rewrite HP in *.
      change (skipn (length head_branch) (head_branch ++ t)) with t in EH.
      destruct (until_nl_split t) as (post & E & NI & P). rewrite EH in *.
      exists [], post. cbn [app length]. split; [rewrite announce_eq; f_equal; exact E|].
      split; [reflexivity|]. split; [discriminate|]. auto.
Qed.

Lemma find_branch_none : forall s, find_branch s = None -> forall b, ~ names_branch s b.
Proof.
  intros s H b (n & NM & _). revert n b NM. induction s as [|c s IH]; intros n b (pre & post & E & L & NE & NI & P).
  - destruct pre; discriminate.
  - cbn [find_branch] in H.
    set (here := if has_prefix (c :: s) head_branch then until_nl (skipn (length head_branch) (c :: s)) else []) in H.
    destruct here as [|x y] eqn:EH; [|discriminate].
    destruct pre as [|c' pre].
    + cbn [app] in E. subst here. rewrite E in EH.
      assert (HP : has_prefix (announce ++ b ++ post) head_branch = true) by (apply has_prefix_iff; eauto).
      rewrite HP in EH. change (skipn (length head_branch) (announce ++ b ++ post)) with (b ++ post) in EH.
      rewrite until_nl_app in EH by assumption. congruence.
    + cbn [app] in E. injection E as -> E. apply (IH H (length pre) b). exists pre, post. auto.
Qed.

Theorem target_ref : forall w g dir h, let t := snd (targetRef w g dir h) in
  let output := fst (w_exec w h dir detect_args) in
  (Ref g <> [] -> t = Ref g) /\
  (Ref g = [] -> DetectRef g = true -> forall b, names_branch output b -> t = b) /\
  (Ref g = [] -> DetectRef g = true -> (forall b, ~ names_branch output b) -> t = defaultRef) /\
  (Ref g = [] -> DetectRef g = false -> t = defaultRef).
Proof.
  intros w g dir h. cbv zeta. unfold targetRef, andthen. destruct (Ref g) as [|c s].
  - split; [congruence|]. destruct (DetectRef g).
    + unfold detectRef, andthen. rewrite git_run_eq. unfold ret. cbn [fst snd].
      change [lit "git"%string; lit "remote"%string; lit "show"%string; lit "origin"%string] with detect_args.
      destruct (find_branch (fst (w_exec w h dir detect_args))) as [b0|] eqn:F; cbn [snd].
      * pose proof (find_branch_some _ _ F) as NB0. pose proof NB0 as (n & NA & MIN).
        split; [|split; [|discriminate]].
        -- intros _ _ b (n' & NA' & MIN'). assert (n = n') by (pose proof (MIN _ _ NA'); pose proof (MIN' _ _ NA); lia).
           subst n'. destruct NA as (pre & post & E & L & NE & NI & P). destruct NA' as (pre' & post' & E' & L' & NE' & NI' & P').
           rewrite E in E'. assert (X : pre = pre' /\ announce ++ b0 ++ post = announce ++ b ++ post').
           { apply app_inj_len; [congruence|exact E']. }
           destruct X as (_ & X). apply app_inv_head in X.
           assert (b0 = b) by (rewrite <- (until_nl_app b0 post), X by assumption; apply until_nl_app; assumption).
           subst b0. destruct b; [congruence|reflexivity].
        -- intros _ _ H. exfalso. apply (H b0). exact NB0.
      * split; [intros _ _ b NB; exfalso; apply (find_branch_none _ F b NB)|]. split; [reflexivity|discriminate].
    + unfold ret. cbn [snd]. split; [discriminate|]. split; [discriminate|reflexivity].
  - split; [reflexivity|]. split; [discriminate|]. split; discriminate.
Qed.

(** ** Attributes (C49) *)
Lemma split_nul : forall a r, no_nul a -> split (a ++ 0 :: r) 0 = a :: split r 0.
Proof.
  induction a as [|x a IH]; intros r NI; cbn [app split].
  - rewrite N.eqb_refl. reflexivity.
  - destruct (N.eqb_spec x 0) as [->|NE]; [exfalso; apply NI; left; reflexivity|].
    rewrite IH; [reflexivity|]. intros I. apply NI. right. exact I.
Qed.

Lemma triples_listing : forall es p, Forall entry_ok es ->
  (In p (triples (split (listing es) 0)) <-> says_true es p).
Proof.
  intros es p F. induction F as [|e es (O1 & O2 & O3) F IH]; unfold says_true in *.
  - cbn. tauto.
  - cbn [listing flat_map]. rewrite <- !app_assoc. cbn [app].
    rewrite split_nul by exact O1. rewrite split_nul by exact O2. rewrite split_nul by exact O3.
    fold (listing es). cbn [triples In].
    change (lit "true"%string) with val_true. change autoGeneratedAttribute with generated_attr.
    destruct (str_eqb (e_info e) val_true) eqn:E1; cbn [andb].
    + apply str_eqb_eq in E1. destruct (str_eqb (e_attr e) generated_attr) eqn:E2.
      * apply str_eqb_eq in E2. cbn [In]. rewrite IH. destruct e as [pa at' inf]. cbn [e_path e_attr e_info] in *. subst.
        split; intros [X|X]; auto; left; congruence.
      * apply str_eqb_neq in E2. rewrite IH. split; [auto|]. intros [X|X]; [|exact X]. subst e. cbn in E2. congruence.
    + apply str_eqb_neq in E1. rewrite IH. split; [auto|]. intros [X|X]; [|exact X]. subst e. cbn in E1. congruence.
Qed.

Definition attr_args : list str := Eval vm_compute in
  [lit "git"%string; lit "check-attr"%string; lit "--stdin"%string; lit "-z"%string; autoGeneratedAttribute].
Definition ls_args : list str := Eval vm_compute in [lit "git"%string; lit "ls-files"%string; lit "-z"%string].

Theorem auto_listing : forall w g dir h es out, Forall entry_ok es ->
  w_exec w (h ++ [mkRun dir ls_args (snd (w_exec w h dir ls_args))]) dir attr_args = (out, true) -> out = listing es ->
  forall p, In p (snd (auto_files w (Git g) dir [] h)) <-> says_true es p.
Proof.
  intros w g dir h es out F E -> p. unfold auto_files, AutoGeneratedFiles, git_AutoGeneratedFiles, andthen, exec, ret.
  change [lit "git"%string; lit "ls-files"%string; lit "-z"%string] with ls_args.
  change [lit "git"%string; lit "check-attr"%string; lit "--stdin"%string; lit "-z"%string; autoGeneratedAttribute] with attr_args.
  rewrite E. cbn [fst snd]. apply triples_listing. exact F.
Qed.

Lemma auto_failed : forall w g dir h out, w_exec w (h ++ [mkRun dir ls_args (snd (w_exec w h dir ls_args))]) dir attr_args = (out, false) ->
  snd (auto_files w (Git g) dir [] h) = [].
Proof.
  intros w g dir h out E. unfold auto_files, AutoGeneratedFiles, git_AutoGeneratedFiles, andthen, exec, ret.
  change [lit "git"%string; lit "ls-files"%string; lit "-z"%string] with ls_args.
  change [lit "git"%string; lit "check-attr"%string; lit "--stdin"%string; lit "-z"%string; autoGeneratedAttribute] with attr_args.
  rewrite E. reflexivity.
Qed.
Theorem auto_configured : forall w d dir c h, c <> [] -> snd (auto_files w d dir c h) = c.
Proof. intros w d dir [|x c] h H; [congruence|reflexivity]. Qed.

(** The flag of every file in every search response. *)
Lemma flags : forall fuel o raw auto ix files s s',
  (forall f, In f (s_results s) -> (fm_auto f = true <-> In (fm_name f) auto)) ->
  search_files fuel o raw auto ix s files = Some (inr s') ->
  forall f, In f (s_results s') -> (fm_auto f = true <-> In (fm_name f) auto).
Proof.
  induction files as [|x files IH]; intros s s' H E; cbn [search_files] in E.
  - injection E as <-. exact H.
  - destruct (search_file fuel o raw auto ix s x) as [[[]|s1]|] eqn:E1; cbn [bind] in E; try discriminate.
    eapply IH; [|exact E]. clear IH E. unfold search_file in E1.
    destruct (ix_name ix x) as [name|]; cbn [bind] in E1; [|discriminate].
    destruct (name_match fuel (s_fre s) name) as [[fre fm]|]; cbn [bind] in E1; [|discriminate].
    destruct (match fm with Some e => (e <? 0)%Z | None => false end); [injection E1 as <-; exact H|].
    cbn [s_xre] in E1. destruct (name_match fuel (s_xre s) name) as [[xre xm]|]; cbn [bind] in E1; [|discriminate].
    destruct (match xm with Some e => (0 <? e)%Z | None => false end); [injection E1 as <-; exact H|].
    destruct ((0 <? o_max o)%Z && (o_max o <=? s_mcollected _)%Z)%bool; [injection E1 as <-; exact H|].
    destruct (raw name) as [r|]; [|discriminate].
    destruct (fill_from _ r _) as [[buf data|er]|]; cbn [bind] in E1; try discriminate.
    match type of E1 with bind ?g _ = _ => destruct g as [[re' [[has ms] mc]]|] end; cbn [bind] in E1; [|discriminate].
    destruct (negb has); [injection E1 as <-; exact H|].
    destruct ms as [|m ms]; injection E1 as <-; [exact H|]. cbn [s_results].
    intros f I. apply in_app_or in I. destruct I as [I|[<-|[]]]; [apply H; exact I|].
    cbn [fm_auto fm_name]. apply contains_iff.
Qed.

Theorem search_flags : forall fuel o raw auto rev ix q re fre xre r,
  search fuel o raw auto rev ix q re fre xre = Some (Some r) ->
  forall f, In f (rs_matches r) -> (fm_auto f = true <-> In (fm_name f) auto).
Proof.
  intros fuel o raw auto rev ix q re fre xre r E. unfold search in E.
  destruct (posting_query ix q None) as [files|]; cbn [bind] in E; [|discriminate].
  destruct (search_files _ _ _ _ _ _ _) as [[u|s]|] eqn:E1; cbn [bind] in E; try discriminate.
  injection E as <-. cbn [rs_matches]. eapply flags; [|exact E1]. intros f [].
Qed.
