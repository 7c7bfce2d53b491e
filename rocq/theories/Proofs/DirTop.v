(** indexAllFiles: the resulting index. *)
From Verif Require Import Model.Base Model.Sparse Model.Writer Model.IndexRun Model.Reader Model.Utf8 Model.Grep Model.Search
  Model.IndexDir Spec.RunSpec Spec.IndexSpec Spec.TreeSpec Spec.Utf8Spec Proofs.AddProofs Proofs.FillProofs Proofs.IndexProofs
  Proofs.Utf8Proofs Proofs.TextProofs Proofs.DirProofs.
Local Open Scope N_scope.

Lemma is_text_file_spec : forall r t, is_text_file (Some r) = Some t -> t = is_text (rd_content r).
Proof.
  intros r t. unfold is_text_file. destruct (read_full r file_peek_size) as [[d e] r'] eqn:E.
  assert (P : (0 < file_peek_size)%nat) by (apply Nat.ltb_lt; reflexivity).
  destruct (read_full_spec r file_peek_size d e r' P E) as (C & O & L & FN & NF). unfold is_text. rewrite C.
  assert (EQ : e <> FOther -> firstn file_peek_size (d ++ rd_content r') = d).
  { intros NE. destruct e.
    - specialize (FN eq_refl). rewrite <- FN, firstn_app, Nat.sub_diag, firstn_all. cbn. apply app_nil_r.
    - destruct NF as (-> & L2 & _); [discriminate|]. rewrite app_nil_r. apply firstn_all2. lia.
    - destruct NF as (-> & L2 & _); [discriminate|]. rewrite app_nil_r. apply firstn_all2. lia.
    - contradiction. }
  destruct e; intros H; try discriminate; injection H as <-; rewrite EQ by discriminate; reflexivity.
Qed.
Lemma not_text_invalid : forall p, is_text_file p = Some false -> exists r, p = Some r /\ ~ valid_utf8 (rd_content r).
Proof.
  intros [r|] H; [|discriminate]. exists r. split; [reflexivity|]. intros V. apply is_text_valid in V.
  apply is_text_file_spec in H. congruence.
Qed.

(** Why a file is listed as excluded. *)
Definition justified (opt : iopts) (m : str) (x : node) (why : reason) : Prop :=
  match why with
  | DotFile => dotted opt m
  | InvalidMode => x = NIrregular
  | NotText => exists r b, x = NFile (Some r) b /\ ~ valid_utf8 (rd_content r)
  | Rejected y => exists p evs, x = NFile p (Some evs) /\ rejected y (ev_content evs)
  end.

Lemma rel_join : forall cs, cs <> [] -> rel_of cs = join_path cs.
Proof. intros [|c cs] H; [contradiction|reflexivity]. Qed.

Lemma traced_docs : forall opt L F vs R E, traced opt [] L F vs R E -> forall docs, kept F vs docs ->
  (forall r c, In (r, c) docs -> exists cs m p evs, In (cs, m, NFile p (Some evs)) L /\ r = rel_of cs /\ ~ hidden opt m /\
     is_text_file p = Some true /\ ev_ok evs /\ c = ev_content evs /\ accepted c /\ In (r, c) R) /\
  (forall r why, In (r, why) E -> exists cs m x, In (cs, m, x) L /\ r = rel_of cs /\ ~ special opt m /\ justified opt m x why) /\
  (forall cs m p b, In (cs, m, NFile p b) L -> ~ special opt m ->
     (exists c, In (rel_of cs, c) docs) \/ (exists why, In (rel_of cs, why) E) \/
     (exists evs, b = Some evs /\ ~ ev_ok evs)) /\
  (forall cs m, In (cs, m, NIrregular) L -> ~ special opt m -> exists why, In (rel_of cs, why) E) /\
  (forall r c, In (r, c) R -> exists t, In t L /\ r = rel_of (fst (fst t))).
Proof.
  induction 1 as [|cs m x L F vs R E SP T IH|cs m x L F vs R E NS DT T IH|cs m L F vs R E NH T IH|cs m p b L F vs R E NH TX T IH
    |cs m p evs v raw L F vs R E E' NH TX RW EE T IH]; intros docs K.
  - inversion K; subst. split; [intros ? ? []|]. split; [intros ? ? []|]. split; [intros ? ? ? ? []|]. split; [intros ? ? []|intros ? ? []].
  - destruct (IH docs K) as (A & B & C & D & G). split; [|split; [|split; [|split]]].
    + intros r c I. destruct (A r c I) as (cs' & m' & p & evs & I' & H). exists cs', m', p, evs. split; [right; exact I'|exact H].
    + intros r w I. destruct (B r w I) as (cs' & m' & x' & I' & H). exists cs', m', x'. split; [right; exact I'|exact H].
    + intros cs' m' p b [Q|I] NS; [injection Q as -> -> ->; contradiction|]. eapply C; eassumption.
    + intros cs' m' [Q|I] NS; [injection Q as -> -> ->; contradiction|]. eapply D; eassumption.
    + intros r c I. destruct (G r c I) as (t & I' & H). exists t. split; [right; exact I'|exact H].
  - destruct (IH docs K) as (A & B & C & D & G). split; [|split; [|split; [|split]]].
    + intros r c I. destruct (A r c I) as (cs' & m' & p & evs & I' & H). exists cs', m', p, evs. split; [right; exact I'|exact H].
    + intros r w [Q|I]; [injection Q as <- <-; exists cs, m, x; split; [left; reflexivity|auto]|].
      destruct (B r w I) as (cs' & m' & x' & I' & H). exists cs', m', x'. split; [right; exact I'|exact H].
    + intros cs' m' p b [Q|I] NS'; [injection Q as -> -> ->; right; left; eexists; left; reflexivity|].
      destruct (C cs' m' p b I NS') as [?|[(w & ?)|?]]; auto. right. left. exists w. right. assumption.
    + intros cs' m' [Q|I] NS'; [injection Q as -> -> ->; eexists; left; reflexivity|].
      destruct (D cs' m' I NS') as (w & ?). exists w. right. assumption.
    + intros r c I. destruct (G r c I) as (t & I' & H). exists t. split; [right; exact I'|exact H].
  - assert (NS : ~ special opt m) by (intros S; apply NH; left; exact S).
    destruct (IH docs K) as (A & B & C & D & G). split; [|split; [|split; [|split]]].
    + intros r c I. destruct (A r c I) as (cs' & m' & p & evs & I' & H). exists cs', m', p, evs. split; [right; exact I'|exact H].
    + intros r w [Q|I]; [injection Q as <- <-; exists cs, m, NIrregular; split; [left; reflexivity|]; cbn; auto|].
      destruct (B r w I) as (cs' & m' & x' & I' & H). exists cs', m', x'. split; [right; exact I'|exact H].
    + intros cs' m' p b [Q|I] NS'; [discriminate|].
      destruct (C cs' m' p b I NS') as [?|[(w & ?)|?]]; auto. right. left. exists w. right. assumption.
    + intros cs' m' [Q|I] NS'; [injection Q as -> ->; eexists; left; reflexivity|].
      destruct (D cs' m' I NS') as (w & ?). exists w. right. assumption.
    + intros r c I. destruct (G r c I) as (t & I' & H). exists t. split; [right; exact I'|exact H].
  - assert (NS : ~ special opt m) by (intros S; apply NH; left; exact S).
    destruct (IH docs K) as (A & B & C & D & G). split; [|split; [|split; [|split]]].
    + intros r c I. destruct (A r c I) as (cs' & m' & p' & evs & I' & H). exists cs', m', p', evs. split; [right; exact I'|exact H].
    + intros r w [Q|I].
      * injection Q as <- <-. exists cs, m, (NFile p b). split; [left; reflexivity|]. split; [reflexivity|]. split; [assumption|].
        destruct (not_text_invalid p TX) as (rd & -> & NV). cbn [justified]. exists rd, b. auto.
      * destruct (B r w I) as (cs' & m' & x' & I' & H). exists cs', m', x'. split; [right; exact I'|exact H].
    + intros cs' m' p' b' [Q|I] NS'; [injection Q as -> -> -> ->; right; left; eexists; left; reflexivity|].
      destruct (C cs' m' p' b' I NS') as [?|[(w & ?)|?]]; auto. right. left. exists w. right. assumption.
    + intros cs' m' [Q|I] NS'; [discriminate|]. destruct (D cs' m' I NS') as (w & ?). exists w. right. assumption.
    + intros r c I. destruct (G r c I) as (t & I' & H). exists t. split; [right; exact I'|exact H].
  - assert (NS : ~ special opt m) by (intros S; apply NH; left; exact S). cbn [app] in *.
    inversion K as [|n' e' F' vs' docs' OK AC K'|n' e' why' F' vs' docs' RJ K'|n' e' F' vs' docs' NOK K']; subst.
    + destruct (IH docs' K') as (A & B & C & D & G). split; [|split; [|split; [|split]]].
      * intros r c [Q|I].
        -- injection Q as <- <-. exists cs, m, p, evs. split; [left; reflexivity|]. split; [reflexivity|]. split; [assumption|].
           split; [assumption|]. split; [assumption|]. split; [reflexivity|]. split; [assumption|]. left. f_equal. apply RW; auto.
        -- destruct (A r c I) as (cs' & m' & p' & evs' & I' & H1 & H2 & H3 & H4 & H5 & H6 & H7). exists cs', m', p', evs'.
           split; [right; exact I'|]. repeat (split; [assumption|]). right. assumption.
      * intros r w I. destruct (B r w I) as (cs' & m' & x' & I' & H). exists cs', m', x'. split; [right; exact I'|exact H].
      * intros cs' m' p' b' [Q|I] NS'; [injection Q as <- <- <- <-; left; eexists; left; reflexivity|].
        destruct (C cs' m' p' b' I NS') as [(c & ?)|[(w & ?)|?]]; auto; [left; exists c; right; assumption|]. right. left. exists w. assumption.
      * intros cs' m' [Q|I] NS'; [discriminate|]. eapply D; eassumption.
      * intros r c [Q|I]; [injection Q as <- <-; eexists; split; [left; reflexivity|reflexivity]|].
        destruct (G r c I) as (t & I' & H). exists t. split; [right; exact I'|exact H].
    + destruct (IH docs K') as (A & B & C & D & G). split; [|split; [|split; [|split]]].
      * intros r c I. destruct (A r c I) as (cs' & m' & p' & evs' & I' & H1 & H2 & H3 & H4 & H5 & H6 & H7). exists cs', m', p', evs'.
           split; [right; exact I'|]. repeat (split; [assumption|]). right. assumption.
      * intros r w [Q|I].
        -- injection Q as <- <-. exists cs, m, (NFile p (Some evs)). split; [left; reflexivity|]. split; [reflexivity|].
           split; [assumption|]. cbn [justified]. exists p, evs. auto.
        -- destruct (B r w I) as (cs' & m' & x' & I' & H). exists cs', m', x'. split; [right; exact I'|exact H].
      * intros cs' m' p' b' [Q|I] NS'; [injection Q as <- <- <- <-; right; left; eexists; left; reflexivity|].
        destruct (C cs' m' p' b' I NS') as [(c & ?)|[(w & ?)|?]]; auto; [left; exists c; assumption|]. right. left. exists w. right. assumption.
      * intros cs' m' [Q|I] NS'; [discriminate|]. destruct (D cs' m' I NS') as (w & ?). exists w. right. assumption.
      * intros r c [Q|I]; [injection Q as <- <-; eexists; split; [left; reflexivity|reflexivity]|].
        destruct (G r c I) as (t & I' & H). exists t. split; [right; exact I'|exact H].
    + destruct (IH docs K') as (A & B & C & D & G). split; [|split; [|split; [|split]]].
      * intros r c I. destruct (A r c I) as (cs' & m' & p' & evs' & I' & H1 & H2 & H3 & H4 & H5 & H6 & H7). exists cs', m', p', evs'.
           split; [right; exact I'|]. repeat (split; [assumption|]). right. assumption.
      * intros r w I. destruct (B r w I) as (cs' & m' & x' & I' & H). exists cs', m', x'. split; [right; exact I'|exact H].
      * intros cs' m' p' b' [Q|I] NS'; [injection Q as <- <- <- <-; right; right; exists evs; auto|].
        destruct (C cs' m' p' b' I NS') as [(c & ?)|[(w & ?)|?]]; auto; [left; exists c; assumption|]. right. left. exists w. assumption.
      * intros cs' m' [Q|I] NS'; [discriminate|]. eapply D; eassumption.
      * intros r c [Q|I]; [injection Q as <- <-; eexists; split; [left; reflexivity|reflexivity]|].
        destruct (G r c I) as (t & I' & H). exists t. split; [right; exact I'|exact H].
Qed.

(** Every entry contributes at most one name to index and list together, at most one to raw. *)
Lemma traced_nodup : forall opt L F vs R E, traced opt [] L F vs R E -> forall docs, kept F vs docs ->
  NoDup (map (fun t : entry => rel_of (fst (fst t))) L) ->
  NoDup (map fst docs ++ map fst E) /\ NoDup (map fst R).
Proof.
  assert (SUB : forall opt L F vs R E, traced opt [] L F vs R E -> forall docs, kept F vs docs ->
    forall r, In r (map fst docs) \/ In r (map fst E) \/ In r (map fst R) -> In r (map (fun t : entry => rel_of (fst (fst t))) L)).
  { intros opt L F vs R E T docs K r H. destruct (traced_docs _ _ _ _ _ _ T docs K) as (A & B & _ & _ & G). apply in_map_iff.
    destruct H as [H|[H|H]]; apply in_map_iff in H; destruct H as ([r' c] & <- & I); cbn [fst].
    - destruct (A _ _ I) as (cs & m & p & evs & I' & -> & _). eexists. split; [|exact I']. reflexivity.
    - destruct (B _ _ I) as (cs & m & x & I' & -> & _). eexists. split; [|exact I']. reflexivity.
    - destruct (G _ _ I) as (t & I' & ->). eexists. split; [|exact I']. reflexivity. }
  assert (MID : forall (a b : list str) x, NoDup (a ++ b) -> ~ In x a -> ~ In x b -> NoDup (a ++ x :: b)).
  { intros a b x N1 N2 N3. apply NoDup_Add with (a := x) (l := a ++ b); [apply Add_app|]. split; [assumption|].
    rewrite in_app_iff. tauto. }
  induction 1 as [|cs m x L F vs R E SP T IH|cs m x L F vs R E NS DT T IH|cs m L F vs R E NH T IH|cs m p b L F vs R E NH TX T IH
    |cs m p evs v raw L F vs R E E' NH TX RW EE T IH]; intros docs K ND.
  - inversion K; subst. split; constructor.
  - inversion ND; subst. apply IH; assumption.
  - inversion ND as [|? ? NI ND']; subst. cbn [fst snd app map] in *. destruct (IH docs K ND') as [A B]. split; [|assumption].
    apply MID; [assumption| |]; intros I; apply NI; eapply SUB; eauto.
  - inversion ND as [|? ? NI ND']; subst. cbn [fst snd app map] in *. destruct (IH docs K ND') as [A B]. split; [|assumption].
    apply MID; [assumption| |]; intros I; apply NI; eapply SUB; eauto.
  - inversion ND as [|? ? NI ND']; subst. cbn [fst snd app map] in *. destruct (IH docs K ND') as [A B]. split; [|assumption].
    apply MID; [assumption| |]; intros I; apply NI; eapply SUB; eauto.
  - inversion ND as [|? ? NI ND']; subst. cbn [fst snd app map] in *.
    inversion K as [|n' e' F' vs' docs' OK AC K'|n' e' why' F' vs' docs' RJ K'|n' e' F' vs' docs' NOK K']; subst.
    + destruct (IH docs' K' ND') as [A B]. cbn [map fst app]. split.
      * constructor; [|assumption]. rewrite in_app_iff. intros [I|I]; apply NI; eapply SUB; eauto.
      * constructor; [|assumption]. intros I; apply NI; eapply SUB; eauto.
    + destruct (IH docs K' ND') as [A B]. cbn [map fst]. split.
      * apply MID; [assumption| |]; intros I; apply NI; eapply SUB; eauto.
      * constructor; [|assumption]. intros I; apply NI; eapply SUB; eauto.
    + destruct (IH docs K' ND') as [A B]. cbn [map fst]. split; [assumption|].
      constructor; [|assumption]. intros I; apply NI; eapply SUB; eauto.
Qed.

Lemma traced_files_ok : forall opt L F vs R E, traced opt [] L F vs R E ->
  (forall t, In t L -> good_tree (snd t)) -> files_ok F.
Proof.
  induction 1 as [| | | | |cs m p evs v raw L F vs R E E' NH TX RW EE T IH]; intros G;
    try (constructor; fail); try (apply IHtraced; intros t It; apply G; right; exact It).
  constructor; [|apply IH; intros t It; apply G; right; exact It].
  assert (X : good_tree (NFile p (Some evs))) by (apply (G (cs, m, NFile p (Some evs))); left; reflexivity).
  inversion X; subst. cbn [snd]. auto.
Qed.

Lemma map_inj_nodup : forall {A B} (f : A -> B) l, (forall a b, In a l -> In b l -> f a = f b -> a = b) -> NoDup l -> NoDup (map f l).
Proof.
  intros A B f. induction l as [|x l IH]; intros INJ ND; [constructor|]. inversion ND; subst. cbn [map]. constructor.
  - intros I. apply in_map_iff in I. destruct I as (y & E & Iy).
    rewrite (INJ y x) in Iy; [contradiction|right; assumption|left; reflexivity|assumption].
  - apply IH; [|assumption]. intros a b Ia Ib. apply INJ; right; assumption.
Qed.

(** The main result. *)
Theorem index_tree : forall cap opt mk_ok cr_ok json_ok mem rname u es b raw excl, (1 <= cap)%nat -> good_tree (NDir u es) ->
  index_all_files cap opt mk_ok cr_ok json_ok mem rname (NDir u es) = Some (Some (b, raw, excl)) ->
  exists files vs docs, build_index cap mem [] files = Some (vs, b) /\ files_ok files /\ kept files vs docs /\
    NoDup (map fst docs ++ map fst excl) /\ NoDup (map fst raw) /\
    (forall name c, In (name, c) docs -> In (name, c) raw /\
       exists cs m p evs, found opt rname (NDir u es) cs m (NFile (Some p) (Some evs)) /\ joined cs name /\ ~ hidden opt m /\
         is_text (rd_content p) = true /\ ev_ok evs /\ c = ev_content evs /\ accepted c) /\
    (forall name why, In (name, why) excl ->
       exists cs m x, found opt rname (NDir u es) cs m x /\ joined cs name /\ ~ special opt m /\ justified opt m x why) /\
    (forall cs m p body name, found opt rname (NDir u es) cs m (NFile p body) -> joined cs name -> ~ special opt m ->
       (exists c, In (name, c) docs) \/ (exists why, In (name, why) excl) \/
       (exists evs, body = Some evs /\ ~ ev_ok evs)) /\
    (forall cs m name, found opt rname (NDir u es) cs m NIrregular -> joined cs name -> ~ special opt m ->
       exists why, In (name, why) excl).
Proof.
  intros cap opt mk_ok cr_ok json_ok mem rname u es b raw excl C G H. unfold index_all_files in H.
  destruct (walk cap opt mk_ok cr_ok rname [] (NDir u es) (mkW (iw_create mem) [] [])) as [r|] eqn:W; [|discriminate].
  cbn [bind] in H.
  assert (EX : exists st, reaches r st /\ iw_flush (ws_ix st) = Some b /\ ws_raw st = raw /\ ws_excl st = excl).
  { destruct r as [st|st|]; [| |discriminate]; (destruct json_ok; [|discriminate]);
      (destruct (iw_flush (ws_ix st)) as [b'|] eqn:Fl; [|discriminate]); injection H as <- <- <-; exists st;
      (split; [unfold reaches; auto|auto]). }
  destruct EX as (st & RC & Fl & <- & <-). clear H.
  pose proof (walk_run _ _ _ _ _ _ _ _ _ _ W RC) as RN.
  assert (LI : forall cs m x, In (cs, m, x) (listing opt rname (NDir u es)) <-> found opt rname (NDir u es) cs m x /\ ~ is_dir x)
    by (intros; apply listing_iff).
  destruct (run_traced _ _ _ _ _ _ _ _ RN) as (F & vs & R & E & T & RA & RR & RE).
  { apply Forall_forall. intros [[cs m] x] It. apply LI in It. apply It. }
  cbn [ws_ix ws_raw ws_excl app] in RA, RR, RE.
  assert (GL : forall t, In t (listing opt rname (NDir u es)) -> good_path (fst (fst t)) /\ good_tree (snd t) /\ fst (fst t) <> []).
  { intros [[cs m] x] It. apply LI in It. destruct It as [Fo ND]. destruct (found_good _ _ _ _ _ _ Fo G) as [A B].
    split; [exact A|]. split; [exact B|]. cbn [fst]. intros ->. inversion Fo; subst. apply ND. exact I. }
  assert (FO : files_ok F) by (eapply traced_files_ok; [exact T|intros t It; apply GL; exact It]).
  assert (BI : build_index cap mem [] F = Some (vs, b)).
  { unfold build_index. change (add_paths (iw_create mem) []) with (iw_create mem). rewrite RA. cbn [bind snd fst].
    rewrite Fl. reflexivity. }
  destruct (names_roundtrip cap mem [] F vs b C FO (Forall_nil _) BI) as (docs & ix & K & _).
  exists F, vs, docs. split; [assumption|]. split; [assumption|]. split; [assumption|].
  destruct (traced_docs _ _ _ _ _ _ T docs K) as (A & B & CC & D & _).
  assert (ND : NoDup (map (fun t : entry => rel_of (fst (fst t))) (listing opt rname (NDir u es)))).
  { rewrite <- (map_map (fun t : entry => fst (fst t)) rel_of). apply map_inj_nodup; [|apply listing_nodup; exact G].
    intros a b' Ia Ib. apply in_map_iff in Ia. apply in_map_iff in Ib. destruct Ia as (ta & <- & Ia). destruct Ib as (tb & <- & Ib).
    destruct (GL ta Ia) as (PA & _ & NA). destruct (GL tb Ib) as (PB & _ & NB). rewrite !rel_join by assumption.
    apply join_inj; assumption. }
  destruct (traced_nodup _ _ _ _ _ _ T docs K ND) as [N1 N2]. rewrite RR, RE.
  assert (JN : forall cs m x, In (cs, m, x) (listing opt rname (NDir u es)) -> joined cs (rel_of cs)).
  { intros cs m x It. destruct (GL _ It) as (_ & _ & NA). cbn [fst] in NA. apply joined_iff. split; [assumption|].
    apply rel_join. assumption. }
  split; [assumption|]. split; [assumption|]. split; [|split; [|split]].
  - intros name c Id. destruct (A name c Id) as (cs & m & p & evs & It & -> & NH & TX & OK & -> & AC & IR). split; [assumption|].
    destruct p as [p|]; [|discriminate]. exists cs, m, p, evs. split; [apply LI; exact It|]. split; [eapply JN; exact It|].
    split; [assumption|]. split; [symmetry; apply is_text_file_spec; exact TX|]. auto.
  - intros name why Ie. destruct (B name why Ie) as (cs & m & x & It & -> & NS & J). exists cs, m, x.
    split; [apply LI; exact It|]. split; [eapply JN; exact It|]. auto.
  - intros cs m p body name Fo J NS. apply joined_iff in J. destruct J as [NE ->]. rewrite <- rel_join by assumption.
    eapply CC; [|exact NS]. apply LI. split; [exact Fo|intros []].
  - intros cs m name Fo J NS. apply joined_iff in J. destruct J as [NE ->]. rewrite <- rel_join by assumption.
    eapply D; [|exact NS]. apply LI. split; [exact Fo|intros []].
Qed.
