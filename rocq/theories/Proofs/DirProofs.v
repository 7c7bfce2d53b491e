(** indexAllFiles. *)
From Verif Require Import Model.Base Model.Sparse Model.Writer Model.IndexRun Model.Reader Model.Utf8 Model.Grep Model.Search
  Model.IndexDir Spec.RunSpec Spec.IndexSpec Spec.TreeSpec Proofs.AddProofs Proofs.FillProofs Proofs.IndexProofs.
Local Open Scope N_scope.

Notation entry := (list str * str * node)%type.

Lemma contains_iff : forall l s, contains_string l s = true <-> In s l.
Proof.
  assert (EQ : forall a b, str_eqb a b = true <-> a = b).
  { induction a as [|x a IH]; intros [|y b]; cbn [str_eqb]; split; intros H; try discriminate; try reflexivity.
    - apply andb_true_iff in H. destruct H as [H1 H2]. apply N.eqb_eq in H1. apply IH in H2. congruence.
    - injection H as <- <-. apply andb_true_iff. split; [apply N.eqb_refl|apply IH; reflexivity]. }
  induction l as [|x l IH]; intros s; cbn [contains_string In]; [split; [discriminate|contradiction]|].
  destruct (str_eqb x s) eqn:E.
  - apply EQ in E. split; auto.
  - rewrite IH. split; [auto|]. intros [->|H]; [|assumption]. rewrite (proj2 (EQ s s) eq_refl) in E. discriminate.
Qed.

Definition dotb (opt : iopts) (name : str) : bool :=
  io_dot opt && match name with c :: _ => c =? 46 | [] => false end.
Definition hiddenb (opt : iopts) (name : str) : bool := contains_string (io_special opt) name || dotb opt name.
Lemma dotb_iff : forall opt name, dotb opt name = true <-> dotted opt name.
Proof.
  intros opt name. unfold dotb, dotted. rewrite andb_true_iff. split.
  - intros [A B]. split; [assumption|]. destruct name as [|c r]; [discriminate|]. apply N.eqb_eq in B. subst. eauto.
  - intros [A [r ->]]. auto.
Qed.
Lemma hiddenb_iff : forall opt name, hiddenb opt name = true <-> hidden opt name.
Proof. intros. unfold hiddenb, hidden, special. rewrite orb_true_iff, contains_iff, dotb_iff. reflexivity. Qed.

(** The entries Walk hands to the callback, other than directories. *)
Fixpoint listing (opt : iopts) (name : str) (nd : node) : list entry :=
  match nd with
  | NDir u es =>
      if hiddenb opt name || u then []
      else flat_map (fun e => map (fun t : entry => (fst e :: fst (fst t), snd (fst t), snd t)) (listing opt (fst e) (snd e))) es
  | _ => [([], name, nd)]
  end.

Definition is_dir (nd : node) : Prop := match nd with NDir _ _ => True | _ => False end.

Section Ind.
  Variable P : node -> Prop.
  Hypothesis HF : forall p b, P (NFile p b).
  Hypothesis HI : P NIrregular.
  Hypothesis HG : P NGone.
  Hypothesis HD : forall u es, Forall (fun e => P (snd e)) es -> P (NDir u es).
  Fixpoint node_ind2 (nd : node) : P nd :=
    match nd with
    | NFile p b => HF p b
    | NIrregular => HI
    | NGone => HG
    | NDir u es =>
        HD u es ((fix go (l : list (str * node)) : Forall (fun e => P (snd e)) l :=
                    match l with
                    | [] => Forall_nil _
                    | e :: r => Forall_cons e (node_ind2 (snd e)) (go r)
                    end) es)
    end.
End Ind.

Lemma listing_iff : forall opt nd name cs m x,
  In (cs, m, x) (listing opt name nd) <-> found opt name nd cs m x /\ ~ is_dir x.
Proof.
  intros opt. induction nd as [p b| | |u es IH] using node_ind2; intros name cs m x.
  1-3: cbn [listing In]; split;
    [intros [E|[]]; injection E as <- <- <-; split; [constructor|intros []]
    |intros [F ND]; inversion F; subst; left; reflexivity].
  cbn [listing]. destruct (hiddenb opt name || u) eqn:H.
  - split; [intros []|]. intros [F ND]. inversion F; subst; [exfalso; apply ND; exact I|].
    rewrite orb_false_r in H. apply hiddenb_iff in H. contradiction.
  - apply orb_false_iff in H. destruct H as [H ->].
    assert (NH : ~ hidden opt name) by (rewrite <- hiddenb_iff; congruence).
    rewrite in_flat_map. rewrite Forall_forall in IH. split.
    + intros ([n y] & Ie & It). apply in_map_iff in It. destruct It as ([[cs' m'] x'] & E & It).
      cbn [fst snd] in *. injection E as <- <- <-. apply (IH (n, y) Ie) in It. destruct It as [F ND].
      split; [|assumption]. econstructor; eassumption.
    + intros [F ND]. inversion F as [|? ? n y cs' ? ? _ Ie F']; subst; [exfalso; apply ND; exact I|].
      exists (n, y). split; [assumption|]. apply in_map_iff. exists (cs', m, x). split; [reflexivity|].
      apply (IH (n, y) Ie). auto.
Qed.

Definition paths_of (l : list entry) : list (list str) := map (fun t : entry => fst (fst t)) l.

Lemma listing_nodup : forall opt nd name, good_tree nd -> NoDup (paths_of (listing opt name nd)).
Proof.
  intros opt. induction nd as [p b| | |u es IH] using node_ind2; intros name G;
    try (repeat constructor; intros []; fail).
  cbn [listing]. destruct (hiddenb opt name || u); [constructor|].
  inversion G as [u' es' ND GE| | |]; subst. clear G. induction es as [|[n x] es IHes]; [constructor|].
  cbn [flat_map fst snd]. unfold paths_of. rewrite map_app. inversion IH as [|? ? IHx IHr]; subst. cbn [snd] in IHx.
  inversion ND as [|? ? NI ND']; subst.
  assert (A : NoDup (map (fun t : entry => fst (fst t)) (map (fun t : entry => (n :: fst (fst t), snd (fst t), snd t)) (listing opt n x)))).
  { rewrite map_map. cbn [fst]. rewrite <- (map_map (fun t : entry => fst (fst t)) (cons n)).
    apply FinFun.Injective_map_NoDup; [intros a b E; injection E; auto|]. apply IHx. apply (GE n x). left. reflexivity. }
  assert (B : NoDup (paths_of (flat_map (fun e => map (fun t : entry => (fst e :: fst (fst t), snd (fst t), snd t)) (listing opt (fst e) (snd e))) es))).
  { apply IHes; [assumption|assumption|]. intros n' x' I'. apply (GE n' x'). right. assumption. }
  clear - A B NI. revert A. generalize (listing opt n x). intros L A.
  assert (D : forall p, In p (map (fun t : entry => fst (fst t)) (map (fun t : entry => (n :: fst (fst t), snd (fst t), snd t)) L)) ->
     ~ In p (paths_of (flat_map (fun e => map (fun t : entry => (fst e :: fst (fst t), snd (fst t), snd t)) (listing opt (fst e) (snd e))) es))).
  { intros p H1 H2. rewrite map_map in H1. apply in_map_iff in H1. destruct H1 as (t & <- & _). cbn [fst] in H2.
    unfold paths_of in H2. apply in_map_iff in H2. destruct H2 as (t' & E & H2). apply in_flat_map in H2.
    destruct H2 as (e & Ie & H2). apply in_map_iff in H2. destruct H2 as (t2 & <- & _). cbn [fst] in E. injection E as E _.
    apply NI. rewrite <- E. apply in_map. assumption. }
  revert A D. generalize (map (fun t : entry => fst (fst t)) (map (fun t : entry => (n :: fst (fst t), snd (fst t), snd t)) L)).
  intros l A D. induction l as [|a l IHl]; [exact B|]. cbn [app]. inversion A; subst. constructor.
  - rewrite in_app_iff. intros [X|X]; [contradiction|]. apply (D a); [left; reflexivity|assumption].
  - apply IHl; [assumption|]. intros p Ip. apply D. right. assumption.
Qed.

(** ** Names *)
Lemma join_cons : forall c d r, join_path (c :: d :: r) = c ++ 47 :: join_path (d :: r).
Proof. reflexivity. Qed.
Lemma split_slash : forall a b (x y : str), ~ In 47 a -> ~ In 47 b -> a ++ 47 :: x = b ++ 47 :: y -> a = b /\ x = y.
Proof.
  induction a as [|p a IH]; intros [|q b] x y Ha Hb E; cbn [app] in E.
  - injection E as <-. auto.
  - injection E as <- _. exfalso. apply Hb. left. reflexivity.
  - injection E as -> _. exfalso. apply Ha. left. reflexivity.
  - injection E as <- E. destruct (IH b x y) as [-> ->]; auto.
    + intros I. apply Ha. right. assumption.
    + intros I. apply Hb. right. assumption.
Qed.
Definition good_path (cs : list str) : Prop := Forall (fun c => c <> [] /\ ~ In 47 c) cs.
Lemma join_inj : forall cs ds, cs <> [] -> ds <> [] -> good_path cs -> good_path ds -> join_path cs = join_path ds -> cs = ds.
Proof.
  induction cs as [|c cs IH]; intros [|d ds] N1 N2 G1 G2 E; try contradiction.
  inversion G1 as [|? ? [_ Hc] G1']; subst. inversion G2 as [|? ? [_ Hd] G2']; subst.
  destruct cs as [|c2 cs], ds as [|d2 ds].
  - cbn in E. congruence.
  - rewrite join_cons in E. cbn [join_path] in E. subst c. exfalso. apply Hc. apply in_or_app. right. left. reflexivity.
  - rewrite join_cons in E. cbn [join_path] in E. subst d. exfalso. apply Hd. apply in_or_app. right. left. reflexivity.
  - rewrite !join_cons in E. apply split_slash in E; [|assumption|assumption]. destruct E as [-> E]. f_equal.
    apply IH; try discriminate; assumption.
Qed.
Lemma joined_iff : forall cs s, joined cs s <-> cs <> [] /\ s = join_path cs.
Proof.
  induction cs as [|c cs IH]; intros s.
  - split; [intros H; inversion H|intros [H _]; contradiction].
  - destruct cs as [|d cs].
    + split; [intros H; inversion H as [|? ? ? H']; subst; [split; [discriminate|reflexivity]|inversion H']|].
      intros [_ ->]. constructor.
    + rewrite join_cons. split.
      * intros H. inversion H as [|? ? s' H']; subst. apply IH in H'. destruct H' as [_ ->]. split; [discriminate|reflexivity].
      * intros [_ ->]. constructor. apply IH. split; [discriminate|reflexivity].
Qed.

Lemma found_good : forall opt name nd cs m x, found opt name nd cs m x -> good_tree nd -> good_path cs /\ good_tree x.
Proof.
  induction 1 as [name nd|name es n x cs m y NH Ie F IH]; intros G; [split; [constructor|assumption]|].
  inversion G as [u' es' ND GE| | |]; subst. destruct (GE n x Ie) as (A & B & C). destruct (IH C) as [D E].
  split; [constructor; auto|assumption].
Qed.
Lemma found_fun : forall opt name nd cs m x, found opt name nd cs m x -> good_tree nd ->
  forall m' x', found opt name nd cs m' x' -> m = m' /\ x = x'.
Proof.
  induction 1 as [name nd|name es n x cs m y NH Ie F IH]; intros G m' x' F'; [inversion F'; subst; auto|].
  inversion G as [u' es' ND GE| | |]; subst. inversion F' as [|? ? n' y' ? ? ? _ Ie' F2]; subst.
  assert (x = y').
  { clear - ND Ie Ie'. induction es as [|e es IH]; [contradiction|]. inversion ND as [|? ? NI ND']; subst.
    destruct Ie as [->|Ie], Ie' as [E|Ie']; try congruence; auto.
    - exfalso. apply NI. apply (in_map fst) in Ie'. exact Ie'.
    - subst e. exfalso. apply NI. apply (in_map fst) in Ie. exact Ie. }
  subst y'. apply IH; [apply (GE n x Ie)|assumption].
Qed.

(** ** The walk is the callback on the listing *)
Section Run.
  Variable cap : nat.
  Variable opt : iopts.
  Variable mk_ok cr_ok : str -> bool.

  Fixpoint run (path : list str) (l : list entry) (st : wst) : option wst :=
    match l with
    | [] => Some st
    | (cs, m, x) :: rest =>
        r <- visit cap opt mk_ok cr_ok m (path ++ cs) x st ;;
        match r with WNil st' => run path rest st' | _ => None end
    end.
  Lemma run_app : forall path a b st, run path (a ++ b) st = (st' <- run path a st ;; run path b st').
  Proof.
    intros path. induction a as [|[[cs m] x] a IH]; intros b st; cbn [run app bind]; [reflexivity|].
    destruct (visit cap opt mk_ok cr_ok m (path ++ cs) x st) as [[st'| |]|]; cbn [bind]; auto.
  Qed.
  Lemma run_map : forall n path l st,
    run path (map (fun t : entry => (n :: fst (fst t), snd (fst t), snd t)) l) st = run (path ++ [n]) l st.
  Proof.
    intros n path. induction l as [|[[cs m] x] l IH]; intros st; cbn [run map fst snd]; [reflexivity|].
    rewrite <- app_assoc. cbn [app]. destruct (visit cap opt mk_ok cr_ok m (path ++ n :: cs) x st) as [[st'| |]|]; cbn [bind]; auto.
  Qed.

  Definition reaches (r : wres) (st : wst) : Prop := r = WNil st \/ r = WSkipDir st.

  Lemma visit_dir : forall name path u es st r, visit cap opt mk_ok cr_ok name path (NDir u es) st = Some r ->
    (hiddenb opt name = true /\ r = WSkipDir st) \/ (hiddenb opt name = false /\ (r = WNil st \/ r = WErr)).
  Proof.
    intros name path u es st r. unfold visit, hiddenb, dotb. destruct (contains_string (io_special opt) name).
    - intros H. injection H as <-. left. auto.
    - cbn [orb]. destruct (io_dot opt); cbn [andb bind].
      + destruct name as [|c nm]; [discriminate|]. cbn [bind]. destruct (c =? 46).
        * intros H. injection H as <-. auto.
        * intros H. injection H as <-. right. split; [reflexivity|]. destruct path; auto. destruct (mk_ok _); auto.
      + intros H. injection H as <-. right. split; [reflexivity|]. destruct path; auto. destruct (mk_ok _); auto.
  Qed.
  Lemma visit_leaf : forall name path x st r, ~ is_dir x -> visit cap opt mk_ok cr_ok name path x st = Some r ->
    r = WErr \/ exists st', r = WNil st'.
  Proof.
    intros name path x st r ND. unfold visit. destruct x as [p b| | |u es]; [| |discriminate|exfalso; apply ND; exact I].
    - destruct (contains_string (io_special opt) name); [intros H; injection H as <-; eauto|].
      destruct (if io_dot opt then _ else _) as [[]|]; cbn [bind]; try discriminate; try (intros H; injection H as <-; eauto).
      destruct (is_text_file p) as [[]|]; try (intros H; injection H as <-; eauto).
      unfold add_file. destruct b as [evs|]; [|intros H; injection H as <-; eauto].
      destruct (cr_ok _); [|intros H; injection H as <-; eauto].
      destruct (iw_add cap _ _ evs) as [[why ix']|]; cbn [bind]; [|discriminate]. intros H. injection H as <-. eauto.
    - destruct (contains_string (io_special opt) name); [intros H; injection H as <-; eauto|].
      destruct (if io_dot opt then _ else _) as [[]|]; cbn [bind]; try discriminate; try (intros H; injection H as <-; eauto).
  Qed.

  Lemma walk_run : forall nd name path st r st', walk cap opt mk_ok cr_ok name path nd st = Some r -> reaches r st' ->
    run path (listing opt name nd) st = Some st'.
  Proof.
    assert (LEAF : forall x name path st r st', ~ is_dir x -> visit cap opt mk_ok cr_ok name path x st = Some r -> reaches r st' ->
      run path [([], name, x)] st = Some st').
    { intros x name path st r st' ND V R. cbn [run]. rewrite app_nil_r, V. cbn [bind].
      destruct (visit_leaf _ _ _ _ _ ND V) as [->|(s & ->)].
      - destruct R as [R|R]; discriminate.
      - destruct R as [R|R]; [injection R as ->; reflexivity|discriminate]. }
    induction nd as [p b| | |u es IH] using node_ind2; intros name path st r st' W R.
    - eapply LEAF; [intros []|exact W|exact R].
    - eapply LEAF; [intros []|exact W|exact R].
    - eapply LEAF; [intros []|exact W|exact R].
    - cbn [walk] in W. destruct (visit cap opt mk_ok cr_ok name path (NDir u es) st) as [v|] eqn:V; [|discriminate].
      cbn [bind] in W. cbn [listing]. destruct (visit_dir _ _ _ _ _ _ V) as [[H ->]|[H [->| ->]]].
      + rewrite H. cbn [orb run]. injection W as <-. destruct R as [R|R]; [discriminate|]. injection R as ->. reflexivity.
      + rewrite H. cbn [orb]. destruct u.
        * injection W as <-. destruct R as [R|R]; [injection R as ->; reflexivity|discriminate].
        * clear V H. revert st W. induction es as [|[n x] es IHes]; intros st W.
          -- injection W as <-. destruct R as [R|R]; [injection R as ->; reflexivity|discriminate].
          -- inversion IH as [|? ? IHx IHr]; subst. cbn [snd] in IHx. cbn [flat_map fst snd]. rewrite run_app, run_map.
             destruct (walk cap opt mk_ok cr_ok n (path ++ [n]) x st) as [w|] eqn:Wx; [|discriminate]. cbn [bind] in W.
             destruct w as [s|s|].
             ++ rewrite (IHx _ _ _ _ s Wx (or_introl eq_refl)). cbn [bind]. apply IHes; assumption.
             ++ rewrite (IHx _ _ _ _ s Wx (or_intror eq_refl)). cbn [bind].
                destruct x as [p b| | |u es']; [| | |apply IHes; assumption].
                all: exfalso; cbn [walk] in Wx;
                  match type of Wx with visit _ _ _ _ _ _ ?x _ = _ =>
                    destruct (visit_leaf n (path ++ [n]) x st _ (fun z : is_dir x => z) Wx) as [E|(q & E)]; discriminate end.
             ++ injection W as <-. destruct R as [R|R]; discriminate.
      + injection W as <-. destruct R as [R|R]; discriminate.
  Qed.
End Run.

(** ** What the callback does with the entries *)
Inductive traced (opt : iopts) (path : list str) : list entry -> list (str * list read_ev) -> list (option skip_reason) ->
    list (str * bytes) -> list (str * reason) -> Prop :=
| tr_nil : traced opt path [] [] [] [] []
| tr_special : forall cs m x L F vs R E, special opt m -> traced opt path L F vs R E -> traced opt path ((cs, m, x) :: L) F vs R E
| tr_dot : forall cs m x L F vs R E, ~ special opt m -> dotted opt m -> traced opt path L F vs R E ->
    traced opt path ((cs, m, x) :: L) F vs R ((rel_of (path ++ cs), DotFile) :: E)
| tr_irr : forall cs m L F vs R E, ~ hidden opt m -> traced opt path L F vs R E ->
    traced opt path ((cs, m, NIrregular) :: L) F vs R ((rel_of (path ++ cs), InvalidMode) :: E)
| tr_bin : forall cs m p b L F vs R E, ~ hidden opt m -> is_text_file p = Some false -> traced opt path L F vs R E ->
    traced opt path ((cs, m, NFile p b) :: L) F vs R ((rel_of (path ++ cs), NotText) :: E)
| tr_add : forall cs m p evs v raw L F vs R E E', ~ hidden opt m -> is_text_file p = Some true ->
    (v = None -> ev_ok evs -> raw = ev_content evs) ->
    E' = match v with None => E | Some y => (rel_of (path ++ cs), Rejected y) :: E end ->
    traced opt path L F vs R E ->
    traced opt path ((cs, m, NFile p (Some evs)) :: L) ((rel_of (path ++ cs), evs) :: F) (v :: vs)
      ((rel_of (path ++ cs), raw) :: R) E'.

Lemma scan_bytes_no_fail : forall b st s, scan_bytes st b <> Some (ReadFail s).
Proof.
  induction b as [|c b IH]; intros st s; cbn [scan_bytes]; [discriminate|].
  destruct (scan_byte st c) as [r|] eqn:E; [|discriminate]. cbn [bind].
  destruct r as [st'|r q|q]; [apply IH|discriminate|].
  unfold scan_byte in E. destruct (if 3 <=? _ then _ else _); [|discriminate]. cbn [bind] in E.
  repeat match type of E with context [if ?b then _ else _] => destruct b; try discriminate end.
Qed.
Lemma tee_running : forall evs st st', scan_reads st evs = Some (Running st') -> tee_reads st evs = ev_content evs.
Proof.
  induction evs as [|[b e] evs IH]; intros st st' H; [reflexivity|].
  destruct b as [|c b]; [destruct e; cbn in H |- *; reflexivity|].
  change (scan_reads st ((c :: b, e) :: evs)) with
    (r <- scan_bytes st (c :: b) ;; match r with Running st' => scan_reads st' evs | _ => Some r end) in H.
  change (tee_reads st ((c :: b, e) :: evs)) with
    (match scan_bytes st (c :: b) with Some (Running st') => (c :: b) ++ tee_reads st' evs | _ => c :: b end).
  change (ev_content ((c :: b, e) :: evs)) with ((c :: b) ++ ev_content evs).
  destruct (scan_bytes st (c :: b)) as [[s|r q|q]|]; cbn [bind] in H; try discriminate.
  f_equal. eapply IH. exact H.
Qed.
Lemma tee_accepted : forall cap w name evs w', ev_ok evs -> iw_add cap w name evs = Some (None, w') ->
  tee_reads (scan0 (w_set w)) evs = ev_content evs.
Proof.
  intros cap w name evs w' OK A. unfold iw_add in A.
  destruct (scan_reads (scan0 (w_set w)) evs) as [r|] eqn:SR; [|discriminate]. cbn [bind] in A.
  destruct r as [st'|r q|q].
  - eapply tee_running. exact SR.
  - discriminate.
  - exfalso. rewrite scan_reads_content in SR by assumption. eapply scan_bytes_no_fail. exact SR.
Qed.

Lemma run_traced : forall cap opt mk_ok cr_ok path L st st', run cap opt mk_ok cr_ok path L st = Some st' ->
  Forall (fun t : entry => ~ is_dir (snd t)) L ->
  exists F vs R E, traced opt path L F vs R E /\ run_adds cap (ws_ix st) F = Some (vs, ws_ix st') /\
    ws_raw st' = ws_raw st ++ R /\ ws_excl st' = ws_excl st ++ E.
Proof.
  intros cap opt mk_ok cr_ok path. induction L as [|[[cs m] x] L IH]; intros st st' RN ND.
  - cbn [run] in RN. injection RN as <-. exists [], [], [], []. rewrite !app_nil_r. split; [constructor|]. auto.
  - inversion ND as [|? ? NDx ND']; subst. cbn [snd] in NDx. cbn [run] in RN.
    destruct (visit cap opt mk_ok cr_ok m (path ++ cs) x st) as [v|] eqn:V; [|discriminate]. cbn [bind] in RN.
    destruct v as [s| |]; try discriminate.
    destruct (IH s st' RN ND') as (F & vs & R & E & T & RA & RR & RE). clear IH RN.
    unfold visit in V.
    destruct (contains_string (io_special opt) m) eqn:SP.
    { apply contains_iff in SP. exists F, vs, R, E.
      assert (s = st) by (destruct x; [injection V as <-|injection V as <-|discriminate|exfalso; apply NDx; exact I]; reflexivity).
      subst s. split; [apply tr_special; assumption|]. auto. }
    assert (NS : ~ special opt m) by (unfold special; rewrite <- contains_iff; congruence).
    destruct (dotb opt m) eqn:DT.
    { pose proof (proj1 (dotb_iff _ _) DT) as DD. exists F, vs, R, ((rel_of (path ++ cs), DotFile) :: E).
      unfold dotb in DT. destruct (io_dot opt); [|discriminate]. destruct m as [|c m]; [discriminate|]. cbn [andb] in DT.
      assert (s = exclude st (rel_of (path ++ cs)) DotFile).
      { rewrite DT in V. cbn [bind] in V. destruct x; [injection V as <-|injection V as <-|discriminate|exfalso; apply NDx; exact I]; reflexivity. }
      subst s. split; [apply tr_dot; assumption|]. cbn [exclude ws_ix ws_raw ws_excl] in *. split; [assumption|]. split; [assumption|].
      rewrite RE, <- app_assoc. reflexivity. }
    assert (NH : ~ hidden opt m).
    { unfold hidden. rewrite <- dotb_iff. intros [?|?]; [contradiction|congruence]. }
    assert (V' : match x with
            | NDir _ _ => True
            | NIrregular => s = exclude st (rel_of (path ++ cs)) InvalidMode
            | NFile peek body =>
                match is_text_file peek with
                | None => False
                | Some false => s = exclude st (rel_of (path ++ cs)) NotText
                | Some true => add_file cap cr_ok st (rel_of (path ++ cs)) body = Some (WNil s)
                end
            | NGone => False
            end).
    { assert (B : (if io_dot opt then match m with [] => None | c :: _ => Some (c =? 46) end else Some false) = Some false
                  \/ (if io_dot opt then match m with [] => None | c :: _ => Some (c =? 46) end else Some false) = @None bool).
      { unfold dotb in DT. destruct (io_dot opt); [|auto]. destruct m as [|c m]; [auto|]. cbn [andb] in DT. rewrite DT. auto. }
      destruct B as [B|B]; rewrite B in V; cbn [bind] in V.
      - destruct x as [p b| | |u es]; [|injection V as <-; reflexivity|discriminate|exact I].
        destruct (is_text_file p) as [[]|]; [assumption|injection V as <-; reflexivity|discriminate].
      - destruct x; discriminate. }
    clear V. destruct x as [p b| | |u es]; [| |contradiction|exfalso; apply NDx; exact I].
    + destruct (is_text_file p) as [[]|] eqn:TX; [| |contradiction].
      * unfold add_file in V'. destruct b as [evs|]; [|discriminate]. destruct (cr_ok (rel_of (path ++ cs))); [|discriminate].
        destruct (iw_add cap (ws_ix st) (rel_of (path ++ cs)) evs) as [[why ix']|] eqn:A; [|discriminate]. cbn [bind] in V'.
        injection V' as V'.
        exists ((rel_of (path ++ cs), evs) :: F), (why :: vs), ((rel_of (path ++ cs), tee_reads (scan0 (w_set (ws_ix st))) evs) :: R),
          (match why with None => E | Some y => (rel_of (path ++ cs), Rejected y) :: E end).
        assert (EI : ws_ix s = ix') by (subst s; destruct why; reflexivity).
        split; [|split; [|split]].
        -- eapply tr_add; [assumption|assumption| |reflexivity|assumption]. intros -> OK. eapply tee_accepted; eassumption.
        -- cbn [run_adds]. rewrite A. cbn [bind snd fst]. rewrite <- EI, RA. reflexivity.
        -- rewrite RR. subst s. destruct why; cbn [exclude ws_raw]; rewrite <- app_assoc; reflexivity.
        -- rewrite RE. subst s. destruct why; cbn [exclude ws_excl]; [rewrite <- app_assoc|]; reflexivity.
      * subst s. exists F, vs, R, ((rel_of (path ++ cs), NotText) :: E). cbn [exclude ws_ix ws_raw ws_excl] in *.
        split; [apply tr_bin; assumption|]. split; [assumption|]. split; [assumption|]. rewrite RE, <- app_assoc. reflexivity.
    + subst s. exists F, vs, R, ((rel_of (path ++ cs), InvalidMode) :: E). cbn [exclude ws_ix ws_raw ws_excl] in *.
      split; [apply tr_irr; assumption|]. split; [assumption|]. split; [assumption|]. rewrite RE, <- app_assoc. reflexivity.
Qed.
