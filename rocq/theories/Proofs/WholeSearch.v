(** A search with all options the client uses, in terms of the expressions. *)
From Verif Require Import Model.Base Model.Writer Model.IndexRun Model.Query Model.Reader Model.Syntax
  Model.Matcher Model.Utf Model.Grep Model.Search Spec.IndexSpec Spec.RunSpec Spec.QuerySpec Spec.Utf8Spec Spec.RegexSpec
  Spec.MatchSpec Spec.RuneProgSpec Spec.ExprSpec Spec.GrepSpec Spec.SearchSpec Spec.WholeSpec Proofs.SplitProofs Proofs.GrepProofs Proofs.GrepPos
  Proofs.GrepTop Proofs.MatchTop Proofs.FillProofs Proofs.SearchProofs Proofs.SearchTop Proofs.LookupProofs Proofs.IndexProofs
  Proofs.UtfTop Proofs.EndToEnd Proofs.ExprLines Proofs.ExprSearch Proofs.ListLemmas.
From Coq Require Import Sorted Lia.
Local Open Scope N_scope.

(** ** The lines of a UTF-8 text *)
Lemma utf8_no_newline : forall r bs, utf8 r bs -> bs = [10] \/ ~ In 10 bs.
Proof.
  intros r bs U. destruct U; subst; cbn [In].
  - destruct (N.eq_dec r 10) as [->|N]; [left; reflexivity|right; intros [X|[]]; congruence].
  - right. intros [X|[X|[]]]; lia.
  - right. intros [X|[X|[X|[]]]]; lia.
  - right. intros [X|[X|[X|[X|[]]]]]; lia.
Qed.
Lemma split_nl_app : forall bs t, ~ In 10 bs -> exists l ls, split_nl t = l :: ls /\ split_nl (bs ++ t) = (bs ++ l) :: ls.
Proof.
  induction bs as [|c bs IH]; intros t H.
  - destruct (split_nl t) as [|l ls] eqn:E; [exfalso; exact (split_nl_nonempty t E)|]. exists l, ls. split; [reflexivity|exact E].
  - destruct (IH t) as (l & ls & E & E'); [intros X; apply H; right; exact X|]. exists l, ls. split; [exact E|].
    cbn [app split_nl]. rewrite (proj2 (N.eqb_neq c 10)) by (intros ->; apply H; left; reflexivity). rewrite E'. reflexivity.
Qed.
Lemma valid_pieces : forall text, valid_utf8 text -> Forall valid_utf8 (split_nl text).
Proof.
  intros text (cs & -> & F). induction F as [|bs cs (r & U) F IH]; cbn [concat].
  - constructor; [|constructor]. exists []. split; [reflexivity|constructor].
  - destruct (utf8_no_newline r bs U) as [->|NI].
    + change ([10] ++ concat cs) with (10 :: concat cs). cbn [split_nl]. rewrite N.eqb_refl. constructor; [|exact IH].
      exists []. split; [reflexivity|constructor].
    + destruct (split_nl_app bs (concat cs) NI) as (l & ls & E & ->). rewrite E in IH.
      constructor; [|exact (Forall_inv_tail IH)]. destruct (Forall_inv IH) as (cs' & -> & F').
      exists (bs :: cs'). split; [reflexivity|]. constructor; [exists r; exact U|exact F'].
Qed.
Lemma piece_valid : forall text pieces k line, valid_utf8 text -> splits text pieces -> nth_error pieces k = Some line -> valid_utf8 line.
Proof.
  intros text pieces k line V SP E. apply splits_iff in SP. subst pieces. pose proof (valid_pieces text V) as F.
  rewrite Forall_forall in F. apply F. eapply nth_error_In, E.
Qed.
Lemma lines_pieces : forall text lines, file_lines text lines ->
  forall k t, nth_error lines k = Some t -> nth_error (split_nl text) k = Some t.
Proof.
  intros text lines (pieces & SP & FL) k t E. apply splits_iff in SP. subst pieces. destruct FL as [FL|(FL & _)].
  - rewrite FL, nth_error_app1; [exact E|]. apply nth_error_Some. congruence.
  - rewrite FL. exact E.
Qed.
Lemma lines_length : forall text lines, file_lines text lines -> (length lines <= S (length text))%nat.
Proof.
  intros text lines (pieces & SP & FL). apply splits_iff in SP.
  assert (forall t, length (split_nl t) <= S (length t))%nat as G.
  { induction t as [|c t IH]; [cbn; lia|]. cbn [split_nl]. destruct (c =? 10); cbn [length]; [lia|].
    destruct (split_nl t); cbn [length] in *; lia. }
  specialize (G text). rewrite <- SP in G. destruct FL as [->|(-> & _)]; [rewrite app_length in G; cbn [length] in G; lia|exact G].
Qed.

(** ** Names *)
(** A filter and what it was compiled to. *)
Definition filter_compiled (fuel : nat) (sf : N -> N) (om : nat) (fe : option regexp) (fp : option prog) (m : option matcher) : Prop :=
  match fe, fp, m with
  | None, None, None => True
  | Some fe, Some fp, Some m => (exists grow P q, compiled grow sf om fe P q fp) /\ depth_ok fuel fp /\ used fuel fp m
  | _, _, _ => False
  end.
Lemma filter_compiled_ok : forall fuel sf om fe fp m, filter_compiled fuel sf om fe fp m -> filter_ok fuel fp m.
Proof.
  intros fuel sf om fe fp m H. destruct fe, fp, m; try contradiction; [|exact I].
  destruct H as ((grow & P & q & C) & D & U). split; [|split; assumption]. apply (compiled_wf _ _ _ _ _ _ _ C).
Qed.
Lemma name_passes : forall fuel sf om fe fp m name, filter_compiled fuel sf om fe fp m -> valid_utf8 name ->
  (included fuel fp name = true <-> match fe with None => True | Some fe => exists k, expr_on_line sf fe name k end).
Proof.
  intros fuel sf om fe fp m name H V. destruct fe as [fe|], fp as [fp|], m as [m|]; try contradiction; [|cbn; tauto].
  destruct H as ((grow & P & q & C) & D & U). destruct (compiled_wf _ _ _ _ _ _ _ C) as (WF & _ & _ & FW & BW & _).
  rewrite (included_spec fuel fp name WF D). unfold name_hit.
  assert (forall k, line_matches (line_match fp) name k <-> expr_on_line sf fe name k) as G.
  { intros k. rewrite expr_lines. split; intros (pieces & line & SP & Nk & M); exists pieces, line; (split; [exact SP|]); (split; [exact Nk|]).
    - apply BW; [destruct SP as (_ & F & _); rewrite Forall_forall in F; apply F; eapply nth_error_In, Nk| |exact M].
      apply valid_no_surrogates. eapply piece_valid; eassumption.
    - apply FW; [destruct SP as (_ & F & _); rewrite Forall_forall in F; apply F; eapply nth_error_In, Nk|exact M]. }
  split; intros (k & X); exists k; apply G; exact X.
Qed.

(** ** One repository *)
(** An index that was built from files of which [docs] were kept, and their copies. *)
Definition stocked (ix : index) (raw : str -> option reader) (docs : list doc) : Prop :=
  exists cap mem files vs b, (1 <= cap)%nat /\ files_ok files /\ build_index cap mem [] files = Some (vs, b) /\
    kept files vs docs /\ ix_open b = Some ix /\ raw_ok raw docs.

(** At most [n - 1] lines are to be found. *)
Definition few sf ex fe (docs : list doc) (n : Z) : Prop :=
  forall l : list (str * nat), NoDup l ->
    (forall name k, In (name, k) l -> exists text lines, In (name, text) docs /\ wanted sf ex fe (name, text) /\
       file_lines text lines /\ (k < length lines)%nat /\ expr_on_line sf ex text k) ->
    (Z.of_nat (length l) < n)%Z.

Section Repo.
  Context (grow : nat -> nat -> nat) (sf : N -> N) (om : nat) (ex : regexp) (P : xprog) (q : query) (p : prog)
    (fuel nctx : nat) (fe : option regexp) (fp : option prog) (re : matcher) (fre : option matcher).
  Hypothesis CO : compiled grow sf om ex P q p.
  Hypothesis NS : no_text_start ex.
  Hypothesis NE : ends_well sf ex.
  Hypothesis D : depth_ok fuel p.
  Hypothesis U : used fuel p re.
  Hypothesis FC : filter_compiled fuel sf om fe fp fre.

  Definition keep (d : doc) : bool :=
    included fuel fp (fst d) && match hits_of fuel nctx p (snd d) with [] => false | _ => true end.

  Lemma hits_lines : forall (d : doc) lines, valid_utf8 (snd d) -> file_lines (snd d) lines ->
    (forall h, In h (hits_of fuel nctx p (snd d)) -> (1 <= h_no h <= length lines)%nat) /\
    forall k, (k < length lines)%nat ->
      (expr_on_line sf ex (snd d) k <-> exists h, In h (hits_of fuel nctx p (snd d)) /\ h_no h = S k).
  Proof.
    intros d lines V FL. destruct (compiled_wf _ _ _ _ _ _ _ CO) as (WF & _).
    destruct (hits_find _ _ _ _ _ _ _ fuel nctx d CO NS NE WF D) as (SS & HF). destruct (HF lines FL) as (A & B).
    assert (POS : forall h, In h (hits_of fuel nctx p (snd d)) -> h_no h <> 0%nat).
    { intros h I. destruct (grep_text_scan fuel p nctx (snd d) WF D) as (SC & _). destruct (scan_pos _ _ _ _ _ SC) as (B0 & _).
      rewrite Forall_forall in B0. specialize (B0 h I). cbv beta in B0. lia. }
    split.
    - intros h I. pose proof (POS h I). destruct (A (h_no h - 1)%nat (h_line h)) as (X & _).
      { exists h. split; [exact I|]. split; [lia|reflexivity]. }
      assert (h_no h - 1 < length lines)%nat by (apply nth_error_Some; congruence). lia.
    - intros k L. split.
      + intros M. destruct (nth_error lines k) as [line|] eqn:E; [|apply nth_error_None in E; lia].
        destruct (B k line E M) as (h & I & Eh & _). eauto.
      + intros (h & I & E). destruct (A k (h_line h)) as (X & Y); [exists h; auto|]. apply Y.
        apply valid_no_surrogates. eapply piece_valid; [exact V|apply splits_iff; reflexivity|]. eapply lines_pieces; eassumption.
  Qed.

  Lemma keep_spec : forall d : doc, valid_utf8 (fst d) -> valid_utf8 (snd d) -> (keep d = true <-> wanted sf ex fe d).
  Proof.
    intros d V1 V2. unfold keep, wanted. rewrite andb_true_iff, (name_passes _ _ _ _ _ _ _ FC V1).
    destruct (file_lines_total (snd d)) as (lines & FL & FU). destruct (hits_lines d lines V2 FL) as (R & H).
    split; intros (A & B); (split; [exact A|]).
    - exists lines. destruct (hits_of fuel nctx p (snd d)) as [|h hs] eqn:E; [discriminate|].
      pose proof (R h (or_introl eq_refl)). exists (h_no h - 1)%nat. split; [exact FL|]. split; [lia|].
      apply H; [lia|]. exists h. split; [left; reflexivity|lia].
    - destruct B as (lines' & k & FL' & L & M). assert (lines' = lines) as -> by (apply FU, FL').
      apply H in M; [|exact L]. destruct M as (h & I & _). destruct (hits_of fuel nctx p (snd d)); [destruct I|reflexivity].
  Qed.

  Lemma filter_filter : forall {A} (f g : A -> bool) l, filter f (filter g l) = filter (fun x => g x && f x)%bool l.
  Proof. intros A f g. induction l as [|x l IH]; [reflexivity|]. cbn [filter]. destruct (g x); cbn [filter andb]; rewrite IH; reflexivity. Qed.

  Lemma found_few : forall (docs : list doc) (auto : list str) n,
    NoDup (map fst docs) -> Forall (fun d => valid_utf8 (fst d) /\ valid_utf8 (snd d)) docs -> few sf ex fe docs n ->
    (Z.of_nat (length (flat (map (doc_entry fuel nctx p auto) (filter keep docs)))) < n)%Z.
  Proof.
    intros docs auto n ND V F. destruct (compiled_wf _ _ _ _ _ _ _ CO) as (WF & _).
    specialize (F (map (fun x => (fst x, (h_no (snd x) - 1)%nat)) (flat (map (doc_entry fuel nctx p auto) (filter keep docs))))).
    rewrite map_length in F. apply F; clear F.
    - assert (forall l, incl l docs -> NoDup (map fst l) ->
        NoDup (map (fun x : str * hit => (fst x, (h_no (snd x) - 1)%nat)) (flat (map (doc_entry fuel nctx p auto) l)))) as G.
      { induction l as [|d l IH]; intros IN NDl; [constructor|].
        assert (Ed : flat (map (doc_entry fuel nctx p auto) (d :: l)) =
                  map (fun h => (fst d, h)) (hits_of fuel nctx p (snd d)) ++ flat (map (doc_entry fuel nctx p auto) l)) by reflexivity.
        rewrite Ed, map_app, map_map. cbn [fst snd]. cbn [map] in NDl. inversion NDl as [|? ? N1 N2]; subst.
        assert (Vd : valid_utf8 (snd d)) by (rewrite Forall_forall in V; apply V, IN; left; reflexivity).
        apply NoDup_app_intro.
        - destruct (file_lines_total (snd d)) as (lines & FL & _). destruct (hits_lines d lines Vd FL) as (R & _).
          destruct (hits_find _ _ _ _ _ _ _ fuel nctx d CO NS NE WF D) as (SS & _).
          clear - R SS. induction (hits_of fuel nctx p (snd d)) as [|h hs IH]; [constructor|]. cbn [map] in *.
          inversion SS as [|? ? S1 S2]; subst. constructor; [|apply IH; [intros h' I; apply R; right; exact I|exact S1]].
          intros X. apply in_map_iff in X. destruct X as (h' & E & I). rewrite Forall_forall in S2.
          specialize (S2 (h_no h') (in_map _ _ _ I)). pose proof (R h (or_introl eq_refl)). pose proof (R h' (or_intror I)).
          assert (h_no h' - 1 = h_no h - 1)%nat by congruence. lia.
        - apply IH; [intros x I; apply IN; right; exact I|exact N2].
        - intros [nm k] I1 I2. apply in_map_iff in I1. destruct I1 as (h & E1 & _). apply in_map_iff in I2. destruct I2 as ((nm' & h') & E2 & I2).
          cbn [fst snd] in *. apply N1. replace (fst d) with nm' by congruence.
          unfold flat in I2. apply in_concat in I2. destruct I2 as (y & Iy & I2). apply in_map_iff in Iy. destruct Iy as (f & <- & If).
          apply in_map_iff in If. destruct If as (d' & <- & Id'). apply in_map_iff in I2. destruct I2 as (h2 & E3 & _).
          cbn [doc_entry fm_name] in E3. assert (nm' = fst d') as -> by congruence. apply in_map. exact Id'. }
      apply G; [intros x I; apply filter_In in I; apply I|]. clear - ND.
      induction docs as [|d docs IH]; [constructor|]. cbn [map filter] in *. inversion ND as [|? ? N1 N2]; subst.
      destruct (keep d); [|apply IH; exact N2]. cbn [map]. constructor; [|apply IH; exact N2].
      intros X. apply N1. apply in_map_iff in X. destruct X as (d' & E & I). apply filter_In in I. rewrite <- E. apply in_map. apply I.
    - intros name k I. apply in_map_iff in I. destruct I as ((nm & h) & E & I). cbn [fst snd] in E.
      unfold flat in I. apply in_concat in I. destruct I as (y & Iy & I). apply in_map_iff in Iy. destruct Iy as (f & <- & If).
      apply in_map_iff in If. destruct If as (d & <- & Id). apply filter_In in Id. destruct Id as (Id & K).
      apply in_map_iff in I. destruct I as (h' & E' & Ih). cbn [doc_entry fm_name fm_hits] in *.
      assert (name = fst d) as -> by congruence. assert (k = h_no h' - 1)%nat as -> by congruence.
      rewrite Forall_forall in V. destruct (V d Id) as (V1 & V2). exists (snd d).
      destruct (file_lines_total (snd d)) as (lines & FL & _). destruct (hits_lines d lines V2 FL) as (R & H).
      exists lines. split; [destruct d; exact Id|]. split; [destruct d; apply keep_spec; assumption|]. split; [exact FL|].
      pose proof (R h' Ih). split; [lia|]. apply H; [lia|]. exists h'. split; [exact Ih|lia].
  Qed.

  Theorem repo_found : forall ix raw docs auto rev o, stocked ix raw docs ->
    NoDup (map fst docs) -> Forall (fun d => valid_utf8 (fst d) /\ valid_utf8 (snd d)) docs ->
    o_nctx o = nctx -> o_offset o = 0%Z -> o_limit o = 0%Z -> (o_max o <= 0)%Z \/ few sf ex fe docs (o_max o) ->
    exists r, search fuel o raw auto rev ix q re fre None = Some (Some r) /\
      rs_matches r = map (doc_entry fuel nctx p auto) (filter keep docs) /\
      rs_found r = Z.of_nat (length (filter keep docs)) /\ rs_rev r = rev.
  Proof.
    intros ix raw docs auto rev o (cap & mem & files & vs & b & C & FO & BI & K & OP & RO) ND V Hn Ho Hl MX.
    destruct (compiled_wf _ _ _ _ _ _ _ CO) as (WF & WQ & BQ & _ & _ & PF).
    destruct (names_roundtrip cap mem [] files vs b C FO (Forall_nil _) BI) as (docs' & ix' & K' & OP' & _ & NM & _).
    rewrite OP in OP'. injection OP' as <-. rewrite <- (kept_fun _ _ _ K _ K') in NM. clear K' docs'.
    destruct (lookup_exact cap mem [] files vs b q None C FO BI WQ BQ) as (docs' & ix' & K' & OP' & LK).
    rewrite OP in OP'. injection OP' as <-. rewrite <- (kept_fun _ _ _ K _ K') in LK. clear K' docs'.
    destruct (LK I) as (ids & EQ & SS & HI).
    destruct (pick_docs (fun d => sat (fun t => exists p s, snd d = p ++ t ++ s) q) docs 0 (slice_list ids) SS) as (sub & F2 & FE).
    { intros i. rewrite HI. rewrite N.sub_0_r. split; [intros [_ H]; split; [lia|exact H]|intros [_ H]; auto]. }
    assert (SB : searchable fuel p fp None ix raw q re fre None sub).
    { constructor; try assumption; [eapply filter_compiled_ok, FC|exact I|]. exists ids. split; [assumption|].
      eapply Forall2_imp; [|exact F2]. cbn beta. intros i d (_ & E). rewrite N.sub_0_r in E. split.
      + specialize (NM (N.to_nat i) d E). rewrite Nnat.N2Nat.id in NM. exact NM.
      + apply RO. eapply nth_error_In. exact E. }
    assert (FK : filter has_hits (map (entry fuel o p auto) (sel_docs fuel fp None sub)) = map (doc_entry fuel nctx p auto) (filter keep docs)).
    { rewrite <- (FE keep).
      - unfold sel_docs. rewrite filter_map_comm, filter_filter. unfold entry. rewrite Hn. fold (doc_entry fuel nctx p auto).
        f_equal. apply filter_ext. intros d. unfold selected, excluded, keep, has_hits. cbn [negb doc_entry fm_hits]. rewrite andb_true_r. reflexivity.
      - intros d Id KD. rewrite Forall_forall in V. destruct (V d Id) as (V1 & V2). apply keep_spec in KD; [|assumption|assumption].
        destruct KD as (_ & lines & k & _ & _ & M). exact (PF _ _ M). }
    destruct (search_pure fuel o p fp None auto rev ix raw q re fre None sub SB) as (r & E & R & RF & _ & RV).
    exists r. split; [exact E|]. rewrite R, RF. clear R RF.
    destruct (Z.le_gt_cases (o_max o) 0) as [L|L].
    - destruct (pfold_nomax o (map (entry fuel o p auto) (sel_docs fuel fp None sub)) L) as (A & B & _).
      rewrite A, B, FK, Ho, Hl, window_all, map_length. auto.
    - destruct MX as [MX|MX]; [lia|].
      destruct (pfold_max o (map (entry fuel o p auto) (sel_docs fuel fp None sub)) ltac:(lia)) as (A & B & _ & _ & _ & G).
      rewrite FK, Ho, Hl, window_all in *. pose proof (found_few docs auto _ ND V MX) as FF.
      destruct G as (-> & -> & _); [|rewrite map_length; auto].
      rewrite B, A, firstn_length. lia.
  Qed.
End Repo.
