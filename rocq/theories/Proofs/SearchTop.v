(** index.go: Search, final statements. *)
From Verif Require Import Model.Base Model.Query Model.Reader Model.Matcher Model.Grep Model.Search
  Spec.MatchSpec Spec.GrepSpec Spec.SearchSpec Proofs.SplitProofs Proofs.GrepProofs Proofs.GrepPos Proofs.GrepTop
  Proofs.MatchTop Proofs.FillProofs Proofs.SearchProofs.
Local Open Scope Z_scope.

(** A situation in which Search can run: compiled expressions that may have been used
    before, and an index whose lookup returns files with complete raw copies. *)
Record searchable (fuel : nat) (p : prog) (fp xp : option prog) (ix : index) (raw : str -> option reader)
  (q : query) (re : matcher) (fre xre : option matcher) (docs : list (str * bytes)) : Prop := {
  sb_wf : wf_prog p;
  sb_depth : depth_ok fuel p;
  sb_re : used fuel p re;
  sb_fre : filter_ok fuel fp fre;
  sb_xre : filter_ok fuel xp xre;
  sb_docs : exists ids, posting_query ix q None = Some ids /\ Forall2 (doc_at ix raw) (slice_list ids) docs
}.

Lemma search_pure : forall fuel o p fp xp auto rev ix raw q re fre xre docs,
  searchable fuel p fp xp ix raw q re fre xre docs ->
  exists r, search fuel o raw auto rev ix q re fre xre = Some (Some r) /\
    let s := fold_left (pstep o) (map (entry fuel o p auto) (sel_docs fuel fp xp docs)) p0 in
    rs_matches r = p_res s /\ rs_found r = p_found s /\ rs_opened r = p_opened s /\ rs_rev r = rev.
Proof.
  intros fuel o p fp xp auto rev ix raw q re fre xre docs [WF D U FI FX (ids & EQ & F)]. unfold search.
  rewrite EQ. cbn [bind].
  destruct (search_files_ok fuel o p fp xp auto WF D ix raw (slice_list ids) docs (mkS re fre xre None [] 0 0 0 0))
    as (s & E & _ & P); [|exact F|].
  - split; [exact U|]. split; [exact FI|]. split; [exact FX|]. exact I.
  - rewrite E. cbn [bind]. eexists. split; [reflexivity|]. cbv zeta.
    replace p0 with (proj (mkS re fre xre None [] 0 0 0 0)) by reflexivity. rewrite <- P. auto.
Qed.

Definition unlimited (nctx : nat) : sopts := mkOpts nctx 0 0 0.

Lemma window_all : forall {A} (l : list A), window 0 0 l = l.
Proof. reflexivity. Qed.

Lemma entry_nctx : forall fuel o o' p auto, o_nctx o = o_nctx o' -> entry fuel o p auto = entry fuel o' p auto.
Proof. intros. unfold entry. rewrite H. reflexivity. Qed.

Lemma pagination : forall fuel o p fp xp auto rev ix raw q re fre xre docs, o_max o <= 0 ->
  searchable fuel p fp xp ix raw q re fre xre docs ->
  exists r r0, search fuel o raw auto rev ix q re fre xre = Some (Some r) /\
    search fuel (unlimited (o_nctx o)) raw auto rev ix q re fre xre = Some (Some r0) /\
    rs_matches r = window (o_offset o) (o_limit o) (rs_matches r0) /\
    rs_found r = Z.of_nat (length (rs_matches r0)) /\ rs_found r0 = rs_found r.
Proof.
  intros fuel o p fp xp auto rev ix raw q re fre xre docs M S.
  destruct (search_pure fuel o p fp xp auto rev ix raw q re fre xre docs S) as (r & E & R & F & _).
  destruct (search_pure fuel (unlimited (o_nctx o)) p fp xp auto rev ix raw q re fre xre docs S) as (r0 & E0 & R0 & F0 & _).
  exists r, r0. split; [assumption|]. split; [assumption|].
  rewrite (entry_nctx fuel (unlimited (o_nctx o)) o p auto eq_refl) in R0, F0.
  set (fs := map (entry fuel o p auto) (sel_docs fuel fp xp docs)) in *.
  destruct (pfold_nomax o fs M) as (A & B & _). destruct (pfold_nomax (unlimited (o_nctx o)) fs (Z.le_refl 0)) as (A0 & B0 & _).
  rewrite R, F, R0, F0, A, B, A0, B0. cbn [unlimited o_offset o_limit]. rewrite window_all. auto.
Qed.

Lemma max_results : forall fuel o p fp xp auto rev ix raw q re fre xre docs, 0 < o_max o ->
  searchable fuel p fp xp ix raw q re fre xre docs ->
  exists r r0, search fuel o raw auto rev ix q re fre xre = Some (Some r) /\
    search fuel (mkOpts (o_nctx o) (o_offset o) (o_limit o) 0) raw auto rev ix q re fre xre = Some (Some r0) /\
    flat (rs_matches r) = firstn (Z.to_nat (o_max o)) (flat (rs_matches r0)) /\
    Z.of_nat (length (flat (rs_matches r))) <= o_max o /\
    Forall (fun f => has_hits f = true) (rs_matches r) /\
    map fm_name (rs_matches r) = firstn (length (rs_matches r)) (map fm_name (rs_matches r0)).
Proof.
  intros fuel o p fp xp auto rev ix raw q re fre xre docs M S.
  set (o0 := mkOpts (o_nctx o) (o_offset o) (o_limit o) 0).
  destruct (search_pure fuel o p fp xp auto rev ix raw q re fre xre docs S) as (r & E & R & F & _).
  destruct (search_pure fuel o0 p fp xp auto rev ix raw q re fre xre docs S) as (r0 & E0 & R0 & F0 & _).
  exists r, r0. split; [assumption|]. split; [assumption|].
  rewrite (entry_nctx fuel o0 o p auto eq_refl) in R0, F0.
  set (fs := map (entry fuel o p auto) (sel_docs fuel fp xp docs)) in *.
  destruct (pfold_max o fs M) as (A & B & C & NE & NM & _). destruct (pfold_nomax o0 fs (Z.le_refl 0)) as (A0 & B0 & _).
  cbn [o0 o_offset o_limit] in A0. rewrite R, R0, A0. split; [assumption|]. split; [lia|]. auto.
Qed.

(** ** Filters *)
Lemma included_spec : forall fuel p name, wf_prog p -> depth_ok fuel p ->
  (included fuel (Some p) name = true <-> name_hit p name).
Proof.
  intros fuel p name WF D. cbn [included]. pose proof (ans_first fuel p name WF D) as FH.
  specialize (FH (split_nl name) (proj2 (splits_iff _ _) eq_refl)).
  destruct (ans_of fuel p name) as [e|].
  - split; [intros _|reflexivity]. destruct FH as (pre & line & post & E & _ & H & _).
    exists (length pre), (split_nl name), line. split; [apply splits_iff; reflexivity|]. rewrite E.
    split; [rewrite nth_error_app2, Nat.sub_diag by lia; reflexivity|].
    unfold line_hit in H. replace (length pre =? 0)%nat with (true && is_nil pre)%bool by (destruct pre; reflexivity).
    replace (S (length pre) =? length (pre ++ line :: post))%nat with (true && is_nil post)%bool; [exact H|].
    rewrite app_length. cbn [length]. destruct post; cbn [is_nil andb length]; symmetry;
      [apply Nat.eqb_eq; lia|apply Nat.eqb_neq; lia].
  - split; [discriminate|]. intros (k & pcs & line & SP & Nk & H). exfalso. apply splits_iff in SP. subst pcs.
    apply nth_error_split in Nk. destruct Nk as (pre & post & E & <-). apply (FH pre line post E).
    unfold line_hit. replace (true && is_nil pre)%bool with (length pre =? 0)%nat by (destruct pre; reflexivity).
    replace (true && is_nil post)%bool with (S (length pre) =? length (split_nl name))%nat; [exact H|].
    rewrite E, app_length. cbn [length]. destruct post; cbn [is_nil andb length];
      [apply Nat.eqb_eq; lia|apply Nat.eqb_neq; lia].
Qed.

(** A usual file name: not empty and not starting with a newline. *)
Definition plain_name (name : str) : Prop := match name with [] => False | c :: _ => c <> 10%N end.

Lemma excluded_spec : forall fuel p name, wf_prog p -> depth_ok fuel p -> plain_name name ->
  (excluded fuel (Some p) name = true <-> name_hit p name).
Proof.
  intros fuel p name WF D PN. rewrite <- (included_spec fuel p name WF D). cbn [included excluded].
  pose proof (ans_first fuel p name WF D) as FH.
  specialize (FH (split_nl name) (proj2 (splits_iff _ _) eq_refl)).
  destruct (ans_of fuel p name) as [[|e]|]; try tauto.
  exfalso. destruct FH as (pre & line & post & E & L & _).
  destruct pre as [|x pre]; [|cbn in L; rewrite !app_length in L; cbn in L; lia].
  destruct line; [|cbn in L; lia]. cbn [app] in E.
  assert (JN : joinl (split_nl name) = name) by apply joinl_split. rewrite E in JN.
  destruct name as [|c name]; [exact PN|]. cbn [plain_name] in PN.
  destruct post; cbn [joinl app] in JN; [discriminate|]. injection JN as JN _. apply PN. symmetry. exact JN.
Qed.

Definition pass_include (fp : option prog) (name : str) : Prop :=
  match fp with None => True | Some p => name_hit p name end.
Definition pass_exclude (xp : option prog) (name : str) : Prop :=
  match xp with None => True | Some p => ~ name_hit p name end.

Lemma selected_spec : forall fuel fp xp fre xre name, filter_ok fuel fp fre -> filter_ok fuel xp xre ->
  (selected fuel fp xp name = true -> pass_include fp name) /\
  (plain_name name -> (selected fuel fp xp name = true <-> pass_include fp name /\ pass_exclude xp name)).
Proof.
  intros fuel fp xp fre xre name FI FX. unfold selected, pass_include, pass_exclude.
  assert (I : included fuel fp name = true <-> pass_include fp name).
  { destruct fp as [p|]; [|cbn; tauto]. destruct fre; [|contradiction]. destruct FI as (WF & D & _).
    apply included_spec; assumption. }
  unfold pass_include in I. split.
  - intros H. apply andb_true_iff in H. apply I. apply H.
  - intros PN. rewrite andb_true_iff, negb_true_iff, I.
    destruct xp as [p|]; [|cbn; tauto]. destruct xre; [|contradiction]. destruct FX as (WF & D & _).
    rewrite <- (excluded_spec fuel p name WF D PN). destruct (excluded fuel (Some p) name); intuition congruence.
Qed.

(** Every returned file comes from a selected document. *)
Lemma pfold_names : forall o fs s f, In f (p_res (fold_left (pstep o) fs s)) ->
  In f (p_res s) \/ exists g, In g fs /\ fm_name g = fm_name f.
Proof.
  intros o. induction fs as [|g fs IH]; intros s f H; [auto|]. cbn [fold_left] in H.
  destruct (IH _ _ H) as [H1|(g' & I & E)]; [|right; exists g'; split; [right|]; assumption].
  unfold pstep in H1. destruct (maxed o (p_mc s)); [auto|]. destruct (has_hits g); [|auto].
  destruct (blocked o (p_found s) (p_coll s)); [auto|]. cbn [p_res] in H1.
  apply in_app_or in H1. destruct H1 as [H1|[<-|[]]]; [auto|]. right. exists g. split; [left|]; reflexivity.
Qed.

Lemma filters_respected : forall fuel o p fp xp auto rev ix raw q re fre xre docs r f,
  searchable fuel p fp xp ix raw q re fre xre docs ->
  search fuel o raw auto rev ix q re fre xre = Some (Some r) -> In f (rs_matches r) ->
  pass_include fp (fm_name f) /\ (plain_name (fm_name f) -> pass_exclude xp (fm_name f)).
Proof.
  intros fuel o p fp xp auto rev ix raw q re fre xre docs r f S E I.
  destruct (search_pure fuel o p fp xp auto rev ix raw q re fre xre docs S) as (r' & E' & R & _).
  rewrite E in E'. injection E' as <-. rewrite R in I.
  apply pfold_names in I. destruct I as [[]|(g & I & EN)].
  apply in_map_iff in I. destruct I as (d & <- & I). apply filter_In in I. destruct I as [_ SEL].
  cbn [entry fm_name] in EN. rewrite EN in SEL.
  destruct (selected_spec fuel fp xp fre xre (fm_name f)) as [A B].
  { apply (sb_fre _ _ _ _ _ _ _ _ _ _ _ S). } { apply (sb_xre _ _ _ _ _ _ _ _ _ _ _ S). }
  split; [apply A; exact SEL|]. intros PN. apply (proj1 (B PN)). exact SEL.
Qed.

Lemma filter_map_comm : forall {A B} (f : A -> B) (P : B -> bool) l,
  filter P (map f l) = map f (filter (fun x => P (f x)) l).
Proof. induction l; cbn; [reflexivity|]. rewrite IHl. destruct (P (f a)); reflexivity. Qed.
Lemma filter_comm : forall {A} (P Q : A -> bool) l, filter P (filter Q l) = filter Q (filter P l).
Proof.
  induction l; cbn; [reflexivity|]. destruct (Q a) eqn:EQ, (P a) eqn:EP; cbn; rewrite ?EQ, ?EP, IHl; reflexivity.
Qed.

Lemma sel_none : forall fuel docs, sel_docs fuel None None docs = docs.
Proof.
  intros fuel docs. unfold sel_docs. induction docs as [|d docs IH]; [reflexivity|].
  cbn. f_equal. exact IH.
Qed.

Lemma filters_others : forall fuel nctx p fp xp auto rev ix raw q re fre xre docs,
  searchable fuel p fp xp ix raw q re fre xre docs ->
  exists r r0 keep, search fuel (unlimited nctx) raw auto rev ix q re fre xre = Some (Some r) /\
    search fuel (unlimited nctx) raw auto rev ix q re None None = Some (Some r0) /\
    rs_matches r = filter (fun f => keep (fm_name f)) (rs_matches r0) /\
    forall name, plain_name name -> (keep name = true <-> pass_include fp name /\ pass_exclude xp name).
Proof.
  intros fuel nctx p fp xp auto rev ix raw q re fre xre docs S.
  assert (S0 : searchable fuel p None None ix raw q re None None docs).
  { destruct S. constructor; try assumption; exact I. }
  destruct (search_pure fuel (unlimited nctx) p fp xp auto rev ix raw q re fre xre docs S) as (r & E & R & _).
  destruct (search_pure fuel (unlimited nctx) p None None auto rev ix raw q re None None docs S0) as (r0 & E0 & R0 & _).
  exists r, r0, (selected fuel fp xp). split; [assumption|]. split; [assumption|].
  destruct (pfold_nomax (unlimited nctx) (map (entry fuel (unlimited nctx) p auto) (sel_docs fuel fp xp docs)) (Z.le_refl 0)) as (A & _).
  destruct (pfold_nomax (unlimited nctx) (map (entry fuel (unlimited nctx) p auto) (sel_docs fuel None None docs)) (Z.le_refl 0)) as (A0 & _).
  rewrite R, R0, A, A0. cbn [unlimited o_offset o_limit]. rewrite !window_all. split.
  - rewrite sel_none. unfold sel_docs. rewrite !filter_map_comm. f_equal. apply filter_comm.
  - intros name PN. apply (selected_spec fuel fp xp fre xre name); [| |exact PN].
    + apply (sb_fre _ _ _ _ _ _ _ _ _ _ _ S). + apply (sb_xre _ _ _ _ _ _ _ _ _ _ _ S).
Qed.
