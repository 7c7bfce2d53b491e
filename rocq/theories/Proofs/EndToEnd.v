(** Build an index, search it. *)
From Verif Require Import Model.Base Model.Writer Model.IndexRun Model.Query Model.Reader Model.Matcher Model.Grep
  Model.Search Spec.IndexSpec Spec.RunSpec Spec.QuerySpec Spec.MatchSpec Spec.GrepSpec Spec.SearchSpec
  Proofs.SplitProofs Proofs.GrepProofs Proofs.GrepPos Proofs.GrepTop Proofs.MatchTop Proofs.FillProofs
  Proofs.SearchProofs Proofs.SearchTop Proofs.LookupProofs Proofs.IndexProofs.
From Coq Require Import Sorted.
Local Open Scope N_scope.

Lemma kept_fun : forall files vs d1, kept files vs d1 -> forall d2, kept files vs d2 -> d1 = d2.
Proof.
  induction 1 as [|name evs files vs docs OK AC K IH|name evs why files vs docs RJ K IH|name evs files vs docs NOK K IH];
    intros d2 K2; inversion K2; subst; try contradiction; try reflexivity.
  - f_equal. apply IH. assumption.
  - apply IH. assumption.
  - apply IH. assumption.
Qed.

Lemma Forall2_imp : forall {A B} (R R' : A -> B -> Prop) l l', (forall a b, R a b -> R' a b) ->
  Forall2 R l l' -> Forall2 R' l l'.
Proof. intros A B R R' l l' H F. induction F; constructor; auto. Qed.

Lemma pick_docs : forall (Q : doc -> Prop) docs base ids,
  StronglySorted N.lt ids ->
  (forall i, In i ids <-> base <= i /\ exists d, nth_error docs (N.to_nat (i - base)) = Some d /\ Q d) ->
  exists sub, Forall2 (fun i d => base <= i /\ nth_error docs (N.to_nat (i - base)) = Some d) ids sub /\
    forall E : doc -> bool, (forall d, In d docs -> E d = true -> Q d) -> filter E sub = filter E docs.
Proof.
  intros Q. induction docs as [|d docs IH]; intros base ids SS H.
  - destruct ids as [|i ids].
    + exists []. split; [constructor|]. reflexivity.
    + exfalso. destruct (proj1 (H i) (or_introl eq_refl)) as (_ & d & E & _). destruct (N.to_nat (i - base)); discriminate.
  - assert (SH : forall i, base + 1 <= i -> N.to_nat (i - base) = S (N.to_nat (i - (base + 1)))) by (intros; lia).
    assert (B0 : forall i, In i ids -> base <= i) by (intros i Hi; apply (H i); assumption).
    destruct (in_dec N.eq_dec base ids) as [IB|NB].
    + destruct ids as [|i ids]; [contradiction|].
      assert (i = base).
      { destruct IB as [->|IB]; [reflexivity|]. inversion SS as [|? ? _ F]; subst.
        rewrite Forall_forall in F. specialize (F base IB). specialize (B0 i (or_introl eq_refl)). lia. }
      subst i. inversion SS as [|? ? SS' F]; subst. rewrite Forall_forall in F.
      destruct (IH (base + 1) ids SS') as (sub & F2 & FE).
      { intros i. split.
        - intros Hi. specialize (F i Hi). split; [lia|].
          destruct (proj1 (H i) (or_intror Hi)) as (_ & d' & E & Qd). exists d'. rewrite SH in E by lia. auto.
        - intros (L & d' & E & Qd). destruct (proj2 (H i)) as [<-|Hi]; [|lia|assumption].
          split; [lia|]. exists d'. rewrite SH by lia. auto. }
      exists (d :: sub). split.
      * constructor; [split; [lia|]; replace (N.to_nat (base - base)) with 0%nat by lia; reflexivity|].
        eapply Forall2_imp; [|exact F2]. cbn beta. intros i d' (L & E). split; [lia|]. rewrite SH by lia. exact E.
      * intros E HE. cbn [filter]. rewrite FE; [reflexivity|]. intros d' I'. apply HE. right. assumption.
    + destruct (IH (base + 1) ids SS) as (sub & F2 & FE).
      { intros i. split.
        - intros Hi. assert (i <> base) by (intros ->; contradiction). specialize (B0 i Hi). split; [lia|].
          destruct (proj1 (H i) Hi) as (_ & d' & E & Qd). exists d'. rewrite SH in E by lia. auto.
        - intros (L & d' & E & Qd). apply H. split; [lia|]. exists d'. rewrite SH by lia. auto. }
      exists sub. split.
      * eapply Forall2_imp; [|exact F2]. cbn beta. intros i d' (L & E). split; [lia|]. rewrite SH by lia. exact E.
      * intros E HE. cbn [filter]. destruct (E d) eqn:Ed.
        -- exfalso. apply NB. apply H. split; [lia|]. exists d. replace (N.to_nat (base - base)) with 0%nat by lia.
           split; [reflexivity|]. apply HE; [left; reflexivity|assumption].
        -- apply FE. intros d' I'. apply HE. right. assumption.
Qed.

Lemma sat_mono : forall (T T' : str -> Prop), (forall t, T t -> T' t) -> forall q, sat T q -> sat T' q.
Proof.
  intros T T' M. fix IH 1. intros [[] tri sub]; cbn [sat]; auto.
  - intros [A B]. split; [auto|]. induction sub as [|s sub IHs]; cbn [fold_right] in *; [exact I|].
    destruct B as [B1 B2]. split; [apply IH; exact B1|apply IHs; exact B2].
  - intros [(t & It & Tt)|B]; [left; eauto|]. right. induction sub as [|s sub IHs]; cbn [fold_right] in *; [exact B|].
    destruct B as [B1|B2]; [left; apply IH; exact B1|right; apply IHs; exact B2].
Qed.

(** The trigram query holds of every line that matches the program (property C01 is
    about this, for queries derived from the expression). *)
Definition covers (q : query) (p : prog) : Prop :=
  forall bot eot line, Forall is_byte line -> line_match p bot eot line ->
    sat (fun t => exists u v, line = u ++ t ++ v) q.

Lemma in_nlf : forall pre line post (x : bytes), exists u v, joinl (pre ++ line :: post) = u ++ line ++ v.
Proof.
  intros pre line post _. rewrite joinl_app. destruct post as [|y post].
  - exists (nlf pre), []. rewrite app_nil_r. reflexivity.
  - rewrite joinl_cons by discriminate. exists (nlf pre), (10 :: joinl (y :: post)). reflexivity.
Qed.

Lemma hits_sat : forall fuel nctx p q text, wf_prog p -> depth_ok fuel p -> covers q p -> Forall is_byte text ->
  hits_of fuel nctx p text <> [] -> sat (fun t => exists u v, text = u ++ t ++ v) q.
Proof.
  intros fuel nctx p q text WF D CV BT NE.
  destruct (grep_text_scan fuel p nctx text WF D) as (SC & _).
  destruct (scan_pos _ _ _ _ _ SC) as (B & _ & PO & _).
  destruct (hits_of fuel nctx p text) as [|h out] eqn:E; [contradiction|].
  inversion B as [|? ? Bh _]; subst. destruct (h_no h) as [|k] eqn:Eno; [lia|].
  destruct (proj1 (PO k (h_line h))) as (Nk & M & _).
  { exists h. split; [left; reflexivity|]. auto. }
  apply nth_error_split in Nk. destruct Nk as (pre & post & E2 & _).
  destruct (in_nlf pre (h_line h) post []) as (u & v & E3). rewrite <- E2, joinl_split in E3.
  assert (BL : Forall is_byte (h_line h)).
  { rewrite E3 in BT. apply Forall_app in BT. destruct BT as [_ BT]. apply Forall_app in BT. apply BT. }
  eapply sat_mono; [|exact (CV _ _ _ BL M)]. cbn beta. intros t (u' & v' & El). rewrite El in E3.
  exists (u ++ u'), (v' ++ v). rewrite E3, <- !app_assoc. reflexivity.
Qed.

Lemma kept_bytes : forall files vs docs, kept files vs docs -> files_ok files ->
  Forall (fun d => Forall is_byte (snd d)) docs.
Proof.
  induction 1; intros F; [constructor|inversion F; subst; constructor; auto| |];
    inversion F; subst; auto.
Qed.

(** The raw copies of the indexed files are complete. *)
Definition raw_ok (raw : str -> option reader) (docs : list doc) : Prop :=
  forall d, In d docs -> exists r, raw (fst d) = Some r /\ rd_ok r = true /\ rd_content r = snd d.

Definition doc_entry (fuel nctx : nat) (p : prog) (auto : list str) (d : doc) : file_match :=
  mkFM (fst d) (hits_of fuel nctx p (snd d)) (contains_string auto (fst d)).

Lemma built_searchable : forall cap mem files vs b fuel nctx p q raw auto re,
  (1 <= cap)%nat -> files_ok files -> build_index cap mem [] files = Some (vs, b) ->
  wf_prog p -> depth_ok fuel p -> used fuel p re -> wf_query q -> bytes_query q -> covers q p ->
  exists docs ix sub, kept files vs docs /\ ix_open b = Some ix /\
    (raw_ok raw docs -> searchable fuel p None None ix raw q re None None sub) /\
    filter has_hits (map (doc_entry fuel nctx p auto) sub) = filter has_hits (map (doc_entry fuel nctx p auto) docs).
Proof.
  intros cap mem files vs b fuel nctx p q raw auto re C FO BI WF D U WQ BQ CV.
  destruct (names_roundtrip cap mem [] files vs b C FO (Forall_nil _) BI) as (docs & ix & K & OP & _ & NM & _).
  destruct (lookup_exact cap mem [] files vs b q None C FO BI WQ BQ) as (docs' & ix' & K' & OP' & LK).
  rewrite OP in OP'. injection OP' as <-. rewrite <- (kept_fun _ _ _ K _ K') in LK. clear K' docs'.
  destruct (LK I) as (ids & EQ & SS & HI).
  destruct (pick_docs (fun d => sat (fun t => exists p s, snd d = p ++ t ++ s) q) docs 0 (slice_list ids) SS) as (sub & F2 & FE).
  { intros i. rewrite HI. rewrite N.sub_0_r. split; [intros [_ H]; split; [lia|exact H]|intros [_ H]; auto]. }
  exists docs, ix, sub. split; [assumption|]. split; [assumption|]. split.
  - intros RO. constructor; try assumption; try exact I. exists ids. split; [assumption|].
    eapply Forall2_imp; [|exact F2]. cbn beta. intros i d (_ & E). rewrite N.sub_0_r in E. split.
    + specialize (NM (N.to_nat i) d E). rewrite Nnat.N2Nat.id in NM. exact NM.
    + apply RO. eapply nth_error_In. exact E.
  - rewrite !filter_map_comm. f_equal. apply FE. intros d Id HH.
    pose proof (kept_bytes _ _ _ K FO) as KB. rewrite Forall_forall in KB.
    apply (hits_sat fuel nctx p q (snd d) WF D CV (KB d Id)). unfold has_hits in HH. cbn [doc_entry fm_hits] in HH.
    destruct (hits_of fuel nctx p (snd d)); [discriminate|]. discriminate.
Qed.

Lemma end_to_end : forall cap mem files vs b fuel nctx p q raw auto rev re,
  (1 <= cap)%nat -> files_ok files -> build_index cap mem [] files = Some (vs, b) ->
  wf_prog p -> depth_ok fuel p -> used fuel p re -> wf_query q -> bytes_query q -> covers q p ->
  exists docs ix E, kept files vs docs /\ ix_open b = Some ix /\
    (forall d, In d docs -> fm_name (E d) = fst d /\
       exists re', grep_text fuel nctx re (snd d) = Some (re', fm_hits (E d))) /\
    (raw_ok raw docs ->
      exists r, search fuel (unlimited nctx) raw auto rev ix q re None None = Some (Some r) /\
        rs_matches r = filter has_hits (map E docs) /\ rs_rev r = rev).
Proof.
  intros cap mem files vs b fuel nctx p q raw auto rev re C FO BI WF D U WQ BQ CV.
  destruct (built_searchable cap mem files vs b fuel nctx p q raw auto re C FO BI WF D U WQ BQ CV)
    as (docs & ix & sub & K & OP & S & FE).
  exists docs, ix, (doc_entry fuel nctx p auto). split; [assumption|]. split; [assumption|]. split.
  - intros d _. split; [reflexivity|]. destruct (grep_text_ok fuel p nctx re (snd d) WF D U) as (m' & E & _).
    exists m'. exact E.
  - intros RO. destruct (search_pure fuel (unlimited nctx) p None None auto rev ix raw q re None None sub (S RO))
      as (r & E & R & _ & _ & RV).
    exists r. split; [assumption|]. split; [|assumption]. rewrite R, <- FE.
    destruct (pfold_nomax (unlimited nctx) (map (entry fuel (unlimited nctx) p auto) (sel_docs fuel None None sub)) (Z.le_refl 0)) as (A & _).
    rewrite A, sel_none. reflexivity.
Qed.

(** In terms of matching lines, where C17's partial statement applies. *)
Lemma end_to_end_lines : forall cap mem files vs b fuel nctx p q raw auto rev re,
  (1 <= cap)%nat -> files_ok files -> build_index cap mem [] files = Some (vs, b) ->
  wf_prog p -> depth_ok fuel p -> used fuel p re -> wf_query q -> bytes_query q -> covers q p ->
  no_begin_text p -> ~ line_match p false true [] ->
  exists docs ix, kept files vs docs /\ ix_open b = Some ix /\
    (raw_ok raw docs ->
      exists r, search fuel (unlimited nctx) raw auto rev ix q re None None = Some (Some r) /\
        (* sound *)
        (forall f, In f (rs_matches r) -> exists d lines, In d docs /\ fm_name f = fst d /\
           file_lines (snd d) lines /\ (exists k, (k < length lines)%nat /\ line_matches (line_match p) (snd d) k) /\
           StronglySorted lt (map h_no (fm_hits f)) /\
           forall k line, reported (fm_hits f) k line <->
             nth_error lines k = Some line /\ line_matches (line_match p) (snd d) k) /\
        (* complete *)
        (forall d lines k, In d docs -> file_lines (snd d) lines -> (k < length lines)%nat ->
           line_matches (line_match p) (snd d) k ->
           exists f, In f (rs_matches r) /\ fm_name f = fst d /\ exists line, reported (fm_hits f) k line)).
Proof.
  intros cap mem files vs b fuel nctx p q raw auto rev re C FO BI WF D U WQ BQ CV NB NE.
  destruct (end_to_end cap mem files vs b fuel nctx p q raw auto rev re C FO BI WF D U WQ BQ CV)
    as (docs & ix & E & K & OP & EH & S).
  exists docs, ix. split; [assumption|]. split; [assumption|]. intros RO. destruct (S RO) as (r & ES & R & _).
  exists r. split; [assumption|].
  assert (LN : forall d lines, In d docs -> file_lines (snd d) lines ->
     StronglySorted lt (map h_no (fm_hits (E d))) /\
     forall k line, reported (fm_hits (E d)) k line <->
       nth_error lines k = Some line /\ line_matches (line_match p) (snd d) k).
  { intros d lines Id FL. destruct (EH d Id) as (_ & re' & EG).
    destruct (grep_lines fuel p nctx re (snd d) lines WF D U NB FL) as (m' & out & EG' & _ & SS & IN & OUT).
    rewrite EG in EG'. injection EG' as _ <-. split; [assumption|]. intros k line.
    destruct (Nat.lt_ge_cases k (length lines)) as [L|G]; [apply IN; exact L|]. split.
    - intros RP. destruct (OUT k line G RP) as (_ & _ & _ & X). contradiction.
    - intros (Nk & _). apply nth_error_None in G. congruence. }
  split.
  - intros f If. rewrite R in If. apply filter_In in If. destruct If as [If HH].
    apply in_map_iff in If. destruct If as (d & <- & Id). destruct (file_lines_total (snd d)) as (lines & FL & _).
    exists d, lines. split; [assumption|]. split; [apply EH; assumption|]. split; [assumption|].
    destruct (LN d lines Id FL) as (SS & RP). split; [|split; assumption].
    unfold has_hits in HH. destruct (fm_hits (E d)) as [|h hs] eqn:EF; [discriminate|].
    destruct (EH d Id) as (_ & re' & EG).
    assert (NO : h_no h <> 0%nat).
    { destruct (grep_text_ok fuel p nctx re (snd d) WF D U) as (m1 & E1 & _). rewrite EG in E1. injection E1 as _ E1.
      destruct (grep_text_scan fuel p nctx (snd d) WF D) as (SC & _).
      destruct (scan_pos _ _ _ _ _ SC) as (B & _). rewrite <- E1, EF in B. inversion B; subst. lia. }
    destruct (h_no h) as [|k] eqn:Ek; [contradiction|].
    destruct (proj1 (RP k (h_line h))) as (Nk & M). { exists h. split; [left; reflexivity|]. auto. }
    exists k. split; [|assumption]. apply nth_error_Some. congruence.
  - intros d lines k Id FL L M. destruct (LN d lines Id FL) as (_ & RP).
    destruct (nth_error lines k) as [line|] eqn:Nk; [|apply nth_error_None in Nk; lia].
    assert (RK : reported (fm_hits (E d)) k line) by (apply RP; auto).
    exists (E d). split; [|split; [apply EH; assumption|exists line; exact RK]].
    rewrite R. apply filter_In. split; [apply in_map; assumption|]. unfold has_hits.
    destruct RK as (h & Ih & _). destruct (fm_hits (E d)); [contradiction|reflexivity].
Qed.
