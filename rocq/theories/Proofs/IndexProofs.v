(** The statements of C03-C06 and C11, assembled. *)
From Coq Require Import Sorted Permutation.
From Verif Require Import Model.Base Model.Codec Model.Sparse Model.Posts Model.Writer Model.IndexRun Model.Query
  Model.Reader Spec.IndexSpec Spec.RunSpec Spec.QuerySpec Proofs.Arith Proofs.ListLemmas Proofs.CodecProofs
  Proofs.SparseProofs Proofs.ScanProofs Proofs.RatioProofs Proofs.WriterProofs Proofs.MergeProofs Proofs.AddProofs
  Proofs.ReaderProofs Proofs.LookupProofs.
Local Open Scope N_scope.

Lemma positions_map : forall (docs : list doc) P i,
  (exists text, nth_error (map snd docs) (N.to_nat i) = Some text /\ P text) <->
  (exists d, nth_error docs (N.to_nat i) = Some d /\ P (snd d)).
Proof.
  intros docs P i. rewrite nth_error_map. split.
  - intros (x & E & H). destruct (nth_error docs (N.to_nat i)) as [d|]; [|discriminate].
    injection E as <-. exists d. auto.
  - intros (d & E & H). rewrite E. exists (snd d). auto.
Qed.

Theorem posting_roundtrip : forall cap mem paths files vs b, (1 <= cap)%nat -> files_ok files ->
  build_index cap mem paths files = Some (vs, b) ->
  exists docs ix, kept files vs docs /\ ix_open b = Some ix /\
    forall t, exists ids, posting_list ix t None = Some ids /\
      positions_where (fun text => has_trigram text t) (map snd docs) ids.
Proof.
  intros cap mem paths files vs b Hc Hf H.
  destruct (build_index_spec _ _ _ _ _ _ Hc Hf H) as (docs & L & K & HL & Hd & -> & Hlt).
  exists docs, (ly_index paths docs L). split; [assumption|]. split; [apply open_layout; assumption|].
  intros t. destruct (pr_ids_spec paths docs L t None Hlt HL Hd I) as (ids & S & Hin & E).
  exists ids. split.
  - unfold posting_list. rewrite E. f_equal. clear. induction ids; cbn; [reflexivity|]. f_equal. assumption.
  - split; [assumption|]. intros i. rewrite positions_map. apply Hin.
Qed.

Theorem names_roundtrip : forall cap mem paths files vs b, (1 <= cap)%nat -> files_ok files ->
  Forall (fun p => p <> [] /\ ~ In 0 p) paths ->
  build_index cap mem paths files = Some (vs, b) ->
  exists docs ix, kept files vs docs /\ ix_open b = Some ix /\
    ix_numName ix = Z.of_nat (length docs) /\
    (forall i d, nth_error docs i = Some d -> ix_name ix (N.of_nat i) = Some (fst d)) /\
    ix_paths ix = Some paths.
Proof.
  intros cap mem paths files vs b Hc Hf Hp H.
  destruct (build_index_spec _ _ _ _ _ _ Hc Hf H) as (docs & L & K & HL & Hd & -> & Hlt).
  exists docs, (ly_index paths docs L). split; [assumption|]. split; [apply open_layout; assumption|].
  split; [unfold ly_index, nlen; cbn [ix_numName]; lia|]. split.
  - intros i d E. apply name_layout; [assumption|assumption|]. rewrite Nnat.Nat2N.id. assumption.
  - apply paths_layout; assumption.
Qed.

Lemma layout_posts_ok : forall ps docs L, nlen (layout ps docs L) < 2^32 -> sorted_entries docs L ->
  Forall (fun d => nul_free (fst d) /\ text_ok (snd d)) docs -> posts_ok (ly_index ps docs L) (map snd docs).
Proof.
  intros ps docs L Hlt HL Hd.
  pose proof (layout_names ps docs L) as HLN. pose proof (names_data_length docs) as Hnl.
  assert (El : nlen (map snd docs) = nlen docs) by (unfold nlen; rewrite map_length; reflexivity).
  split; [rewrite El; reflexivity|]. split; [rewrite El; lia|]. split.
  - apply Forall_map. eapply Forall_impl; [|exact Hd]. intros d (_ & B & _). exact B.
  - intros t restrict Hr. destruct (pr_ids_spec ps docs L t restrict Hlt HL Hd Hr) as (ids & S & Hin & E).
    exists ids. split; [assumption|]. split; [|assumption]. intros i. rewrite positions_map. apply Hin.
Qed.

Theorem lookup_exact : forall cap mem paths files vs b q restrict, (1 <= cap)%nat -> files_ok files ->
  build_index cap mem paths files = Some (vs, b) ->
  wf_query q -> bytes_query q ->
  exists docs ix, kept files vs docs /\ ix_open b = Some ix /\
    ((match restrict with None => True | Some r => StronglySorted N.lt r /\ forall i, In i r -> i < nlen docs end) ->
     exists r, posting_query ix q restrict = Some r /\
       StronglySorted N.lt (slice_list r) /\
       forall i, In i (slice_list r) <->
         (match restrict with None => True | Some l => In i l end) /\
         exists d, nth_error docs (N.to_nat i) = Some d /\ sat (fun t => exists p s, snd d = p ++ t ++ s) q).
Proof.
  intros cap mem paths files vs b q restrict Hc Hf H Hwf Hbq.
  destruct (build_index_spec _ _ _ _ _ _ Hc Hf H) as (docs & L & K & HL & Hd & -> & Hlt).
  exists docs, (ly_index paths docs L). split; [assumption|]. split; [apply open_layout; assumption|].
  intros HR. destruct (posting_query_spec (ly_index paths docs L) (map snd docs)
     (layout_posts_ok _ _ _ Hlt HL Hd) q restrict Hwf Hbq) as (r & E & S & Hin).
  { destruct restrict; [|exact I]. destruct HR as [R1 R2]. split; [assumption|].
    intros i Hi. unfold nlen. rewrite map_length. apply R2. assumption. }
  exists r. split; [assumption|]. split; [assumption|]. intros i. rewrite Hin. unfold allowed.
  rewrite positions_map. destruct restrict as [l|]; cbn [rmem]; [rewrite rmem_in; reflexivity|].
  split; intros [_ ?]; auto.
Qed.

(** ** Building succeeds when the result fits. *)
Fixpoint windows (text : list N) : list N :=
  match text with
  | a :: (b :: c :: _) as r => (a * 65536 + b * 256 + c) :: windows r
  | _ => []
  end.

Lemma windows_spec : forall text t, has_trigram text t -> In t (windows text).
Proof.
  intros text t (p & a & b & c & s & -> & ->). induction p as [|x p IH]; [left; reflexivity|].
  cbn [app windows]. destruct p as [|y [|z p]]; cbn [app] in *; right; assumption.
Qed.

Lemma windows_length : forall text, (length (windows text) <= length text)%nat.
Proof.
  induction text as [|a text IH]; [cbn; lia|]. cbn [windows]. destruct text as [|b [|c text]]; cbn [length] in *; lia.
Qed.

Fixpoint all_entries (i : N) (docs : list doc) : list N :=
  match docs with
  | [] => []
  | d :: r => map (fun t => t * 2^32 + i) (windows (snd d)) ++ all_entries (i + 1) r
  end.

Definition total_text (docs : list doc) : N := fold_right (fun d n => nlen (snd d) + n) 0 docs.
Definition total_names (docs : list doc) : N := fold_right (fun d n => nlen (fst d) + 1 + n) 0 docs.

Lemma all_entries_spec : forall docs i0 i d t, nth_error docs i = Some d -> has_trigram (snd d) t ->
  In (t * 2^32 + (i0 + N.of_nat i)) (all_entries i0 docs).
Proof.
  induction docs as [|x docs IH]; intros i0 i d t E H; [destruct i; discriminate|].
  cbn [all_entries]. apply in_or_app. destruct i as [|i]; cbn in E.
  - injection E as ->. left. replace (i0 + N.of_nat 0) with i0 by lia.
    apply (in_map (fun t => t * 2^32 + i0)). apply windows_spec. assumption.
  - right. replace (i0 + N.of_nat (S i)) with (i0 + 1 + N.of_nat i) by lia. apply (IH _ _ d); assumption.
Qed.

Lemma all_entries_length : forall docs i, nlen (all_entries i docs) <= total_text docs.
Proof.
  induction docs as [|d docs IH]; intros i; cbn [all_entries total_text fold_right]; [unfold nlen; cbn; lia|].
  rewrite nlen_app. specialize (IH (i + 1)). pose proof (windows_length (snd d)).
  unfold total_text in IH. unfold nlen at 1. rewrite map_length. unfold nlen in *. lia.
Qed.

Lemma strict_nodup : forall l, StronglySorted N.lt l -> NoDup l.
Proof.
  induction l as [|x l IH]; intros H; constructor; inversion H as [|? ? H1 F]; subst; auto.
  intros Hi. rewrite Forall_forall in F. specialize (F x Hi). lia.
Qed.

Lemma entries_bound : forall docs L, sorted_entries docs L -> nlen L <= total_text docs.
Proof.
  intros docs L [S H]. eapply N.le_trans; [|apply (all_entries_length docs 0)].
  unfold nlen.
  assert (length L <= length (all_entries 0 docs))%nat; [|lia].
  apply NoDup_incl_length; [apply strict_nodup; assumption|].
  intros e He. apply H in He. destruct He as (i & d & t & E & Ht & ->).
  pose proof (all_entries_spec docs 0 (N.to_nat i) d t E Ht) as X.
  rewrite N.add_0_l, Nnat.N2Nat.id in X. exact X.
Qed.

Lemma deltas_len : forall ids f, nlen (deltas f ids) <= 5 * nlen ids.
Proof.
  induction ids as [|i ids IH]; intros f; cbn [deltas]; [unfold nlen; cbn; lia|].
  rewrite nlen_app, nlen_cons. specialize (IH i). pose proof (put_uvarint_le5 (u32 (i + 2^32 - f))). unfold nlen in *. lia.
Qed.

Lemma lists_len : forall gs, nlen (lists_bytes gs) <= 4 * nlen gs + 5 * nlen (flat gs).
Proof.
  induction gs as [|g gs IH]; [cbn; lia|]. unfold lists_bytes, flat in *. cbn [map concat].
  rewrite !nlen_app, nlen_cons. unfold list_bytes at 1. rewrite !nlen_app.
  pose proof (deltas_len (snd g) (2^32-1)).
  assert (nlen (put_trigram (fst g)) = 3) by (unfold nlen; rewrite put_trigram_length; reflexivity).
  assert (nlen [0] = 1) by reflexivity.
  assert (nlen (map (pe (fst g)) (snd g)) = nlen (snd g)) by (unfold nlen; rewrite map_length; reflexivity). lia.
Qed.

Lemma names_len : forall docs, nlen (names_data docs) = total_names docs.
Proof.
  induction docs as [|d docs IH]; [reflexivity|]. unfold names_data in *. cbn [map concat total_names fold_right].
  rewrite !nlen_app. unfold total_names in IH. rewrite IH. unfold nlen. cbn [length]. lia.
Qed.

Lemma layout_bound : forall ps docs L, sorted_entries docs L ->
  nlen (layout ps docs L) <= 80 + nlen (paths_bytes ps) + total_names docs + 4 * nlen docs + 20 * total_text docs.
Proof.
  intros ps docs L HL. pose proof (entries_bound docs L HL) as HE.
  unfold layout. cbv zeta. rewrite !nlen_app, concat_uint32_len, index_bytes_len, name_offsets_nlen.
  rewrite names_data_app, nlen_app, names_len. change (nlen (names_data [([], [])])) with 1.
  pose proof (lists_len (group_up L ++ [last_group])) as HB.
  assert (EF : flat (group_up L ++ [last_group]) = L).
  { unfold flat. rewrite map_app, concat_app. fold (flat (group_up L)). rewrite flat_group_up. cbn. apply app_nil_r. }
  rewrite EF in HB. rewrite !nlen_app in *.
  assert (HG : nlen (group_up L) <= nlen L).
  { destruct HL as [HS _]. pose proof (flat_length (group_up L) (proj1 (group_up_ok L HS))) as X.
    rewrite flat_group_up in X. unfold nlen. lia. }
  assert (L4 : forall x, nlen (put_uint32 x) = 4) by (intros; unfold nlen; rewrite put_uint32_length; reflexivity).
  rewrite !L4. change (nlen [last_group]) with 1 in *. change (nlen trailer_magic) with 16. change (nlen magic) with 16.
  change (nlen [([], [])]) with 1. lia.
Qed.

Definition input_size (paths : list str) (files : list file) : N :=
  fold_right (fun p n => nlen p + 1 + n) 0 paths +
  fold_right (fun (f : file) n => nlen (fst f) + 5 + 20 * nlen (ev_content (snd f)) + n) 0 files.

Lemma kept_size : forall files vs docs, kept files vs docs ->
  total_names docs + 4 * nlen docs + 20 * total_text docs <=
  fold_right (fun (f : file) n => nlen (fst f) + 5 + 20 * nlen (ev_content (snd f)) + n) 0 files.
Proof.
  induction 1; cbn [fold_right fst snd total_names total_text] in *; try lia.
  - unfold nlen. cbn. lia.
  - rewrite nlen_cons. fold (total_names docs) (total_text docs). lia.
Qed.

Lemma paths_len : forall ps, nlen (paths_bytes ps) = fold_right (fun p n => nlen p + 1 + n) 0 ps + 1.
Proof.
  intros. unfold paths_bytes. rewrite nlen_app. change (nlen [0]) with 1. f_equal.
  induction ps as [|p ps IH]; [reflexivity|]. cbn [map concat fold_right]. rewrite !nlen_app, IH.
  change (nlen [0]) with 1. lia.
Qed.

Theorem build_succeeds : forall cap mem paths files, (1 <= cap)%nat -> files_ok files ->
  Forall (fun f : file => ~ In 0 (fst f)) files -> input_size paths files < 2^32 - 100 ->
  build_index cap mem paths files <> None.
Proof.
  intros cap mem paths files Hc Hf Hn Hs. unfold build_index.
  pose proof (winv_paths _ [] [] paths (winv_create mem)) as W0. cbn [app] in W0.
  pose proof (run_adds_total files cap _ paths [] Hc Hf W0 Hn) as T.
  pose proof (run_adds_same files cap cap _ _ paths [] Hc Hc Hf W0 W0) as R.
  assert (HS2 : fold_right (fun (f : file) n => nlen (fst f) + 1 + n) 0 files <=
                fold_right (fun (f : file) n => nlen (fst f) + 5 + 20 * nlen (ev_content (snd f)) + n) 0 files).
  { clear. induction files; cbn [fold_right]; lia. }
  unfold input_size in Hs. change (nlen (names_data [])) with 0 in T.
  destruct (run_adds cap (add_paths (iw_create mem) paths) files) as [[vs w']|]; [|exfalso; apply T; [lia|reflexivity]].
  destruct R as (_ & docs & K & W & _). cbn [app] in W. cbn [bind fst snd].
  pose proof (iw_flush_spec _ _ _ W) as F. inversion F as [L HL Hlt E|Hbig E]; [discriminate|].
  exfalso.
  pose proof (names_data_length docs) as Hnl. rewrite names_len in Hnl.
  pose proof (kept_size _ _ _ K) as HK. pose proof (paths_len paths) as HPL.
  destruct (merge_heap w' paths docs W ltac:(lia)) as (_ & _ & _ & L & _ & _ & _ & _ & HL & _).
  specialize (Hbig L HL). pose proof (layout_bound paths docs L HL) as HB. lia.
Qed.

(** ** C11. *)
Lemma accepted_meets : forall b, len b <= 16777216 -> accepted b -> meets b.
Proof. intros b H (A & _ & C). split; [assumption|auto]. Qed.

Lemma rejected_not_meets : forall why b, len b <= 16777216 -> rejected why b -> ~ meets b.
Proof.
  intros why b H R ((M1 & M2 & M3) & M4). destruct why; cbn in R.
  - auto.
  - lia.
  - apply M4. apply R. assumption.
  - apply R. exact M3.
Qed.

(** The writer states that can occur. *)
Definition reachable (cap : nat) (w : iw) : Prop :=
  exists mem paths files vs, files_ok files /\ run_adds cap (add_paths (iw_create mem) paths) files = Some (vs, w).

Lemma reachable_winv : forall cap w, (1 <= cap)%nat -> reachable cap w -> exists ps docs, winv w ps docs.
Proof.
  intros cap w Hc (mem & paths & files & vs & Hf & E).
  pose proof (winv_paths _ [] [] paths (winv_create mem)) as W0. cbn [app] in W0.
  pose proof (run_adds_same files cap cap _ _ paths [] Hc Hc Hf W0 W0) as R. rewrite E in R.
  destruct R as (_ & docs & _ & W & _). exists paths, docs. exact W.
Qed.

Theorem add_criteria : forall cap w name evs v w', (1 <= cap)%nat -> reachable cap w ->
  Forall is_byte (ev_content evs) -> ev_ok evs -> iw_add cap w name evs = Some (v, w') ->
  match v with
  | None => accepted (ev_content evs)
  | Some why => rejected why (ev_content evs)
  end /\
  (len (ev_content evs) <= 16777216 -> (v = None <-> meets (ev_content evs))).
Proof.
  intros cap w name evs v w' Hc Hr Hb Hev E.
  destruct (reachable_winv cap w Hc Hr) as (ps & docs & W).
  pose proof (iw_add_spec cap w ps docs name evs Hc W Hb) as O. rewrite E in O.
  inversion O; subst; try contradiction.
  - split; [assumption|]. intros H. split; [discriminate|]. intros M.
    exfalso. eapply rejected_not_meets; eassumption.
  - split; [assumption|]. intros H. split; [|reflexivity]. intros _. apply accepted_meets; assumption.
Qed.

(** Add returns unless the name is unusable or the name table is full. *)
Theorem add_returns : forall cap w name evs, (1 <= cap)%nat -> reachable cap w ->
  Forall is_byte (ev_content evs) -> ~ In 0 name -> nlen (w_nameData w) < 2^32 ->
  iw_add cap w name evs <> None.
Proof.
  intros cap w name evs Hc Hr Hb Hn Hl.
  destruct (reachable_winv cap w Hc Hr) as (ps & docs & W).
  pose proof (iw_add_spec cap w ps docs name evs Hc W Hb) as O.
  destruct (iw_add cap w name evs); [discriminate|]. inversion O as [| | |? ? X]; subst.
  destruct W as (_ & _ & W3 & _). rewrite W3 in Hl. destruct X; [contradiction|lia].
Qed.

(** A rejected file (or one with a read error) leaves no trace, now or later. *)
Definition finish (cap : nat) (w : iw) (more : list file) : option (list (option skip_reason) * bytes) :=
  r <- run_adds cap w more ;; b <- iw_flush (snd r) ;; Some (fst r, b).

Theorem rejected_no_trace : forall cap w name evs v w' more, (1 <= cap)%nat -> reachable cap w ->
  Forall is_byte (ev_content evs) -> files_ok more -> iw_add cap w name evs = Some (v, w') ->
  v <> None \/ ~ ev_ok evs ->
  finish cap w' more = finish cap w more.
Proof.
  intros cap w name evs v w' more Hc Hr Hb Hf E Hv.
  destruct (reachable_winv cap w Hc Hr) as (ps & docs & W).
  pose proof (iw_add_spec cap w ps docs name evs Hc W Hb) as O. rewrite E in O.
  assert (W' : winv w' ps docs).
  { inversion O; subst; try assumption. destruct Hv; congruence. }
  unfold finish. pose proof (run_adds_same more cap cap w' w ps docs Hc Hc Hf W' W) as R.
  destruct (run_adds cap w' more) as [[vs1 w1]|], (run_adds cap w more) as [[vs2 w2]|]; try contradiction; [|reflexivity].
  destruct R as (-> & docs' & _ & A & B). cbn [bind fst snd].
  pose proof (iw_flush_spec _ _ _ A) as F1. pose proof (iw_flush_spec _ _ _ B) as F2.
  inversion F1 as [L1 HL1 Hs1 E1|Hb1 E1]; inversion F2 as [L2 HL2 Hs2 E2|Hb2 E2]; cbn [bind].
  - rewrite (sorted_entries_unique _ _ _ HL1 HL2). reflexivity.
  - specialize (Hb2 _ HL1). lia.
  - specialize (Hb1 _ HL2). lia.
  - reflexivity.
Qed.
