(** C47, assembled. *)
From Coq Require Import Sorted.
From Verif Require Import Model.Base Model.Codec Model.Writer Model.Reader Model.IndexRun Model.IndexMerge Model.Query Model.Posts Spec.IndexSpec Spec.RunSpec Spec.QuerySpec Spec.MergeSpec
  Proofs.Arith Proofs.WriterProofs Proofs.MergeProofs Proofs.AddProofs Proofs.ReaderProofs Proofs.LookupProofs Proofs.IndexProofs
  Proofs.IndexFile Proofs.MergeRanges Proofs.MergeCopy Proofs.MergePathLists Proofs.IndexMergeProofs.
Local Open Scope N_scope.

(** What one can see of an index. *)
Definition shows (D : bytes) (ps : list str) (docs : list doc) : Prop :=
  exists ix, ix_open D = Some ix /\ ix_paths ix = Some ps /\ ix_numName ix = Z.of_nat (length docs) /\
    (forall i d, nth_error docs i = Some d -> ix_name ix (N.of_nat i) = Some (fst d)) /\
    (forall t, exists ids, posting_list ix t None = Some ids /\ positions_where (fun text => has_trigram text t) (map snd docs) ids) /\
    (forall q, wf_query q -> bytes_query q -> exists r, posting_query ix q None = Some r /\ StronglySorted N.lt (slice_list r) /\
       forall i, In i (slice_list r) <-> exists d, nth_error docs (N.to_nat i) = Some d /\ sat (fun t => exists p s, snd d = p ++ t ++ s) q).

Theorem made_shows : forall D ps docs, made D ps docs -> shows D ps docs.
Proof.
  intros D ps docs (junk & last & gs & -> & H & O & P & T & L & SE). exists (g_index ps docs junk last gs).
  pose proof (gf_sizes ps docs junk last gs) as SZ.
  split; [apply open_gfile, H|]. split; [apply paths_gfile; assumption|].
  split; [unfold g_index; cbn [ix_numName]; unfold nlen; lia|]. split; [|split].
  - intros i d E. apply name_gfile; [exact H|apply docs_names, O|rewrite Nnat.Nat2N.id; exact E].
  - intros t. exists (lk gs t). split.
    + unfold posting_list. rewrite (pr_ids_gfile ps docs junk last gs t None H T L I). f_equal. generalize (lk gs t). induction l as [|x l IH]; cbn; [reflexivity|]. f_equal. exact IH.
    + split; [apply (lk_ok (nlen docs) gs t L)|]. intros i. rewrite positions_map. apply SE.
  - intros q WF BQ. assert (El : nlen (map snd docs) = nlen docs) by (unfold nlen; rewrite map_length; reflexivity).
    assert (PO : posts_ok (g_index ps docs junk last gs) (map snd docs)).
    { split; [rewrite El; reflexivity|]. split; [rewrite El; lia|]. split.
      - apply Forall_map. eapply Forall_impl; [|exact O]. intros d (_ & B & _). exact B.
      - intros t restrict RS. exists (lk gs t). split; [apply (lk_ok (nlen docs) gs t L)|]. split; [intros i; rewrite positions_map; apply SE|].
        apply pr_ids_gfile; assumption. }
    destruct (posting_query_spec (g_index ps docs junk last gs) (map snd docs) PO q None WF BQ I) as (r & E & S & Hin).
    exists r. split; [exact E|]. split; [exact S|]. intros i. rewrite Hin. unfold allowed. rewrite positions_map. cbn [rmem].
    split; [intros [_ X]; exact X|intros X; split; [reflexivity|exact X]].
Qed.

Theorem made_build : forall cap mem ps files vs D, (1 <= cap)%nat -> files_ok files -> Forall (fun p => p <> [] /\ ~ In 0 p) ps ->
  build_index cap mem ps files = Some (vs, D) -> exists docs, kept files vs docs /\ made D ps docs.
Proof.
  intros cap mem ps files vs D C F P H. destruct (build_index_spec _ _ _ _ _ _ C F H) as (docs & L & K & HL & Hd & -> & Hlt).
  exists docs. split; [exact K|]. set (gs := group_up L ++ [last_group]).
  pose proof (layout_names ps docs L) as HLN. pose proof (names_data_length docs) as Hnl.
  destruct (groups_bounds docs L HL ltac:(lia) Hd) as [[HG1 HG2] HB].
  assert (Htab : table_ok gs).
  { split.
    - apply SS_app. split; [assumption|]. split; [repeat constructor|].
      intros x y Hx [<-|[]]. rewrite Forall_forall in HB. destruct (HB x Hx) as (B & _). exact B.
    - apply Forall_app. split; [|repeat constructor; reflexivity].
      eapply Forall_impl; [|exact HB]. intros g (B1 & B2 & _). split; [|assumption].
      change max_trigram with (2^24-1) in B1. lia. }
  assert (LO : lists_ok (nlen docs) gs).
  { intros g I. apply in_app_or in I. destruct I as [I|[<-|[]]]; [|split; [constructor|intros i []]].
    rewrite Forall_forall in HG1, HB. destruct (HG1 _ I) as (_ & _ & A). destruct (HB _ I) as (_ & _ & B). split; assumption. }
  pose proof Hlt as Hlt'. rewrite layout_gfile in Hlt'. fold gs in Hlt'.
  exists [0], (nlen (names_data docs)), gs. split; [apply layout_gfile|]. split; [exact Hlt|]. split; [exact Hd|].
  split; [exact P|]. split; [exact Htab|]. split; [exact LO|].
  intros t i. destruct (pr_ids_spec ps docs L t None Hlt HL Hd I) as (ids & S & Hin & E).
  assert (EI : ly_index ps docs L = g_index ps docs [0] (nlen (names_data docs)) gs).
  { pose proof (open_layout ps docs L Hlt) as O1. rewrite layout_gfile in O1. fold gs in O1. rewrite (open_gfile _ _ _ _ _ Hlt') in O1. congruence. }
  rewrite EI, (pr_ids_gfile _ _ _ _ _ _ None Hlt' Htab LO I) in E. rewrite <- Hin.
  assert (FI : forall l : list N, filter (rmem None) l = l) by (induction l as [|x l IH]; cbn; [reflexivity|f_equal; exact IH]).
  rewrite !FI in E. injection E as ->. reflexivity.
Qed.

(** Sorted names keep step with every path. *)
Theorem sorted_in_step : forall names p, StronglySorted sle names -> in_step p names.
Proof.
  intros names p S l1 x l2 y l3 ->. apply SS_app in S. destruct S as (_ & S & _). inversion S as [|? ? S1 S2]; subst.
  rewrite Forall_forall in S2. assert (XY : sle x y) by (apply S2, in_or_app; right; left; reflexivity). split.
  - intros L. apply (MergeRanges.le_lex_trans x y p XY L).
  - intros P. destruct (str_ltb x p) eqn:E; [left; apply lex_ltb, E|]. right. apply not_lex in E. apply (prefix_between p x y P E XY).
Qed.

Theorem merge_right : forall A ps1 docs1 B ps2 docs2 C, made A ps1 docs1 -> made B ps2 docs2 -> mergeable docs1 ps2 docs2 ->
  merge A B = Some C -> nlen C < 2^32 ->
  exists ps3 docs3, (StronglySorted sle ps1 -> paths_merged ps1 ps2 ps3) /\ docs_merged docs1 ps2 docs2 docs3 /\ shows C ps3 docs3 /\ made C ps3 docs3.
Proof.
  intros A ps1 docs1 B ps2 docs2 C MA MB G M H. destruct (merge_file _ _ _ _ _ _ MA MB G) as (D & docs3 & F & DM & MD & _).
  destruct F as [F|[F _]]; [|congruence]. rewrite M in F. injection F as <-. specialize (MD H).
  exists (merge_paths (length ps1 + length ps2) ps1 ps2 [0]), docs3. split.
  - intros S1. destruct MA as (? & ? & ? & _ & _ & _ & P1 & _). destruct MB as (? & ? & ? & _ & _ & _ & P2 & _).
    apply merge_paths_spec; [exact P1|exact P2|exact S1|apply G].
  - split; [exact DM|]. split; [apply made_shows, MD|exact MD].
Qed.
Theorem merge_works : forall A ps1 docs1 B ps2 docs2, made A ps1 docs1 -> made B ps2 docs2 -> mergeable docs1 ps2 docs2 ->
  5 * (nlen A + nlen B) < 2^32 -> exists C, merge A B = Some C /\ nlen C < 2^32.
Proof.
  intros A ps1 docs1 B ps2 docs2 MA MB G H. destruct (merge_file _ _ _ _ _ _ MA MB G) as (D & docs3 & F & _ & _ & SZ).
  exists D. destruct F as [F|[_ F]]; [split; [exact F|lia]|lia].
Qed.
