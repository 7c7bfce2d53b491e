(** IndexWriter state after a sequence of Adds (C04-C06, C11). *)
From Coq Require Import Sorted Permutation.
From Verif Require Import Model.Base Model.Codec Model.Sparse Model.Posts Model.Writer
  Spec.IndexSpec Spec.RunSpec Proofs.Arith Proofs.ListLemmas Proofs.SparseProofs Proofs.SortProofs
  Proofs.ScanProofs Proofs.RatioProofs.
Local Open Scope N_scope.

(** The posting entry of trigram t in file i. *)
Definition entry_in (docs : list doc) (e : N) : Prop :=
  exists i d t, nth_error docs (N.to_nat i) = Some d /\ has_trigram (snd d) t /\
                e = t * 2^32 + i.

Definition names_data (docs : list doc) : bytes := concat (map (fun d => fst d ++ [0]) docs).

Fixpoint name_offsets (start : N) (docs : list doc) : list N :=
  match docs with
  | [] => []
  | d :: r => start :: name_offsets (start + nlen (fst d) + 1) r
  end.

Definition text_ok (b : bytes) : Prop := Forall is_byte b /\ pairs_ok b.

Definition by_id (a b : N) : Prop := a mod 2^32 <= b mod 2^32.

Definition winv (w : iw) (paths : list str) (docs : list doc) : Prop :=
  set_ok (w_set w) /\ w_paths w = paths /\
  w_nameData w = names_data docs /\
  w_nameIndex w = concat (map put_uint32 (name_offsets 0 docs)) /\
  Forall (fun o => o < 2^32) (name_offsets 0 docs) /\
  w_numName w = nlen docs /\
  Forall (fun d => nul_free (fst d) /\ text_ok (snd d)) docs /\
  NoDup (concat (w_postFile w) ++ w_post w) /\
  (forall e, In e (concat (w_postFile w) ++ w_post w) <-> entry_in docs e) /\
  StronglySorted by_id (w_post w) /\
  Forall (StronglySorted N.le) (w_postFile w).

Lemma winv_create : forall mem, winv (iw_create mem) [] [].
Proof.
  intros mem. split; [split; [apply new_sinv; reflexivity|reflexivity]|].
  do 2 (split; [reflexivity|]). split; [reflexivity|]. split; [constructor|].
  split; [reflexivity|]. split; [constructor|]. split; [constructor|].
  split; [|split; constructor].
  intros e. split; [intros []|].
  intros (i & d & t & E & _). destruct (N.to_nat i); discriminate.
Qed.

Lemma winv_paths : forall w ps docs ps', winv w ps docs -> winv (add_paths w ps') (ps ++ ps') docs.
Proof.
  intros w ps docs ps' (H1 & H2 & H3). unfold add_paths. split; [exact H1|].
  split; [cbn; congruence|]. exact H3.
Qed.

Lemma winv_set : forall w ps docs s, winv w ps docs -> set_ok s -> winv (with_set w s) ps docs.
Proof. intros w ps docs s (H1 & H2) Hs. split; [exact Hs|]. exact H2. Qed.

Lemma names_data_length : forall docs, nlen docs <= nlen (names_data docs).
Proof.
  intros docs. unfold names_data, nlen. induction docs as [|d docs IH]; cbn [map concat length]; [lia|].
  rewrite !app_length. cbn. lia.
Qed.

Lemma name_offsets_snoc : forall docs d start,
  name_offsets start (docs ++ [d]) = name_offsets start docs ++ [start + nlen (names_data docs)].
Proof.
  induction docs as [|x docs IH]; intros d start; cbn.
  - f_equal. lia.
  - rewrite IH. do 3 f_equal. unfold names_data, nlen. cbn [map concat]. rewrite !app_length. cbn. lia.
Qed.

Lemma name_offsets_length : forall docs start, length (name_offsets start docs) = length docs.
Proof. induction docs; intros; cbn; auto. Qed.

(** Trigrams of accepted texts are below the sentinel. *)
Lemma trigram_bound : forall b t, text_ok b -> has_trigram b t -> t < max_trigram.
Proof.
  intros b t [Hb Hp] (p & x & y & z & s & E & ->).
  assert (Hxyz : x < 256 /\ y < 256 /\ z < 256).
  { rewrite E in Hb. apply Forall_app in Hb. destruct Hb as [_ Hb].
    inversion Hb as [|? ? H1 Hb1]; subst. inversion Hb1 as [|? ? H2 Hb2]; subst.
    inversion Hb2 as [|? ? H3 _]; subst. auto. }
  assert (Hm : may_follow (class_of y) (class_of z)).
  { apply (Hp (0 :: p ++ [x]) y z s). rewrite E. cbn. rewrite <- app_assoc. reflexivity. }
  assert (z < 0xf8).
  { unfold class_of in Hm. destruct (N.ltb_spec z 0x80), (N.ltb_spec z 0xc0), (N.ltb_spec z 0xf8); try lia.
    destruct (if y <? 128 then _ else _) in Hm; destruct Hm. }
  change max_trigram with 16777215. lia.
Qed.

Lemma entry_fields : forall t i, t < 2^24 -> i < 2^32 ->
  (t * 2^32 + i) mod 2^32 = i /\ (t * 2^32 + i) / 2^32 = t /\ t * 2^32 + i < 2^56.
Proof.
  intros t i Ht Hi. change (2^32) with 4294967296 in *. change (2^24) with 16777216 in *.
  change (2^56) with 72057594037927936.
  rewrite N.add_comm, N.mod_add, N.div_add by discriminate.
  rewrite N.mod_small, N.div_small by assumption. repeat split; lia.
Qed.

Lemma nth_error_lt : forall {A} (l : list A) i x, nth_error l i = Some x -> (i < length l)%nat.
Proof. intros. apply nth_error_Some. congruence. Qed.

Lemma entry_in_bounds : forall docs e, nlen docs <= 2^32 ->
  Forall (fun d => nul_free (fst d) /\ text_ok (snd d)) docs ->
  entry_in docs e -> e < 2^56 /\ e mod 2^32 < nlen docs /\ e / 2^32 < max_trigram.
Proof.
  intros docs e Hn Hd (i & d & t & E & Ht & ->).
  assert (Hi : i < nlen docs). { apply nth_error_lt in E. unfold nlen. lia. }
  assert (Hok : text_ok (snd d)).
  { apply nth_error_In in E. rewrite Forall_forall in Hd. apply Hd. assumption. }
  pose proof (trigram_bound _ _ Hok Ht) as Hb.
  destruct (entry_fields t i) as (E1 & E2 & E3); [change max_trigram with (2^24-1) in Hb; lia|lia|].
  rewrite E1, E2. auto.
Qed.

(** flush_post and the posting loop. *)
Definition same_rest (w w' : iw) : Prop :=
  w_set w' = w_set w /\ w_paths w' = w_paths w /\ w_nameData w' = w_nameData w /\
  w_nameIndex w' = w_nameIndex w /\ w_numName w' = w_numName w.

Lemma flush_post_spec : forall w, w_post w <> [] ->
  Forall (fun p => p < 2^56) (w_post w) -> StronglySorted by_id (w_post w) ->
  exists w', flush_post w = Some w' /\ same_rest w w' /\ w_post w' = [] /\
    exists p, w_postFile w' = w_postFile w ++ [p] /\ Permutation p (w_post w) /\ StronglySorted N.le p.
Proof.
  intros w Hne Hlt Hs. unfold flush_post.
  destruct (sort_post_spec (w_post w) Hlt Hs) as (p & E & HP & HS).
  destruct (w_post w) as [|x l] eqn:Ew; [congruence|]. rewrite E. cbn [bind].
  eexists. split; [reflexivity|]. split; [repeat split|]. split; [reflexivity|].
  exists p. auto.
Qed.

Lemma add_posts_spec : forall cap id ts w, (1 <= cap)%nat -> id < 2^32 ->
  (forall t, In t ts -> t < 2^24) ->
  Forall (fun p => p < 2^56 /\ p mod 2^32 <= id) (w_post w) ->
  StronglySorted by_id (w_post w) -> Forall (StronglySorted N.le) (w_postFile w) ->
  exists w', add_posts cap w id ts = Some w' /\ same_rest w w' /\
    Permutation (concat (w_postFile w') ++ w_post w')
                (concat (w_postFile w) ++ w_post w ++ map (fun t => t * 2^32 + id) ts) /\
    StronglySorted by_id (w_post w') /\ Forall (StronglySorted N.le) (w_postFile w').
Proof.
  intros cap id. induction ts as [|t ts IH]; intros w Hc Hid Ht Hlt Hs Hf; cbn [add_posts].
  - exists w. split; [reflexivity|]. split; [repeat split|]. split; [|auto].
    cbn. rewrite app_nil_r. apply Permutation_refl.
  - assert (Ht0 : t < 2^24) by (apply Ht; left; reflexivity).
    assert (Hfl : exists w1, (if Nat.leb cap (length (w_post w)) then flush_post w else Some w) = Some w1 /\
       same_rest w w1 /\ Permutation (concat (w_postFile w1) ++ w_post w1) (concat (w_postFile w) ++ w_post w) /\
       Forall (fun p => p < 2^56 /\ p mod 2^32 <= id) (w_post w1) /\
       StronglySorted by_id (w_post w1) /\ Forall (StronglySorted N.le) (w_postFile w1)).
    { destruct (Nat.leb_spec cap (length (w_post w))).
      - destruct (flush_post_spec w) as (w1 & E & Hr & Hp & p & Epf & HP & HS).
        + intros E. rewrite E in H. cbn in H. lia.
        + eapply Forall_impl; [|exact Hlt]. cbn. tauto.
        + assumption.
        + exists w1. split; [exact E|]. split; [exact Hr|]. rewrite Hp, Epf.
          split; [|split; [constructor|split; [constructor|apply Forall_app; auto]]].
          rewrite app_nil_r, concat_app. cbn. rewrite app_nil_r.
          apply Permutation_app_head. assumption.
      - exists w. split; [reflexivity|]. split; [repeat split|]. auto. }
    destruct Hfl as (w1 & E1 & Hr1 & HP1 & Hlt1 & Hs1 & Hf1). rewrite E1. cbn [bind].
    destruct (entry_fields t id Ht0 Hid) as (F1 & F2 & F3).
    set (w2 := mkIW (w_set w1) (w_paths w1) (w_nameData w1) (w_nameIndex w1) (w_numName w1)
                    (w_post w1 ++ [make_pe t id]) (w_postFile w1)).
    destruct (IH w2) as (w' & E' & Hr' & HP' & Hs' & Hf').
    + exact Hc.
    + exact Hid.
    + intros; apply Ht; right; assumption.
    + cbn [w2 w_post]. apply Forall_app. split; [exact Hlt1|]. constructor; [|constructor].
      unfold make_pe. rewrite F1. split; [assumption|lia].
    + cbn [w2 w_post]. apply StronglySorted_app; [assumption|repeat constructor|].
      intros a b Ha [<-|[]]. unfold by_id, make_pe. rewrite F1.
      rewrite Forall_forall in Hlt1. apply Hlt1. assumption.
    + exact Hf1.
    + exists w'. split; [exact E'|]. split.
      { destruct Hr1 as (? & ? & ? & ? & ?), Hr' as (? & ? & ? & ? & ?). cbn in *.
        repeat split; congruence. }
      split; [|auto]. eapply Permutation_trans; [exact HP'|]. cbn [w2 w_postFile w_post map].
      unfold make_pe. rewrite <- !app_assoc. rewrite !app_assoc.
      rewrite <- (app_assoc _ [t * 2 ^ 32 + id] (map _ ts)).
      apply Permutation_app_tail. assumption.
Qed.

Lemma u32_self : forall x, (u32 x =? x) = true <-> x < 2^32.
Proof.
  intros. rewrite N.eqb_eq. split; intros H; [rewrite <- H; apply u32_lt|apply u32_small; assumption].
Qed.

Lemma off32_some : forall b o, off32 b = Some o <-> o = nlen b /\ nlen b < 2^32.
Proof.
  intros b o. unfold off32. destruct (u32 (nlen b) =? nlen b) eqn:E.
  - apply u32_self in E. split; [intros H; injection H as <-; auto|intros [-> _]; reflexivity].
  - split; [discriminate|]. intros [_ H]. apply u32_self in H. congruence.
Qed.

Lemma existsb_nul : forall s, existsb (N.eqb 0) s = false <-> nul_free s.
Proof.
  intros s. unfold nul_free. split.
  - intros H Hi. rewrite <- not_true_iff_false in H. apply H. apply existsb_exists. exists 0. auto.
  - intros H. apply not_true_iff_false. intros E. apply existsb_exists in E. destruct E as (x & Hx & E).
    apply N.eqb_eq in E. subst x. auto.
Qed.

(** The effect of Add. [content] is what the reader delivered. *)
Definition only_set_changed (w w' : iw) : Prop :=
  w_paths w' = w_paths w /\ w_nameData w' = w_nameData w /\ w_nameIndex w' = w_nameIndex w /\
  w_numName w' = w_numName w /\ w_post w' = w_post w /\ w_postFile w' = w_postFile w.

Inductive add_outcome (w : iw) (ps : list str) (docs : list doc) (name : str) (evs : list read_ev)
  : option (option skip_reason * iw) -> Prop :=
| ao_readfail : forall w', ~ ev_ok evs -> winv w' ps docs -> only_set_changed w w' ->
    add_outcome w ps docs name evs (Some (None, w'))
| ao_rejected : forall why w', rejected why (ev_content evs) -> winv w' ps docs ->
    only_set_changed w w' -> add_outcome w ps docs name evs (Some (Some why, w'))
| ao_accepted : forall w', ev_ok evs -> accepted (ev_content evs) -> nul_free name ->
    nlen (names_data docs) < 2^32 ->
    winv w' ps (docs ++ [(name, ev_content evs)]) ->
    add_outcome w ps docs name evs (Some (None, w'))
| ao_fatal : ev_ok evs -> accepted (ev_content evs) ->
    ~ nul_free name \/ 2^32 <= nlen (names_data docs) ->
    add_outcome w ps docs name evs None.

Lemma entry_in_snoc : forall docs d e, entry_in (docs ++ [d]) e <->
  entry_in docs e \/ exists t, has_trigram (snd d) t /\ e = t * 2^32 + nlen docs.
Proof.
  intros docs d e. split.
  - intros (i & d' & t & E & Ht & He). destruct (Nat.lt_ge_cases (N.to_nat i) (length docs)).
    + rewrite nth_error_app1 in E by assumption. left. exists i, d', t. auto.
    + rewrite nth_error_app2 in E by assumption. destruct (N.to_nat i - length docs)%nat eqn:Ei; cbn in E.
      * injection E as <-. right. exists t. split; [assumption|]. rewrite He. f_equal. unfold nlen. lia.
      * destruct n; discriminate.
  - intros [(i & d' & t & E & Ht & He)|(t & Ht & He)].
    + exists i, d', t. split; [|auto]. rewrite nth_error_app1; [assumption|].
      eapply nth_error_lt; eassumption.
    + exists (nlen docs), d, t. split; [|auto]. unfold nlen. rewrite Nnat.Nat2N.id.
      rewrite nth_error_app2, Nat.sub_diag by reflexivity. reflexivity.
Qed.

Lemma iw_add_spec : forall cap w ps docs name evs, (1 <= cap)%nat -> winv w ps docs ->
  Forall is_byte (ev_content evs) ->
  add_outcome w ps docs name evs (iw_add cap w name evs).
Proof.
  intros cap w ps docs name evs Hcap Hw Hb. unfold iw_add.
  destruct (scan_reads_spec evs [] (scan0 (w_set w)) (scan0_inv _ (proj1 Hw)) Hb) as (r & Er & Hr).
  rewrite Er. cbn [bind app] in *. change ([] ++ ev_content evs) with (ev_content evs) in Hr.
  destruct r as [st|why s|s].
  2:{ destruct why; try contradiction; destruct Hr as [Hs Hr]; apply ao_rejected; auto;
        try (apply winv_set; assumption); repeat split. }
  2:{ destruct Hr as [Hs Hr]. apply ao_readfail; auto; [apply winv_set; assumption|repeat split]. }
  destruct Hr as [Hev Hi]. pose proof (scan_verdict_spec _ _ Hi) as Hv.
  assert (Hset : set_ok (sc_set st)) by apply Hi.
  destruct (scan_verdict st) as [why|].
  { apply ao_rejected; [destruct why; try contradiction; exact Hv|apply winv_set; assumption|repeat split]. }
  assert (Hacc : accepted (ev_content evs)).
  { split; [|tauto]. split; [apply Hi|]. split; [apply Hi|]. apply Hv. }
  destruct Hw as (W1 & W2 & W3 & W4 & W5 & W6 & W7 & W8 & W9 & W10 & W11).
  unfold add_name. cbn [w_nameData with_set].
  destruct (existsb (N.eqb 0) name) eqn:En.
  { cbn [bind]. apply ao_fatal; auto. left. rewrite <- existsb_nul. congruence. }
  apply existsb_nul in En. rewrite W3.
  destruct (off32 (names_data docs)) as [off|] eqn:Eo.
  2:{ cbn [bind]. apply ao_fatal; auto. right. apply N.le_ngt. intros H.
      assert (Some (nlen (names_data docs)) = None) by (rewrite <- Eo; symmetry; apply off32_some; auto).
      discriminate. }
  apply off32_some in Eo. destruct Eo as [-> Ho]. cbn [bind fst snd].
  assert (Hid : nlen docs < 2^32) by (pose proof (names_data_length docs); lia).
  cbn [w_numName with_set]. rewrite W6, (u32_small _ Hid).
  set (w1 := mkIW _ _ _ _ _ _ _).
  assert (Hall : forall e, In e (concat (w_postFile w) ++ w_post w) ->
            e < 2^56 /\ e mod 2^32 < nlen docs /\ e / 2^32 < max_trigram).
  { intros e He. apply W9 in He. apply entry_in_bounds; [lia|assumption|assumption]. }
  assert (Htext : text_ok (ev_content evs)) by (split; [assumption|apply Hi]).
  assert (Hd : forall t, In t (dense (sc_set st)) <-> has_trigram (ev_content evs) t) by apply Hi.
  destruct (add_posts_spec cap (nlen docs) (dense (sc_set st)) w1 Hcap Hid) as (w' & Ew & Hr & HP & Hs & Hf).
  { intros t Ht. apply Hd in Ht. pose proof (trigram_bound _ _ Htext Ht) as Hx.
    change max_trigram with (2^24-1) in Hx. lia. }
  { apply Forall_forall. intros e He. destruct (Hall e) as (A1 & A2 & A3); [apply in_or_app; right; exact He|].
    split; [assumption|lia]. }
  { exact W10. }
  { exact W11. }
  rewrite Ew. cbn [bind]. apply ao_accepted; auto.
  destruct Hr as (R1 & R2 & R3 & R4 & R5). cbn [w1 w_set w_paths w_nameData w_nameIndex w_numName with_set] in *.
  split; [rewrite R1; exact Hset|]. split; [congruence|].
  split. { rewrite R3. unfold names_data. rewrite map_app, concat_app. cbn. rewrite app_nil_r. reflexivity. }
  split. { rewrite R4, W4, name_offsets_snoc, map_app, concat_app. cbn [map concat]. rewrite app_nil_r.
           rewrite N.add_0_l. reflexivity. }
  split. { rewrite name_offsets_snoc. apply Forall_app. split; [assumption|]. constructor; [|constructor].
           rewrite N.add_0_l. assumption. }
  split. { rewrite R5, nlen_snoc. reflexivity. }
  split. { apply Forall_app. split; [assumption|]. constructor; [|constructor]. auto. }
  assert (HIN : forall e, In e (concat (w_postFile w') ++ w_post w') <->
      In e (concat (w_postFile w) ++ w_post w) \/ exists t, has_trigram (ev_content evs) t /\ e = t * 2^32 + nlen docs).
  { intros e. assert (PI : In e (concat (w_postFile w') ++ w_post w') <->
       In e (concat (w_postFile w) ++ w_post w ++ map (fun t => t * 2 ^ 32 + nlen docs) (dense (sc_set st)))).
    { split; apply Permutation_in; [exact HP|apply Permutation_sym; exact HP]. }
    rewrite PI, app_assoc, in_app_iff. rewrite in_map_iff. setoid_rewrite Hd.
    split; (intros [H|(t & H1 & H2)]; [left; assumption|right; exists t; auto]). }
  split.
  { eapply Permutation_NoDup; [apply Permutation_sym; exact HP|]. rewrite app_assoc.
    apply NoDup_app_intro; [assumption| |].
    - apply FinFun.Injective_map_NoDup; [intros a b H; lia|]. apply Hset.
    - intros e He1 He2. apply in_map_iff in He2. destruct He2 as (t & <- & Ht).
      destruct (Hall _ He1) as (_ & A & _). apply Hd in Ht. pose proof (trigram_bound _ _ Htext Ht) as Hx.
      change max_trigram with (2^24-1) in Hx.
      destruct (entry_fields t (nlen docs)) as (F & _); [lia|assumption|]. rewrite F in A. lia. }
  split; [|auto].
  intros e. rewrite HIN, entry_in_snoc, W9. reflexivity.
Qed.

