(** Chunking, determinism of the verdict, and sequences of Adds (C04-C06, C11). *)
From Coq Require Import Sorted Permutation.
From Verif Require Import Model.Base Model.Codec Model.Sparse Model.Posts Model.Writer Model.IndexRun
  Spec.IndexSpec Spec.RunSpec Proofs.Arith Proofs.ListLemmas Proofs.SparseProofs Proofs.SortProofs
  Proofs.ScanProofs Proofs.RatioProofs Proofs.WriterProofs Proofs.MergeProofs.
Local Open Scope N_scope.

(** ** Chunking. *)
Lemma scan_bytes_app : forall a b st,
  scan_bytes st (a ++ b) =
  (r <- scan_bytes st a ;; match r with Running st' => scan_bytes st' b | _ => Some r end).
Proof.
  induction a as [|c a IH]; intros b st; [reflexivity|]. cbn [app scan_bytes].
  destruct (scan_byte st c) as [r|]; [|reflexivity]. cbn [bind].
  destruct r; [apply IH|reflexivity|reflexivity].
Qed.

Lemma scan_reads_content : forall evs st, ev_ok evs ->
  scan_reads st evs = scan_bytes st (ev_content evs).
Proof.
  induction evs as [|[b e] evs IH]; intros st H; [reflexivity|].
  destruct b as [|c b].
  - destruct e; cbn in H; try contradiction. reflexivity.
  - cbn [scan_reads ev_content ev_ok] in *. rewrite scan_bytes_app.
    destruct (scan_bytes st (c :: b)) as [r|]; [|reflexivity].
    cbn [bind]. destruct r; [apply IH; assumption|reflexivity|reflexivity].
Qed.

Lemma add_chunking : forall cap w name evs1 evs2, ev_ok evs1 -> ev_ok evs2 ->
  ev_content evs1 = ev_content evs2 -> iw_add cap w name evs1 = iw_add cap w name evs2.
Proof.
  intros cap w name evs1 evs2 H1 H2 E. unfold iw_add.
  rewrite !scan_reads_content, E by assumption. reflexivity.
Qed.

(** ** The verdict does not depend on the previous contents of the set's memory. *)
Definition same_set (s1 s2 : sset) : Prop := set_ok s1 /\ set_ok s2 /\ ss_dense s1 = ss_dense s2.
Definition same_scan (a b : scan) : Prop :=
  sc_tv a = sc_tv b /\ sc_n a = sc_n b /\ sc_linelen a = sc_linelen b /\
  sc_numlines a = sc_numlines b /\ sc_longlines a = sc_longlines b /\ same_set (sc_set a) (sc_set b).
Definition same_res (a b : option scan_res) : Prop :=
  match a, b with
  | Some (Running x), Some (Running y) => same_scan x y
  | Some (Skip r1 s1), Some (Skip r2 s2) => r1 = r2 /\ same_set s1 s2
  | Some (ReadFail s1), Some (ReadFail s2) => same_set s1 s2
  | None, None => True
  | _, _ => False
  end.

Lemma add_same : forall s1 s2 x, same_set s1 s2 -> x < 2^24 ->
  exists s1' s2', add s1 x = Some s1' /\ add s2 x = Some s2' /\ same_set s1' s2'.
Proof.
  intros s1 s2 x ((I1 & M1) & (I2 & M2) & E) Hx.
  destruct (add_correct s1 x I1) as (s1' & A1 & B1 & C1 & D1); [rewrite M1; assumption|].
  destruct (add_correct s2 x I2) as (s2' & A2 & B2 & C2 & D2); [rewrite M2; assumption|].
  exists s1', s2'. split; [assumption|]. split; [assumption|]. split; [split; congruence|].
  split; [split; congruence|]. rewrite D1, D2, E. reflexivity.
Qed.

Lemma scan_byte_same : forall a b c, same_scan a b -> c < 256 ->
  same_res (scan_byte a c) (scan_byte b c).
Proof.
  intros [tv n ll nl lg s1] [tv2 n2 ll2 nl2 lg2 s2] c (E1 & E2 & E3 & E4 & E5 & Hs) Hc.
  cbn [sc_tv sc_n sc_linelen sc_numlines sc_longlines sc_set] in *. subst tv2 n2 ll2 nl2 lg2.
  unfold scan_byte. cbn [sc_tv sc_n sc_linelen sc_numlines sc_longlines sc_set].
  set (tv' := (tv * 2 ^ 8) mod 2 ^ 24 + c).
  assert (Htv : tv' < 2^24).
  { unfold tv'. change (2^24) with (65536 * 2^8). rewrite N.mul_mod_distr_r by discriminate.
    pose proof (N.mod_lt tv 65536). lia. }
  assert (HS : exists s1' s2', (if 3 <=? n + 1 then add s1 tv' else Some s1) = Some s1' /\
                               (if 3 <=? n + 1 then add s2 tv' else Some s2) = Some s2' /\ same_set s1' s2').
  { destruct (3 <=? n + 1); [apply add_same; assumption|exists s1, s2; auto]. }
  destruct HS as (s1' & s2' & A & B & C). rewrite A, B. cbn [bind].
  destruct (negb (valid_utf8_pair ((tv' / 2^8) mod 256) (tv' mod 256))).
  { cbn. auto. }
  destruct (max_file_len <? n + 1); [cbn; auto|].
  destruct (c =? 10); cbn [same_res]; unfold same_scan;
    cbn [sc_tv sc_n sc_linelen sc_numlines sc_longlines sc_set]; auto 10.
Qed.

Lemma scan_bytes_same : forall d a b, same_scan a b -> Forall is_byte d ->
  same_res (scan_bytes a d) (scan_bytes b d).
Proof.
  induction d as [|c d IH]; intros a b H Hd; [exact H|]. inversion Hd; subst. cbn [scan_bytes].
  pose proof (scan_byte_same a b c H H2) as R.
  destruct (scan_byte a c) as [ra|], (scan_byte b c) as [rb|]; cbn [bind] in *;
    try (destruct ra; contradiction); try contradiction; auto.
  destruct ra, rb; cbn in R; try contradiction; [apply IH; assumption|exact R|exact R].
Qed.

Lemma scan_reads_same : forall evs a b, same_scan a b -> Forall is_byte (ev_content evs) ->
  same_res (scan_reads a evs) (scan_reads b evs).
Proof.
  induction evs as [|[d e] evs IH]; intros a b H Hd; [exact H|].
  destruct d as [|c d].
  - destruct e; cbn; try exact H; apply H.
  - cbn [scan_reads ev_content] in *. apply Forall_app in Hd. destruct Hd as [Hd1 Hd2].
    pose proof (scan_bytes_same (c :: d) a b H Hd1) as R.
    destruct (scan_bytes a (c :: d)) as [ra|], (scan_bytes b (c :: d)) as [rb|]; cbn [bind] in *;
      try (destruct ra; contradiction); try contradiction; auto.
    destruct ra, rb; cbn in R; try contradiction; [apply IH; assumption|exact R|exact R].
Qed.

Lemma scan0_same : forall s1 s2, set_ok s1 -> set_ok s2 -> same_scan (scan0 s1) (scan0 s2).
Proof.
  intros s1 s2 [I1 M1] [I2 M2]. do 5 (split; [reflexivity|]). cbn [scan0 sc_set].
  split; [split; [apply reset_sinv|]; assumption|]. split; [split; [apply reset_sinv|]; assumption|reflexivity].
Qed.

Lemma scan_verdict_same : forall a b, same_scan a b -> scan_verdict a = scan_verdict b.
Proof.
  intros a b (E1 & E2 & E3 & E4 & E5 & _ & _ & E6). unfold scan_verdict, set_len.
  rewrite E2, E4, E5, E6. reflexivity.
Qed.

Lemma verdict_same : forall cap1 cap2 w1 w2 n1 n2 evs why w1',
  set_ok (w_set w1) -> set_ok (w_set w2) -> Forall is_byte (ev_content evs) ->
  iw_add cap1 w1 n1 evs = Some (Some why, w1') ->
  exists w2', iw_add cap2 w2 n2 evs = Some (Some why, w2').
Proof.
  intros cap1 cap2 w1 w2 n1 n2 evs why w1' H1 H2 Hb. unfold iw_add.
  pose proof (scan_reads_same evs _ _ (scan0_same _ _ H1 H2) Hb) as R.
  destruct (scan_reads (scan0 (w_set w1)) evs) as [ra|]; [|discriminate].
  destruct (scan_reads (scan0 (w_set w2)) evs) as [rb|]; [|destruct ra; contradiction].
  cbn [bind]. destruct ra, rb; cbn in R; try contradiction.
  - rewrite (scan_verdict_same _ _ R). destruct (scan_verdict st0).
    + intros H. injection H as <- <-. eexists. reflexivity.
    + destruct (add_name _ n1) as [nw|]; [|discriminate]. cbn [bind].
      destruct (add_posts cap1 _ _ _); discriminate.
  - destruct R as [-> _]. intros H. injection H as <- <-. eexists. reflexivity.
  - discriminate.
Qed.

(** ** Sequences of Adds. *)
(** Two writers with different buffer capacities and memories run in step. *)
Lemma run_adds_same : forall files cap1 cap2 w1 w2 ps docs,
  (1 <= cap1)%nat -> (1 <= cap2)%nat -> files_ok files -> winv w1 ps docs -> winv w2 ps docs ->
  match run_adds cap1 w1 files, run_adds cap2 w2 files with
  | Some (vs1, w1'), Some (vs2, w2') =>
      vs1 = vs2 /\ exists docs', kept files vs1 docs' /\ winv w1' ps (docs ++ docs') /\ winv w2' ps (docs ++ docs')
  | None, None => True
  | _, _ => False
  end.
Proof.
  induction files as [|[name evs] files IH]; intros cap1 cap2 w1 w2 ps docs Hc1 Hc2 Hf Hw1 Hw2.
  - cbn. split; [reflexivity|]. exists []. rewrite app_nil_r. auto using kept_nil.
  - inversion Hf as [|? ? Hb Hf']; subst. cbn [snd] in Hb. cbn [run_adds].
    pose proof (iw_add_spec cap1 w1 ps docs name evs Hc1 Hw1 Hb) as O1.
    pose proof (iw_add_spec cap2 w2 ps docs name evs Hc2 Hw2 Hb) as O2.
    pose proof (verdict_same cap1 cap2 w1 w2 name name evs) as V12.
    pose proof (verdict_same cap2 cap1 w2 w1 name name evs) as V21.
    destruct (iw_add cap1 w1 name evs) as [[v1 w1']|] eqn:E1, (iw_add cap2 w2 name evs) as [[v2 w2']|] eqn:E2.
    + assert (v1 = v2).
      { destruct v1 as [why|].
        - destruct (V12 why w1' (proj1 Hw1) (proj1 Hw2) Hb eq_refl) as (x & E). congruence.
        - destruct v2 as [why|]; [|reflexivity].
          destruct (V21 why w2' (proj1 Hw2) (proj1 Hw1) Hb eq_refl) as (x & E). congruence. }
      subst v2. cbn [bind fst snd].
      assert (HD : exists d', winv w1' ps (docs ++ d') /\ winv w2' ps (docs ++ d') /\
         forall vs docs', kept files vs docs' -> kept ((name, evs) :: files) (v1 :: vs) (d' ++ docs')).
      { inversion O1; subst; inversion O2; subst; try congruence; try contradiction.
        - exists []. rewrite app_nil_r. cbn. auto using kept_err.
        - exists []. rewrite app_nil_r. cbn. split; [assumption|]. split; [assumption|].
          intros. apply kept_skip; assumption.
        - exists [(name, ev_content evs)]. split; [assumption|]. split; [assumption|].
          intros. cbn [app]. apply kept_in; assumption. }
      destruct HD as (d' & HD1 & HD2 & HD3).
      specialize (IH cap1 cap2 w1' w2' ps (docs ++ d') Hc1 Hc2 Hf' HD1 HD2).
      destruct (run_adds cap1 w1' files) as [[vs1 w1'']|], (run_adds cap2 w2' files) as [[vs2 w2'']|];
        cbn [bind fst snd]; auto.
      destruct IH as (-> & docs' & K & A & B). split; [reflexivity|].
      exists (d' ++ docs'). rewrite app_assoc. auto.
    + exfalso. inversion O2; subst. inversion O1; subst; try contradiction.
      * destruct (V12 why w1' (proj1 Hw1) (proj1 Hw2) Hb eq_refl) as (x & E). congruence.
      * destruct H1 as [H1|H1]; [contradiction|lia].
    + exfalso. inversion O1; subst. inversion O2; subst; try contradiction.
      * destruct (V21 why w2' (proj1 Hw2) (proj1 Hw1) Hb eq_refl) as (x & E). congruence.
      * destruct H1 as [H1|H1]; [contradiction|lia].
    + exact I.
Qed.

(** When does a sequence of Adds stop the process? *)
Lemma run_adds_total : forall files cap w ps docs, (1 <= cap)%nat -> files_ok files -> winv w ps docs ->
  Forall (fun f : file => nul_free (fst f)) files ->
  nlen (names_data docs) + fold_right (fun (f : file) n => nlen (fst f) + 1 + n) 0 files < 2^32 ->
  run_adds cap w files <> None.
Proof.
  induction files as [|[name evs] files IH]; intros cap w ps docs Hc Hf Hw Hn Hs; [discriminate|].
  inversion Hf as [|? ? Hb Hf']; subst. inversion Hn as [|? ? Hn1 Hn2]; subst.
  cbn [run_adds fold_right fst snd] in *.
  pose proof (iw_add_spec cap w ps docs name evs Hc Hw Hb) as O.
  destruct (iw_add cap w name evs) as [[v w']|]; cbn [bind fst snd].
  - assert (HW : exists docs', winv w' ps docs' /\ nlen (names_data docs') <= nlen (names_data docs) + (nlen name + 1)).
    { inversion O; subst; [exists docs|exists docs|exists (docs ++ [(name, ev_content evs)])];
        (split; [assumption|]); try lia.
      unfold names_data. rewrite map_app, concat_app. cbn [map concat fst]. rewrite !nlen_app.
      unfold nlen. cbn. lia. }
    destruct HW as (docs' & HW & HL).
    specialize (IH cap w' ps docs' Hc Hf' HW Hn2 ltac:(lia)).
    destruct (run_adds cap w' files) as [[? ?]|]; [cbn; discriminate|congruence].
  - inversion O; subst. destruct H1 as [H1|H1]; [contradiction|lia].
Qed.

Lemma build_index_spec : forall cap mem paths files vs b, (1 <= cap)%nat -> files_ok files ->
  build_index cap mem paths files = Some (vs, b) ->
  exists docs L, kept files vs docs /\ sorted_entries docs L /\
    Forall (fun d => nul_free (fst d) /\ text_ok (snd d)) docs /\
    b = layout paths docs L /\ nlen b < 2^32.
Proof.
  intros cap mem paths files vs b Hc Hf. unfold build_index.
  pose proof (winv_paths _ [] [] paths (winv_create mem)) as W0. cbn [app] in W0.
  pose proof (run_adds_same files cap cap _ _ paths [] Hc Hc Hf W0 W0) as R.
  destruct (run_adds cap (add_paths (iw_create mem) paths) files) as [[vs' w']|]; [|discriminate].
  destruct R as (_ & docs & K & W & _). cbn [app] in W. cbn [bind fst snd].
  pose proof (iw_flush_spec _ _ _ W) as F. inversion F as [L HL Hlt E|]; [|discriminate].
  cbn [bind]. intros H. injection H as <- <-. exists docs, L.
  destruct W as (_ & _ & _ & _ & _ & _ & W7 & _). auto.
Qed.

Lemma build_index_same : forall cap1 cap2 mem1 mem2 paths files,
  (1 <= cap1)%nat -> (1 <= cap2)%nat -> files_ok files ->
  build_index cap1 mem1 paths files = build_index cap2 mem2 paths files.
Proof.
  intros cap1 cap2 mem1 mem2 paths files H1 H2 Hf. unfold build_index.
  pose proof (winv_paths _ [] [] paths (winv_create mem1)) as W1.
  pose proof (winv_paths _ [] [] paths (winv_create mem2)) as W2. cbn [app] in W1, W2.
  pose proof (run_adds_same files cap1 cap2 _ _ paths [] H1 H2 Hf W1 W2) as R.
  destruct (run_adds cap1 _ files) as [[vs1 w1]|], (run_adds cap2 _ files) as [[vs2 w2]|];
    try contradiction; [|reflexivity].
  destruct R as (-> & docs & _ & A & B). cbn [app] in *. cbn [bind fst snd].
  pose proof (iw_flush_spec _ _ _ A) as F1. pose proof (iw_flush_spec _ _ _ B) as F2.
  inversion F1 as [L1 HL1 Hs1 E1|Hb1 E1]; inversion F2 as [L2 HL2 Hs2 E2|Hb2 E2]; cbn [bind].
  - rewrite (sorted_entries_unique _ _ _ HL1 HL2). reflexivity.
  - specialize (Hb2 _ HL1). lia.
  - specialize (Hb1 _ HL2). lia.
  - reflexivity.
Qed.
