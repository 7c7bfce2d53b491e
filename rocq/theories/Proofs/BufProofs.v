(** bufWriter is transparent (C13). *)
From Verif Require Import Model.Base Model.Codec Model.BufWriter Spec.WriteSpec Proofs.Arith Proofs.CodecProofs.

Fixpoint run_wop (b : bufw) (o : write_op) : bufw :=
  match o with
  | WBytes x => bwrite b x
  | WByte x => bwrite_byte b x
  | WTrigram t => bwrite_trigram b t
  | WUint32 x => bwrite_uint32 b x
  | WUvarint x => bwrite_uvarint b x
  | WFlush => bflush b
  | WCopy extra src => bcopy b (fold_left run_wop src (buf_create (5 + extra)))
  end.
Definition run_wops (b : bufw) (os : list write_op) : bufw := fold_left run_wop os b.

Definition content (b : bufw) : bytes := bw_file b ++ bw_buf b.
Definition binv (cap : nat) (b : bufw) : Prop := bw_cap b = cap /\ length (bw_buf b) <= cap.

Lemma bflush_spec : forall cap b, binv cap b ->
  content (bflush b) = content b /\ binv cap (bflush b) /\ bw_buf (bflush b) = [].
Proof.
  intros cap [f u c] [H1 H2]. unfold bflush, content, binv in *. cbn in *. subst c.
  destruct u; cbn; [auto|]. rewrite app_nil_r. repeat split. lia.
Qed.

Lemma breserve_spec : forall cap b k x, binv cap b -> length x <= k -> k <= cap ->
  content (breserve b k x) = content b ++ x /\ binv cap (breserve b k x).
Proof.
  intros cap b k x Hb Hx Hk. unfold breserve.
  destruct (bflush_spec cap b Hb) as (F1 & F2 & F3). pose proof Hb as [Hc Hl].
  destruct (Nat.ltb_spec (bw_cap b - length (bw_buf b)) k).
  - unfold content, bappend, binv in *. cbn. rewrite app_assoc, F1, F3. cbn. split; [reflexivity|].
    destruct F2. split; [assumption|lia].
  - unfold content, bappend, binv in *. cbn. rewrite app_assoc, app_length. split; [reflexivity|].
    split; [assumption|lia].
Qed.

Lemma run_wop_spec : forall o cap b, 5 <= cap -> binv cap b ->
  content (run_wop b o) = content b ++ op_bytes o /\ binv cap (run_wop b o).
Proof.
  fix IH 1. intros o cap b Hcap Hb. destruct o; cbn [run_wop op_bytes].
  - unfold bwrite. destruct (bflush_spec cap b Hb) as (F1 & F2 & F3). pose proof Hb as [Hc Hl].
    destruct (Nat.ltb_spec (bw_cap b - length (bw_buf b)) (length x)).
    + destruct F2 as [F2 _]. rewrite F2. unfold content, bappend, binv in *.
      destruct (Nat.leb_spec cap (length x)); cbn; rewrite F3 in *; rewrite ?app_nil_r in *; cbn.
      * rewrite F1. split; [reflexivity|split; [reflexivity|lia]].
      * rewrite F1. split; [reflexivity|split; [assumption|lia]].
    + unfold content, bappend, binv in *. cbn. rewrite app_assoc, app_length. split; [reflexivity|].
      split; [assumption|lia].
  - unfold bwrite_byte. destruct (bflush_spec cap b Hb) as (F1 & F2 & F3). pose proof Hb as [Hc Hl].
    destruct (Nat.leb_spec (bw_cap b) (length (bw_buf b))); unfold content, bappend, binv in *; cbn.
    + rewrite app_assoc, F1, F3. split; [reflexivity|]. destruct F2. split; [assumption|cbn; lia].
    + rewrite app_assoc, app_length. cbn. split; [reflexivity|]. split; [assumption|lia].
  - apply breserve_spec; [assumption|cbn; lia|lia].
  - apply breserve_spec; [assumption|cbn; lia|lia].
  - apply breserve_spec; [assumption|apply put_uvarint_le5|lia].
  - destruct (bflush_spec cap b Hb) as (F1 & F2 & F3). rewrite app_nil_r. auto.
  - assert (G : forall l b' cap', 5 <= cap' -> binv cap' b' ->
      content (fold_left run_wop l b') = content b' ++ concat (map op_bytes l) /\ binv cap' (fold_left run_wop l b')).
    { clear - IH. induction l as [|o l IHl]; intros b' cap' Hc Hb; cbn [fold_left map concat].
      - rewrite app_nil_r. auto.
      - destruct (IH o cap' b' Hc Hb) as (H1 & H2). destruct (IHl _ _ Hc H2) as (H3 & H4). rewrite H3, H1, app_assoc. auto. }
    destruct (G src (buf_create (5 + extra)) (5 + extra)) as (S1 & S2); [lia|split; cbn; [reflexivity|lia]|].
    destruct (bflush_spec _ _ S2) as (S3 & _ & S5).
    destruct (bflush_spec cap b Hb) as (F1 & F2 & F3). unfold bcopy, bfinish. set (src' := fold_left run_wop src _) in *.
    replace (bw_file (bflush src')) with (concat (map op_bytes src)).
    + unfold content, binv in *. cbn. rewrite F3, app_nil_r in *. rewrite F1. destruct F2. split; [reflexivity|split; [assumption|cbn; lia]].
    + rewrite <- (app_nil_l (concat _)). change ([] ++ concat (map op_bytes src)) with (content (buf_create (5 + extra)) ++ concat (map op_bytes src)).
      rewrite <- S1, <- S3. unfold content. rewrite S5, app_nil_r. reflexivity.
Qed.

Lemma run_wops_spec : forall cap os b, 5 <= cap -> binv cap b ->
  content (run_wops b os) = content b ++ ops_bytes os /\ binv cap (run_wops b os).
Proof.
  induction os as [|o os IH]; intros b Hc Hb; cbn [run_wops fold_left].
  - unfold ops_bytes. cbn. rewrite app_nil_r. auto.
  - destruct (run_wop_spec o cap b Hc Hb) as [H1 H2]. destruct (IH _ Hc H2) as [H3 H4].
    unfold run_wops in *. rewrite H3, H1. unfold ops_bytes. cbn. rewrite app_assoc. auto.
Qed.

Lemma bufwriter_transparent : forall cap os, 5 <= cap ->
  let b := run_wops (buf_create cap) os in
  bfinish b = ops_bytes os /\
  (forall n, boffset b = Some n <-> n = nlen (ops_bytes os) /\ (n < 2^32)%N) /\
  length (bw_buf b) <= cap.
Proof.
  intros cap os Hc b.
  destruct (run_wops_spec cap os (buf_create cap) Hc) as [H1 H2]; [split; cbn; [reflexivity|lia]|].
  fold b in H1, H2. cbn in H1. destruct (bflush_spec cap b H2) as (F1 & F2 & F3).
  split; [|split].
  - unfold bfinish. unfold content in *. rewrite F3, app_nil_r in F1. congruence.
  - intros n. unfold boffset, nlen.
    assert (E : (N.of_nat (length (bw_file b)) + N.of_nat (length (bw_buf b)))%N
                = N.of_nat (length (ops_bytes os))).
    { rewrite <- H1. unfold content. rewrite app_length. lia. }
    rewrite E. set (m := N.of_nat _).
    destruct (N.eqb_spec (u32 m) m) as [Hm|Hm].
    + split; [intros H; injection H as <-|intros [-> _]; reflexivity].
      split; [reflexivity|]. rewrite <- Hm. apply u32_lt.
    + split; [discriminate|]. intros [-> Hn]. exfalso. apply Hm. apply u32_small. assumption.
  - apply H2.
Qed.
