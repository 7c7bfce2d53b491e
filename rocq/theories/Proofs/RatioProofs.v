(** The single-precision comparison with 0.1 (C11). *)
From Verif Require Import Model.Base Model.Sparse Model.Writer Spec.IndexSpec Spec.RunSpec Proofs.Arith
  Proofs.ListLemmas Proofs.SparseProofs Proofs.ScanProofs.
Local Open Scope N_scope.

Lemma to_f32_small : forall x, x <= 2^24 -> to_f32 x = x.
Proof.
  intros x H. unfold to_f32. destruct (N.ltb_spec x (2^24)); [reflexivity|].
  assert (x = 2^24) as -> by lia. vm_compute. reflexivity.
Qed.

Lemma to_f32_near : forall x, x <= 2^25 -> x <= to_f32 x + 1 /\ to_f32 x <= x + 1.
Proof.
  intros x H. destruct (N.le_gt_cases x (2^24)) as [H1|H1].
  { rewrite to_f32_small by assumption. lia. }
  destruct (N.eq_dec x (2^25)) as [->|Hx].
  { assert (to_f32 (2^25) = 2^25) as -> by (vm_compute; reflexivity). lia. }
  unfold to_f32. destruct (N.ltb_spec x (2^24)); [lia|].
  assert (Hl : N.log2 x = 24).
  { apply N.log2_unique; [lia|]. split; [assumption|]. change (2 ^ N.succ 24) with (2^25). lia. }
  rewrite Hl. change (24 - 23) with 1. change (2^1) with 2. change (2^(1-1)) with 1.
  pose proof (N.div_mod x 2 ltac:(discriminate)) as D.
  pose proof (N.mod_lt x 2 ltac:(discriminate)) as M.
  set (q := x / 2) in *. set (r := x mod 2) in *. clearbody q r.
  destruct (N.ltb_spec 1 r); [lia|].
  destruct (N.eqb_spec 1 r); destruct (N.odd q); cbn [orb andb]; lia.
Qed.

Lemma ratio_exact : forall a b, a <= 2^24 -> 0 < b <= 2^24 ->
  (ratio_gt_tenth a b = true <-> b < 10 * a).
Proof.
  intros a b Ha Hb. unfold ratio_gt_tenth.
  rewrite !to_f32_small by lia. destruct (N.eqb_spec b 0); [lia|].
  rewrite N.leb_le. change (2^28) with 268435456. change (2^24) with 16777216 in *. lia.
Qed.

Lemma ratio_near : forall a b, a <= 2^24 -> 0 < b <= 2^25 ->
  (b + 2 < 10 * a -> ratio_gt_tenth a b = true) /\
  (ratio_gt_tenth a b = true -> b - 1 < 10 * a).
Proof.
  intros a b Ha Hb. unfold ratio_gt_tenth. rewrite (to_f32_small a) by lia.
  destruct (to_f32_near b) as [H1 H2]; [lia|]. set (fb := to_f32 b) in *. clearbody fb.
  change (2^28) with 268435456. change (2^24) with 16777216 in *. change (2^25) with 33554432 in *.
  destruct (N.eqb_spec fb 0) as [E|E].
  - subst fb. destruct (N.eqb_spec a 0); cbn [negb]; split; intros; try reflexivity; try discriminate; try lia; exfalso; lia.
  - rewrite N.leb_le. lia.
Qed.

(** Every long line has more than 2000 bytes. *)
Lemma long_lines_bytes : forall ls, count_long ls * 2001 <= nlen (concat ls).
Proof.
  induction ls as [|l ls IH]; [cbn; lia|].
  unfold count_long, nlen in *. cbn [filter concat]. rewrite app_length.
  unfold len in *. destruct (N.ltb_spec 2000 (N.of_nat (length l))); cbn [length]; lia.
Qed.

Lemma count_long_le : forall ls, count_long ls <= nlen ls.
Proof. intros. unfold count_long, nlen. pose proof (filter_length_le (fun l => 2000 <? len l) ls). lia. Qed.

Lemma trigram_list_unique_len : forall b l1 l2, trigram_list b l1 -> trigram_list b l2 -> len l1 = len l2.
Proof.
  intros b l1 l2 [N1 H1] [N2 H2]. unfold len. f_equal. apply Nat.le_antisymm.
  - apply NoDup_incl_length; [assumption|]. intros x Hx. apply H2, H1, Hx.
  - apply NoDup_incl_length; [assumption|]. intros x Hx. apply H1, H2, Hx.
Qed.

Lemma long_ratio : forall b ls rest, lines_of b ls rest -> nlen b <= 33554432 ->
  (ratio_gt_tenth (count_long ls) (nlen ls) = true <-> nlen ls < 10 * count_long ls).
Proof.
  intros b ls rest (E & _ & F) Hb.
  pose proof (long_lines_bytes ls). pose proof (count_long_le ls).
  assert (nlen (concat ls) <= nlen b) by (subst b; unfold nlen; rewrite app_length; lia).
  destruct (N.eq_dec (nlen ls) 0) as [Z|Z].
  - rewrite Z in *. assert (count_long ls = 0) as -> by lia. vm_compute. intuition discriminate.
  - destruct (N.le_gt_cases (nlen ls) (2^24)) as [L|L].
    + apply ratio_exact; [change (2^24) with 16777216; lia|lia].
    + split; [|change (2^24) with 16777216 in L; lia].
      unfold ratio_gt_tenth. rewrite (to_f32_small (count_long ls)) by (change (2^24) with 16777216; lia).
      assert (nlen ls <= nlen (concat ls)).
      { clear -F. unfold nlen. induction F as [|l ls (body & -> & _) F IH]; cbn [length concat]; [lia|].
        rewrite !app_length. cbn. lia. }
      destruct (to_f32_near (nlen ls)) as [H5 H6]; [change (2^25) with 33554432; lia|].
      set (fb := to_f32 (nlen ls)) in *. clearbody fb. change (2^24) with 16777216 in *.
      change (2^28) with 268435456.
      destruct (N.eqb_spec fb 0); [lia|]. rewrite N.leb_le. lia.
Qed.

(** The verdict after the whole text has been scanned. *)
Lemma scan_verdict_spec : forall b st, sc_inv b st ->
  match scan_verdict st with
  | None => lines_ok b /\ ~ too_many_trigrams b (len b + 2) /\
            (len b <= 16777216 -> ~ too_many_trigrams b (len b))
  | Some TrigramRatio => too_many_trigrams b (len b - 1) /\
            (len b <= 16777216 -> too_many_trigrams b (len b))
  | Some LongLines => ~ lines_ok b
  | Some _ => False
  end.
Proof.
  intros b st (_ & Hn & [Hs Hm] & Hin & (ls & rest & L1 & L2 & L3 & L4) & _ & Hlen).
  set (d := dense (sc_set st)) in *.
  assert (TL : trigram_list b d) by (split; [apply Hs|assumption]).
  assert (Hd : nlen d <= 2^24).
  { rewrite <- Hm. apply nodup_bound; [apply Hs|]. intros x Hx. apply Hs. exact Hx. }
  unfold scan_verdict. change (set_len (sc_set st)) with (nlen d). rewrite Hn.
  change (len b) with (nlen b).
  assert (TM : forall n, too_many_trigrams b n <-> 20000 < nlen d /\ n < 10 * nlen d).
  { intros n. split.
    - intros (ts & T & H1 & H2). rewrite (trigram_list_unique_len b ts d T TL) in *. auto.
    - intros H. exists d. auto. }
  clear TL.
  destruct (N.ltb_spec 0 (nlen b)) as [Hb|Hb].
  - destruct (ratio_near (nlen d) (nlen b) Hd) as [R1 R2]; [change (2^25) with 33554432; lia|].
    assert (R3 : nlen b <= 16777216 -> (ratio_gt_tenth (nlen d) (nlen b) = true <-> nlen b < 10 * nlen d)).
    { intros H. apply ratio_exact; [assumption|]. change (2^24) with 16777216. lia. }
    change max_text_trigrams with 20000.
    assert (V : match (if ratio_gt_tenth (sc_longlines st) (sc_numlines st) then Some LongLines else None) with
             | None => lines_ok b | _ => ~ lines_ok b end).
    { rewrite L2, L3. pose proof (long_ratio b ls rest L1 Hlen) as LR.
      destruct (ratio_gt_tenth (count_long ls) (nlen ls)).
      - intros H. specialize (H ls rest L1). pose proof (proj1 LR eq_refl). unfold nlen in *. lia.
      - intros ls' rest' L'. destruct (lines_unique _ _ _ _ _ L1 L') as [<- <-].
        apply N.nlt_ge. intros H. apply LR in H. discriminate. }
    destruct (ratio_gt_tenth (nlen d) (nlen b)) eqn:ER; destruct (N.ltb_spec 20000 (nlen d)) as [H2|H2];
      cbn [andb].
    + rewrite !TM. specialize (R2 eq_refl). split; [lia|]. intros H. apply R3 in H. intuition.
    + destruct (ratio_gt_tenth (sc_longlines st) (sc_numlines st)); [exact V|].
      rewrite !TM. split; [exact V|]. lia.
    + destruct (ratio_gt_tenth (sc_longlines st) (sc_numlines st)); [exact V|].
      rewrite !TM. split; [exact V|]. split.
      * intros [_ H]. specialize (R1 H). discriminate.
      * intros H [_ H']. apply R3 in H. apply H in H'. discriminate.
    + destruct (ratio_gt_tenth (sc_longlines st) (sc_numlines st)); [exact V|].
      rewrite !TM. split; [exact V|]. lia.
  - destruct b; [|unfold nlen in Hb; cbn in Hb; lia].
    assert (D0 : d = []).
    { destruct d as [|t d']; [reflexivity|]. exfalso.
      destruct (proj1 (Hin t) (or_introl eq_refl)) as (p & x & y & z & s & E & _). destruct p; discriminate. }
    rewrite !TM, D0. split; [|cbn; lia].
    intros ls' rest' (E & _ & F). destruct ls' as [|l ls']; [cbn; lia|].
    inversion F as [|? ? (body & -> & _) _]; subst. destruct body; discriminate.
Qed.
