(** The scan loop of IndexWriter.Add against Spec/IndexSpec (C11). *)
From Coq Require Import Sorted Permutation.
From Verif Require Import Model.Base Model.Codec Model.Sparse Model.Posts Model.Writer
  Spec.IndexSpec Spec.RunSpec Proofs.Arith Proofs.ListLemmas Proofs.SparseProofs.
Local Open Scope N_scope.

Lemma snoc2_inj : forall {A} (p p' : list A) x y x' y',
  p ++ [x; y] = p' ++ [x'; y'] -> p = p' /\ x = x' /\ y = y'.
Proof.
  intros A p p' x y x' y' H.
  change [x; y] with ([x] ++ [y]) in H. change [x'; y'] with ([x'] ++ [y']) in H.
  rewrite !app_assoc in H. apply app_inj_tail in H. destruct H as [H ->].
  apply app_inj_tail in H. destruct H as [-> ->]. auto.
Qed.

(** A decomposition of [b ++ [c]] around a non-empty middle part either ends at [c] or
    lies within [b]. *)
Lemma app_snoc_cases : forall {A} (b : list A) c p m s, m <> [] ->
  b ++ [c] = p ++ m ++ s ->
  (s = [] /\ b ++ [c] = p ++ m) \/ exists s', s = s' ++ [c] /\ b = p ++ m ++ s'.
Proof.
  intros A b c p m s Hm H. destruct s as [|z s] using rev_ind.
  - left. rewrite app_nil_r in H. auto.
  - right. exists s. rewrite !app_assoc in H. apply app_inj_tail in H. destruct H as [-> ->].
    rewrite <- app_assoc. auto.
Qed.

Lemma has_trigram_snoc : forall b c t, has_trigram (b ++ [c]) t <->
  has_trigram b t \/ exists p x y, b = p ++ [x; y] /\ t = x * 65536 + y * 256 + c.
Proof.
  intros b c t. split.
  - intros (p & x & y & z & s & E & Ht). apply app_snoc_cases in E; [|discriminate].
    destruct E as [[-> E]|(s' & -> & E)].
    + right. change [x; y; z] with ([x; y] ++ [z]) in E. rewrite app_assoc in E.
      apply app_inj_tail in E. destruct E as [-> ->]. eauto.
    + left. exists p, x, y, z, s'. auto.
  - intros [(p & x & y & z & s & -> & Ht)|(p & x & y & -> & Ht)].
    + exists p, x, y, z, (s ++ [c]). rewrite <- !app_assoc. auto.
    + exists p, x, y, c, []. rewrite <- !app_assoc. auto.
Qed.

Lemma pairs_ok_snoc : forall b c p x y, 0 :: b = p ++ [y] -> x = y ->
  (pairs_ok (b ++ [c]) <-> pairs_ok b /\ may_follow (class_of x) (class_of c)).
Proof.
  intros b c p x y Hb ->. unfold pairs_ok. split.
  - intros H. split.
    + intros q u v s E. apply (H q u v (s ++ [c])).
      change (0 :: b ++ [c]) with ((0 :: b) ++ [c]). rewrite E, <- !app_assoc. reflexivity.
    + apply (H p y c []). change (0 :: b ++ [c]) with ((0 :: b) ++ [c]).
      rewrite Hb, <- app_assoc. reflexivity.
  - intros [H1 H2] q u v s E. change (0 :: b ++ [c]) with ((0 :: b) ++ [c]) in E.
    apply app_snoc_cases in E; [|discriminate]. destruct E as [[-> E]|(s' & -> & E)].
    + rewrite Hb, <- app_assoc in E. cbn in E. apply snoc2_inj in E. destruct E as (_ & -> & ->).
      assumption.
    + eapply H1. exact E.
Qed.

Lemma pairs_ok_prefix : forall a b, pairs_ok (a ++ b) -> pairs_ok a.
Proof.
  intros a b H p x y s E. apply (H p x y (s ++ b)).
  change (0 :: a ++ b) with ((0 :: a) ++ b). rewrite E, <- !app_assoc. reflexivity.
Qed.

Lemma lines_snoc_nl : forall b ls rest, lines_of b ls rest ->
  lines_of (b ++ [10]) (ls ++ [rest ++ [10]]) [].
Proof.
  intros b ls rest (-> & H2 & H3). split; [|split].
  - rewrite concat_app. cbn. rewrite !app_nil_r, app_assoc. reflexivity.
  - intros [].
  - apply Forall_app. split; [assumption|]. constructor; [|constructor]. eauto.
Qed.

Lemma lines_snoc_other : forall b ls rest c, c <> 10 -> lines_of b ls rest ->
  lines_of (b ++ [c]) ls (rest ++ [c]).
Proof.
  intros b ls rest c Hc (-> & H2 & H3). split; [|split; [|assumption]].
  - rewrite app_assoc. reflexivity.
  - rewrite in_app_iff. cbn. intuition.
Qed.

(** The decomposition into lines is unique. *)
Lemma lines_unique : forall ls1 ls2 b r1 r2,
  lines_of b ls1 r1 -> lines_of b ls2 r2 -> ls1 = ls2 /\ r1 = r2.
Proof.
  assert (S : forall p1 q1 p2 q2, ~ In 10 p1 -> ~ In 10 p2 ->
     p1 ++ 10 :: q1 = p2 ++ 10 :: q2 -> p1 = p2 /\ q1 = q2).
  { induction p1 as [|x p1 IH]; intros q1 p2 q2 H1 H2 E; destruct p2 as [|y p2]; cbn in E.
    - injection E as ->. auto.
    - injection E as Ey _. exfalso. apply H2. left. congruence.
    - injection E as Ey _. exfalso. apply H1. left. congruence.
    - injection E as -> E. apply IH in E; [destruct E as [-> ->]; auto| |];
        intros Hi; [apply H1|apply H2]; right; assumption. }
  induction ls1 as [|l1 ls1 IH]; intros ls2 b r1 r2 (E1 & N1 & F1) (E2 & N2 & F2);
    destruct ls2 as [|l2 ls2].
  - cbn in *. split; congruence.
  - exfalso. inversion F2 as [|? ? (body & -> & Hb) F2']; subst. cbn in E2. apply N1.
    rewrite E2, !in_app_iff. left. left. right. left. reflexivity.
  - exfalso. inversion F1 as [|? ? (body & -> & Hb) F1']; subst. cbn in E2. apply N2.
    rewrite <- E2, !in_app_iff. left. left. right. left. reflexivity.
  - inversion F1 as [|? ? (b1 & -> & H1) F1']; inversion F2 as [|? ? (b2 & -> & H2) F2']; subst.
    cbn in E2. rewrite <- !app_assoc in E2. cbn in E2. apply S in E2; auto.
    destruct E2 as [-> E2].
    destruct (IH ls2 (concat ls1 ++ r1) r1 r2) as [-> ->]; auto; repeat split; auto.
Qed.

Definition set_ok (s : sset) : Prop := sinv s /\ ss_max s = 2^24.

(** What the loop variables say about the bytes scanned so far. *)
Definition sc_inv (b : bytes) (st : scan) : Prop :=
  (exists p x y, 0 :: 0 :: b = p ++ [x; y] /\ x < 256 /\ y < 256 /\
                 sc_tv st mod 65536 = x * 256 + y) /\
  sc_n st = nlen b /\
  set_ok (sc_set st) /\
  (forall t, In t (dense (sc_set st)) <-> has_trigram b t) /\
  (exists ls rest, lines_of b ls rest /\ sc_numlines st = nlen ls /\
     sc_longlines st = count_long ls /\ sc_linelen st = nlen rest) /\
  pairs_ok b /\ nlen b <= 33554432.

Lemma scan0_inv : forall s, set_ok s -> sc_inv [] (scan0 s).
Proof.
  intros s [Hs Hm]. split; [|split; [|split; [|split; [|split; [|split]]]]]; cbn.
  - exists [], 0, 0. repeat split; lia.
  - reflexivity.
  - split; [apply reset_sinv; assumption|assumption].
  - intros t. split; [intros []|]. intros (p & a & c & d & q & E & _).
    destruct p; discriminate.
  - exists [], []. repeat split; auto.
  - intros p x y s' E. destruct p as [|? [|? ?]]; discriminate.
  - cbn. lia.
Qed.

Lemma class_pair : forall x y, x < 256 -> y < 256 ->
  (valid_utf8_pair x y = true <-> may_follow (class_of x) (class_of y)).
Proof.
  intros x y Hx Hy. unfold valid_utf8_pair, class_of.
  destruct (N.ltb_spec x 0x80), (N.ltb_spec x 0xc0), (N.ltb_spec x 0xf8); try lia;
  destruct (N.ltb_spec y 0x80), (N.ltb_spec y 0xc0), (N.ltb_spec y 0xf8); try lia;
  destruct (N.leb_spec 0xc0 y); try lia; destruct (N.leb_spec 0x80 y); try lia;
  cbn; split; auto; try discriminate; contradiction.
Qed.

Lemma nlen_snoc : forall {A} (l : list A) x, nlen (l ++ [x]) = nlen l + 1.
Proof. intros. unfold nlen. rewrite app_length. cbn. lia. Qed.

Lemma tv_step : forall tv x y c, x < 256 -> y < 256 -> c < 256 ->
  tv mod 65536 = x * 256 + y ->
  let tv' := (tv * 2^8) mod 2^24 + c in
  tv' = x * 65536 + y * 256 + c /\ (tv' / 2^8) mod 256 = y /\ tv' mod 256 = c /\
  tv' mod 65536 = y * 256 + c /\ tv' < 2^24.
Proof.
  intros tv x y c Hx Hy Hc E tv'.
  assert (Htv : tv' = x * 65536 + y * 256 + c).
  { unfold tv'. change (2^24) with (65536 * 256). change (2^8) with 256.
    rewrite N.mul_mod_distr_r by discriminate. rewrite E. lia. }
  clearbody tv'. subst tv'. split; [reflexivity|].
  assert (E1 : x * 65536 + y * 256 + c = c + (x * 256 + y) * 256) by lia.
  assert (E2 : x * 65536 + y * 256 + c = y * 256 + c + x * 65536) by lia.
  repeat split.
  - rewrite E1. change (2^8) with 256. rewrite N.div_add by discriminate.
    rewrite N.div_small by assumption. rewrite N.add_0_l, N.add_comm, N.mod_add by discriminate.
    apply N.mod_small. assumption.
  - rewrite E1, N.mod_add by discriminate. apply N.mod_small. assumption.
  - rewrite E2, N.mod_add by discriminate. apply N.mod_small. lia.
  - change (2^24) with 16777216. lia.
Qed.

Lemma count_long_snoc : forall ls l, count_long (ls ++ [l]) =
  if 2000 <? nlen l then count_long ls + 1 else count_long ls.
Proof.
  intros. unfold count_long. rewrite filter_app, app_length. cbn [filter].
  change (len l) with (nlen l). destruct (2000 <? nlen l); cbn; lia.
Qed.

(** One byte. *)
Lemma scan_byte_spec : forall b st c, sc_inv b st -> c < 256 ->
  exists r, scan_byte st c = Some r /\
  match r with
  | Running st' => sc_inv (b ++ [c]) st'
  | Skip InvalidUTF8 s => set_ok s /\ ~ pairs_ok (b ++ [c])
  | Skip TooLong s => set_ok s /\ 33554432 < nlen (b ++ [c])
  | _ => False
  end.
Proof.
  intros b st c (Htv & Hn & Hset & Hin & Hl & Hp & Hlen) Hc.
  destruct Htv as (p & x & y & Eb & Hx & Hy & Etv).
  destruct (tv_step (sc_tv st) x y c Hx Hy Hc Etv) as (T1 & T2 & T3 & T4 & T5).
  unfold scan_byte. set (tv := (sc_tv st * 2 ^ 8) mod 2 ^ 24 + c) in *. clearbody tv.
  assert (Hset' : exists s, (if 3 <=? sc_n st + 1 then add (sc_set st) tv else Some (sc_set st)) = Some s
     /\ set_ok s /\ (forall t, In t (dense s) <-> has_trigram (b ++ [c]) t)).
  { rewrite Hn. destruct Hset as [Hs Hm].
    destruct (N.leb_spec 3 (nlen b + 1)) as [H3|H3].
    - assert (Hb2 : exists p', b = p' ++ [x; y]).
      { destruct p as [|z1 [|z2 p]].
        - cbn in Eb. injection Eb as _ _ ->. unfold nlen in H3. cbn in H3. lia.
        - cbn in Eb. injection Eb as _ _ ->. unfold nlen in H3. cbn in H3. lia.
        - cbn in Eb. injection Eb as _ _ ->. eauto. }
      destruct Hb2 as (p' & Ep').
      destruct (add_correct (sc_set st) tv Hs) as (s' & E & Hs' & Hm' & Hd); [rewrite Hm; assumption|].
      exists s'. split; [exact E|]. split; [split; congruence|].
      intros t. rewrite has_trigram_snoc, <- Hin. unfold dense in *. rewrite Hd.
      assert (Q : (exists p0 x0 y0, b = p0 ++ [x0; y0] /\ t = x0 * 65536 + y0 * 256 + c) <-> t = tv).
      { split.
        - intros (p0 & x0 & y0 & E0 & ->). rewrite Ep' in E0. apply snoc2_inj in E0.
          destruct E0 as (_ & <- & <-). congruence.
        - intros ->. exists p', x, y. auto. }
      rewrite Q. destruct (in_dec N.eq_dec tv (ss_dense (sc_set st))) as [Hi|Hi].
      + split; [tauto|]. intros [?| ->]; assumption.
      + rewrite in_app_iff. cbn. intuition.
    - exists (sc_set st). split; [reflexivity|]. split; [split; assumption|].
      intros t. rewrite has_trigram_snoc, Hin. split; [tauto|].
      intros [?|(p0 & x0 & y0 & -> & _)]; [assumption|]. exfalso. unfold nlen in H3.
      rewrite app_length in H3. cbn in H3. lia. }
  destruct Hset' as (s & Es & Hs & Hd). rewrite Es. cbn [bind].
  eexists. split; [reflexivity|].
  assert (Hpair : pairs_ok (b ++ [c]) <-> pairs_ok b /\ may_follow (class_of y) (class_of c)).
  { destruct p as [|z p].
    - cbn in Eb. injection Eb as _ <- ->. eapply (pairs_ok_snoc [] c []); reflexivity.
    - cbn in Eb. injection Eb as _ Eb. apply (pairs_ok_snoc b c (p ++ [x]) y y); [|reflexivity].
      rewrite Eb, <- app_assoc. reflexivity. }
  rewrite T2, T3. pose proof (class_pair y c Hy Hc) as CP.
  destruct (valid_utf8_pair y c) eqn:V; cbn [negb].
  2:{ split; [assumption|]. rewrite Hpair, <- CP. intros [_ ?]; discriminate. }
  assert (Hpk : pairs_ok (b ++ [c])) by (apply Hpair; split; [assumption|apply CP; reflexivity]).
  rewrite Hn. change max_file_len with 33554432.
  destruct (N.ltb_spec 33554432 (nlen b + 1)) as [HL|HL].
  { split; [assumption|]. rewrite nlen_snoc. assumption. }
  destruct Hl as (ls & rest & L1 & L2 & L3 & L4).
  assert (Htv2 : exists p x y, 0 :: 0 :: b ++ [c] = p ++ [x; y] /\ x < 256 /\ y < 256 /\
                 tv mod 65536 = x * 256 + y).
  { exists (p ++ [x]), y, c. split; [|auto].
    change (0 :: 0 :: b ++ [c]) with ((0 :: 0 :: b) ++ [c]). rewrite Eb, <- !app_assoc. reflexivity. }
  destruct (N.eqb_spec c 10) as [->|Hc10].
  - split; [exact Htv2|]. split; [cbn; rewrite nlen_snoc; reflexivity|].
    split; [exact Hs|]. split; [exact Hd|]. split; [|split; [exact Hpk|rewrite nlen_snoc; exact HL]].
    exists (ls ++ [rest ++ [10]]), []. split; [apply lines_snoc_nl; assumption|]. cbn.
    rewrite L2, L3, L4, nlen_snoc, count_long_snoc, nlen_snoc. change max_line_len with 2000.
    repeat split; reflexivity.
  - split; [exact Htv2|]. split; [cbn; rewrite nlen_snoc; reflexivity|].
    split; [exact Hs|]. split; [exact Hd|]. split; [|split; [exact Hpk|rewrite nlen_snoc; exact HL]].
    exists ls, (rest ++ [c]). split; [apply lines_snoc_other; assumption|]. cbn.
    rewrite L4, nlen_snoc. auto.
Qed.

Lemma scan_bytes_spec : forall d b st, sc_inv b st -> Forall is_byte d ->
  exists r, scan_bytes st d = Some r /\
  match r with
  | Running st' => sc_inv (b ++ d) st'
  | Skip InvalidUTF8 s => set_ok s /\ ~ pairs_ok (b ++ d)
  | Skip TooLong s => set_ok s /\ 33554432 < nlen (b ++ d)
  | _ => False
  end.
Proof.
  induction d as [|c d IH]; intros b st Hi Hd; cbn [scan_bytes].
  - exists (Running st). rewrite app_nil_r. auto.
  - inversion Hd as [|? ? Hc Hd']; subst.
    destruct (scan_byte_spec b st c Hi Hc) as (r & Er & Hr). rewrite Er. cbn [bind].
    destruct r as [st'|why s|s]; [|destruct why; try contradiction|contradiction].
    + destruct (IH (b ++ [c]) st' Hr Hd') as (r & E & H). exists r. split; [exact E|].
      replace (b ++ c :: d) with ((b ++ [c]) ++ d) by (rewrite <- app_assoc; reflexivity). assumption.
    + eexists; split; [reflexivity|]. split; [tauto|]. intros HP. apply (proj2 Hr).
      apply pairs_ok_prefix with d. rewrite <- app_assoc. assumption.
    + eexists; split; [reflexivity|]. split; [tauto|]. destruct Hr as [_ Hr].
      unfold nlen in *. rewrite app_length in *. cbn [length] in *. lia.
Qed.

(** A well-behaved reader: every result before the end has data; the content is the
    concatenation. *)
Lemma scan_reads_spec : forall evs b st, sc_inv b st -> Forall is_byte (ev_content evs) ->
  exists r, scan_reads st evs = Some r /\
  match r with
  | Running st' => ev_ok evs /\ sc_inv (b ++ ev_content evs) st'
  | Skip InvalidUTF8 s => set_ok s /\ ~ pairs_ok (b ++ ev_content evs)
  | Skip TooLong s => set_ok s /\ 33554432 < nlen (b ++ ev_content evs)
  | Skip _ _ => False
  | ReadFail s => set_ok s /\ ~ ev_ok evs
  end.
Proof.
  induction evs as [|[d e] evs IH]; intros b st Hi Hb; cbn [scan_reads].
  - exists (Running st). cbn. rewrite app_nil_r. auto.
  - assert (Hset : set_ok (sc_set st)) by (destruct Hi as (_ & _ & ? & _); assumption).
    destruct d as [|c d].
    + destruct e; cbn; eexists; (split; [reflexivity|]); cbn; rewrite ?app_nil_r; auto.
    + cbn [ev_content] in Hb. apply Forall_app in Hb. destruct Hb as [Hb1 Hb2].
      destruct (scan_bytes_spec (c :: d) b st Hi Hb1) as (r & Er & Hr).
      rewrite Er. cbn [bind].
      destruct r as [st'|why s|s]; [|destruct why; try contradiction|contradiction].
      * destruct (IH (b ++ c :: d) st' Hr Hb2) as (r & E & H). exists r. split; [exact E|].
        rewrite <- app_assoc in H. exact H.
      * eexists; split; [reflexivity|]. split; [tauto|]. intros HP. apply (proj2 Hr).
        apply pairs_ok_prefix with (ev_content evs). rewrite <- app_assoc. exact HP.
      * eexists; split; [reflexivity|]. split; [tauto|]. destruct Hr as [_ Hr].
        cbn [ev_content]. unfold nlen in *. rewrite app_length in *. cbn [length app] in *.
        rewrite app_length. lia.
Qed.
