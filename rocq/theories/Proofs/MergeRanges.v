(** merge.go, docid maps (58-107). *)
From Coq Require Import Sorted.
From Verif Require Import Model.Base Model.Codec Model.Writer Model.Reader Model.Utf8 Model.IndexMerge Spec.RunSpec Spec.MergeSpec
  Proofs.Arith Proofs.StrLemmas Proofs.MergeProofs Proofs.ReaderProofs.
Local Open Scope N_scope.

(** ** Strings *)
Lemma lex_ltb : forall a b, str_ltb a b = true <-> lex a b.
Proof.
  induction a as [|x a IH]; intros [|y b]; cbn; split; intros H; try discriminate; try (inversion H; fail).
  - constructor.
  - reflexivity.
  - destruct (N.ltb_spec x y) as [L|L]; [constructor; assumption|]. destruct (N.ltb_spec y x) as [L2|L2]; [discriminate|].
    assert (x = y) by lia. subst y. apply lex_tail. apply IH. exact H.
  - inversion H as [|? ? ? ? L|? ? ? L]; subst.
    + destruct (N.ltb_spec x y); [reflexivity|lia].
    + rewrite N.ltb_irrefl. apply IH. exact L.
Qed.
Lemma not_lex : forall a b, str_ltb a b = false <-> ~ lex a b.
Proof. intros a b. rewrite <- lex_ltb. destruct (str_ltb a b); split; intros; try congruence; intuition. Qed.

Lemma prefix_ge : forall p x, prefix p x -> ~ lex x p.
Proof.
  induction p as [|c p IH]; intros x (s & ->) L; [inversion L|]. cbn in L. inversion L; subst; [lia|]. apply (IH (p ++ s)); [exists s; reflexivity|assumption].
Qed.
Lemma lex_trans : forall a b c, lex a b -> lex b c -> lex a c.
Proof. intros a b c. rewrite <- !lex_ltb. apply str_ltb_trans. Qed.
Lemma lex_le_trans : forall a b c, lex a b -> ~ lex c b -> lex a c.
Proof.
  intros a b c. rewrite <- !lex_ltb. intros H N. destruct (str_ltb b c) eqn:E; [eapply str_ltb_trans; eassumption|].
  destruct (str_ltb c b) eqn:E2; [congruence|]. rewrite <- (str_ltb_total _ _ E E2). exact H.
Qed.
Lemma le_lex_trans : forall a b c, ~ lex b a -> lex b c -> lex a c.
Proof.
  intros a b c. rewrite <- !lex_ltb. intros N H. destruct (str_ltb a b) eqn:E; [eapply str_ltb_trans; eassumption|].
  destruct (str_ltb b a) eqn:E2; [congruence|]. rewrite (str_ltb_total _ _ E E2). exact H.
Qed.

Lemma limit_spec : forall q c, c < 127 -> path_limit (q ++ [c]) = Some (q ++ [c + 1]).
Proof.
  intros q c H. unfold path_limit. rewrite rev_unit. rewrite rev_involutive. f_equal. f_equal.
  rewrite N.mod_small by lia. unfold encode_rune. destruct (N.leb_spec (c + 1) 0x7f); [reflexivity|lia].
Qed.
Lemma limit_lex : forall q c x, lex x (q ++ [c + 1]) /\ ~ lex x (q ++ [c]) <-> prefix (q ++ [c]) x.
Proof.
  induction q as [|a q IH]; intros c x; cbn.
  - split.
    + intros (L & NL). destruct x as [|y x]; [destruct NL; constructor|]. assert (y = c).
      { inversion L as [|? ? ? ? L1|? ? ? L1]; subst; [|inversion L1].
        destruct (N.lt_ge_cases y c); [destruct NL; apply lex_head; assumption|]. lia. }
      subst y. exists x. reflexivity.
    + intros (s & ->). split; [constructor; lia|]. apply prefix_ge. exists s. reflexivity.
  - split.
    + intros (L & NL). destruct x as [|y x]; [destruct NL; constructor|].
      inversion L as [|? ? ? ? L1|? ? ? L1]; subst; [destruct NL; constructor; assumption|].
      destruct (proj1 (IH c x)) as (s & ->); [split; [assumption|intros X; apply NL; apply lex_tail; exact X]|]. exists s. reflexivity.
    + intros (s & ->). split.
      * cbn. apply lex_tail. apply (proj2 (IH c _)). exists s. reflexivity.
      * apply prefix_ge. exists s. reflexivity.
Qed.
Lemma lex_limit : forall q c x, lex x (q ++ [c]) -> lex x (q ++ [c + 1]).
Proof.
  intros q c x H. apply (lex_le_trans x (q ++ [c]) _ H). clear H. induction q as [|a q IH]; cbn; intros L; inversion L; subst; try lia; auto.
Qed.

(** ** Skipping names *)
Fixpoint tk (x : str) (l : list doc) : list doc :=
  match l with [] => [] | d :: r => if str_ltb (fst d) x then d :: tk x r else [] end.
Fixpoint dr (x : str) (l : list doc) : list doc :=
  match l with [] => [] | d :: r => if str_ltb (fst d) x then dr x r else l end.
Lemma tk_dr : forall x l, tk x l ++ dr x l = l.
Proof. induction l as [|d l IH]; [reflexivity|]. cbn. destruct (str_ltb (fst d) x); [cbn; rewrite IH|]; reflexivity. Qed.
Lemma tk_lex : forall x l d, In d (tk x l) -> lex (fst d) x.
Proof.
  induction l as [|e l IH]; intros d I; [destruct I|]. cbn in I. destruct (str_ltb (fst e) x) eqn:E; [|destruct I].
  destruct I as [<-|I]; [apply lex_ltb, E|auto].
Qed.
Lemma dr_head : forall x l d r, dr x l = d :: r -> ~ lex (fst d) x.
Proof.
  induction l as [|e l IH]; intros d r E; [discriminate|]. cbn in E. destruct (str_ltb (fst e) x) eqn:X; [eauto|].
  injection E as <- <-. apply not_lex, X.
Qed.

Definition reads (ix : index) (docs : list doc) : Prop :=
  num_names ix = nlen docs /\ nlen docs < 2^32 /\ forall i d, nth_error docs (N.to_nat i) = Some d -> ix_name ix i = Some (fst d).

Lemma read_mid : forall ix docs a d b, reads ix docs -> docs = a ++ d :: b -> ix_name ix (nlen a) = Some (fst d).
Proof.
  intros ix docs a d b (_ & _ & R) ->. apply R. unfold nlen. rewrite Nnat.Nat2N.id, nth_error_app2, Nat.sub_diag by lia. reflexivity.
Qed.
Lemma skip_below_spec : forall ix docs x, reads ix docs -> forall rem a fuel, docs = a ++ rem -> (length rem < fuel)%nat ->
  skip_below fuel ix (nlen a) x = Some (nlen a + nlen (tk x rem)).
Proof.
  intros ix docs x R. induction rem as [|d rem IH]; intros a fuel E L; (destruct fuel as [|fuel]; [cbn in L; lia|]);
  destruct R as (RN & RL & RR); cbn [skip_below]; rewrite RN, E.
  - rewrite app_nil_r. rewrite N.leb_refl. cbn. f_equal. unfold nlen. cbn. lia.
  - replace (nlen (a ++ d :: rem) <=? nlen a) with false by (symmetry; apply N.leb_gt; rewrite nlen_app, nlen_cons; lia).
    rewrite (read_mid ix docs a d rem) by (auto; split; auto). cbn [bind tk]. destruct (str_ltb (fst d) x) eqn:X.
    + replace (nlen a + 1) with (nlen (a ++ [d])) by (rewrite nlen_app; reflexivity).
      rewrite (IH (a ++ [d])); [|rewrite <- app_assoc; exact E|cbn in L; lia]. f_equal. rewrite nlen_app, !nlen_cons.
      change (nlen (@nil doc)) with 0. lia.
    + f_equal. change (nlen (@nil doc)) with 0. lia.
Qed.
Lemma skip_names_spec : forall ix docs a rem x, reads ix docs -> docs = a ++ rem ->
  skip_names ix (nlen a) x = Some (nlen a + nlen (tk x rem)).
Proof.
  intros ix docs a rem x R E. unfold skip_names. apply (skip_below_spec ix docs x R); [exact E|].
  destruct R as (-> & _). rewrite E, nlen_app. unfold nlen. lia.
Qed.

(** ** Segments of the merged list *)
Record seg := mkSeg { s_first : bool; s_lo : N; s_docs : list doc }.
Definition merged (l : list seg) : list doc := concat (map s_docs l).
Definition part (b : bool) (l : list seg) : list doc := merged (filter (fun s => Bool.eqb (s_first s) b) l).
Fixpoint ranges (b : bool) (off : N) (l : list seg) : list idrange :=
  match l with
  | [] => []
  | s :: r => (if Bool.eqb (s_first s) b then match s_docs s with [] => [] | _ => [mkRange (s_lo s) (s_lo s + nlen (s_docs s)) off] end else [])
              ++ ranges b (off + nlen (s_docs s)) r
  end.
(** Where the segments come from. *)
Definition located (docs1 docs2 : list doc) (l : list seg) : Prop :=
  forall s, In s l -> exists pre post, (if s_first s then docs1 else docs2) = pre ++ s_docs s ++ post /\ nlen pre = s_lo s.
(** Those of each index in its order, within the bounds given. *)
Fixpoint ordered (lo1 lo2 : N) (l : list seg) (hi1 hi2 : N) : Prop :=
  match l with
  | [] => lo1 <= hi1 /\ lo2 <= hi2
  | s :: r => if s_first s then lo1 <= s_lo s /\ ordered (s_lo s + nlen (s_docs s)) lo2 r hi1 hi2
              else lo2 <= s_lo s /\ ordered lo1 (s_lo s + nlen (s_docs s)) r hi1 hi2
  end.
Lemma ordered_app : forall l a1 a2 b1 b2 l' c1 c2, ordered a1 a2 l b1 b2 -> ordered b1 b2 l' c1 c2 -> ordered a1 a2 (l ++ l') c1 c2.
Proof.
  assert (W : forall l a1 a2 b1 b2 c1 c2, a1 <= b1 -> a2 <= b2 -> ordered b1 b2 l c1 c2 -> ordered a1 a2 l c1 c2).
  { induction l as [|s l IH]; cbn; intros a1 a2 b1 b2 c1 c2 L1 L2 O; [lia|]. destruct (s_first s).
    - destruct O as (O & O'). split; [lia|]. eapply IH; [apply N.le_refl|exact L2|exact O'].
    - destruct O as (O & O'). split; [lia|]. eapply IH; [exact L1|apply N.le_refl|exact O']. }
  induction l as [|s l IH]; cbn; intros a1 a2 b1 b2 l' c1 c2 O O'.
  - destruct O. eapply W; eassumption.
  - destruct (s_first s); destruct O as (O & O2); (split; [exact O|]); eapply IH; eassumption.
Qed.

Lemma merged_app : forall a b, merged (a ++ b) = merged a ++ merged b.
Proof. intros. unfold merged. rewrite map_app, concat_app. reflexivity. Qed.
Lemma part_app : forall b l l', part b (l ++ l') = part b l ++ part b l'.
Proof. intros. unfold part. rewrite filter_app, merged_app. reflexivity. Qed.
Lemma part_one : forall b f lo c, part b [mkSeg f lo c] = if Bool.eqb f b then c else [].
Proof. intros. unfold part, merged. cbn. destruct (Bool.eqb f b); cbn; rewrite ?app_nil_r; reflexivity. Qed.
Lemma ranges_app : forall b l off l', ranges b off (l ++ l') = ranges b off l ++ ranges b (off + nlen (merged l)) l'.
Proof.
  induction l as [|s l IH]; intros off l'; cbn [app ranges].
  - change (nlen (merged [])) with 0. rewrite N.add_0_r. reflexivity.
  - rewrite IH, <- app_assoc. do 2 f_equal. f_equal. unfold merged. cbn [map concat]. rewrite nlen_app. lia.
Qed.
Lemma located_app : forall d1 d2 a b, located d1 d2 a -> located d1 d2 b -> located d1 d2 (a ++ b).
Proof. intros d1 d2 a b A B s I. apply in_app_or in I. destruct I; auto. Qed.

Lemma without_app : forall A (P : A -> Prop) a a' b b', without P a a' -> without P b b' -> without P (a ++ b) (a' ++ b').
Proof. intros A P a a' b b' W. induction W; intros W'; cbn; [assumption|apply wo_drop; auto|apply wo_keep; auto]. Qed.
Lemma without_all : forall A (P : A -> Prop) a, (forall x, In x a -> P x) -> without P a [].
Proof. induction a as [|x a IH]; intros H; [constructor|]. apply wo_drop; [apply H; left; reflexivity|]. apply IH. intros. apply H. right. assumption. Qed.
Lemma without_none : forall A (P : A -> Prop) a, (forall x, In x a -> ~ P x) -> without P a a.
Proof. induction a as [|x a IH]; intros H; [constructor|]. apply wo_keep; [apply H; left; reflexivity|]. apply IH. intros. apply H. right. assumption. Qed.

Lemma step_split : forall p (docs : list doc) a x b y c, in_step p (map fst docs) -> docs = a ++ x :: b ++ y :: c ->
  (lex (fst y) p -> lex (fst x) p) /\ (prefix p (fst y) -> lex (fst x) p \/ prefix p (fst x)).
Proof.
  intros p docs a x b y c S ->. apply (S (map fst a) (fst x) (map fst b) (fst y) (map fst c)).
  rewrite map_app. cbn. rewrite map_app. reflexivity.
Qed.

(** ** The maps *)
Section Maps.
Variables (ix1 ix2 : index) (docs1 docs2 : list doc) (ps : list str).
Hypothesis R1 : reads ix1 docs1.
Hypothesis R2 : reads ix2 docs2.
Hypothesis SMALL : nlen docs1 + nlen docs2 < 2^32.
Hypothesis PLAIN : Forall plain_end ps.
Hypothesis STEP1 : forall p, In p ps -> in_step p (map fst docs1).
Hypothesis STEP2 : forall p, In p ps -> in_step p (map fst docs2).
Hypothesis COVER : forall d, In d docs2 -> covered ps (fst d).

(** Once the paths [dn] have been treated. *)
Record minv (dn : list str) (m : maps) (l : list seg) (a1 rem1 a2 rem2 : list doc) : Prop := {
  v_docs1 : docs1 = a1 ++ rem1;
  v_docs2 : docs2 = a2 ++ rem2;
  v_i1 : m_i1 m = nlen a1;
  v_i2 : m_i2 m = nlen a2;
  v_new : m_new m = nlen (merged l);
  v_map1 : m_map1 m = ranges true 0 l;
  v_map2 : m_map2 m = ranges false 0 l;
  v_loc : located docs1 docs2 l;
  v_ord : ordered 0 0 l (nlen a1) (nlen a2);
  v_part1 : without (fun d => covered ps (fst d)) a1 (part true l);
  v_part2 : part false l = a2;
  v_le : nlen (merged l) <= nlen a1 + nlen a2;
  v_past1 : forall d p, In d rem1 -> In p dn -> ~ lex (fst d) p /\ ~ prefix p (fst d);
  v_past2 : forall d p, In d rem2 -> In p dn -> ~ lex (fst d) p /\ ~ prefix p (fst d);
  v_sorted : StronglySorted le_doc docs1 -> StronglySorted le_doc docs2 ->
    StronglySorted le_doc (merged l) /\ forall x y, In x (merged l) -> In y (rem1 ++ rem2) -> le_doc x y }.

Lemma minv_start : minv [] (mkMaps 0 0 0 [] []) [] [] docs1 [] docs2.
Proof.
  constructor; try reflexivity; try (intros; contradiction).
  - intros s [].
  - split; reflexivity.
  - constructor.
  - intros _ _. split; [constructor|intros x y []].
Qed.

(** Names that come after one at or above [lim]. *)
Lemma split_rem : forall docs a rem p q c, p = q ++ [c] -> in_step p (map fst docs) -> docs = a ++ rem ->
  (forall d, In d (tk p rem) -> lex (fst d) p) /\
  (forall d, In d (tk (q ++ [c + 1]) (dr p rem)) -> prefix p (fst d)) /\
  (forall d, In d (dr (q ++ [c + 1]) (dr p rem)) -> ~ lex (fst d) p /\ ~ prefix p (fst d)).
Proof.
  intros docs a rem p q c EP ST E. split; [intros d I; apply (tk_lex _ _ _ I)|].
  assert (D : docs = a ++ tk p rem ++ dr p rem) by (rewrite tk_dr; exact E).
  assert (A : forall d, In d (dr p rem) -> ~ lex (fst d) p).
  { intros d I. destruct (dr p rem) as [|e r] eqn:X; [destruct I|]. pose proof (dr_head _ _ _ _ X) as H. destruct I as [<-|I]; [exact H|].
    apply in_split in I. destruct I as (b1 & b2 & ->). intros L. apply H.
    apply (step_split p docs (a ++ tk p rem) e b1 d b2 ST); [rewrite <- app_assoc; exact D|exact L]. }
  set (lim := q ++ [c + 1]) in *. set (m := dr p rem) in *. split.
  - intros d I. rewrite EP. apply limit_lex. split; [apply (tk_lex _ _ _ I)|]. rewrite <- EP. apply A. rewrite <- (tk_dr lim m).
    apply in_or_app. left. exact I.
  - intros d I. assert (ND : ~ lex (fst d) p). { apply A. rewrite <- (tk_dr lim m). apply in_or_app. right. exact I. }
    split; [exact ND|]. intros P.
    assert (D2 : docs = (a ++ tk p rem ++ tk lim m) ++ dr lim m) by (rewrite <- !app_assoc, tk_dr; exact D).
    destruct (dr lim m) as [|e r] eqn:X; [destruct I|]. pose proof (dr_head _ _ _ _ X) as H.
    assert (NE : ~ lex (fst e) p). { apply A. rewrite <- (tk_dr lim m), X. apply in_or_app. right. left. reflexivity. }
    assert (NP : ~ prefix p (fst e)). { intros Y. apply H. rewrite EP in Y. apply limit_lex in Y. apply Y. }
    destruct I as [<-|I]; [exact (NP P)|]. apply in_split in I. destruct I as (b1 & b2 & ->).
    destruct (proj2 (step_split p docs (a ++ tk p rem ++ tk lim m) e b1 d b2 ST D2) P); contradiction.
Qed.

Lemma SS_app : forall A (R : A -> A -> Prop) a b, StronglySorted R (a ++ b) <->
  StronglySorted R a /\ StronglySorted R b /\ (forall x y, In x a -> In y b -> R x y).
Proof.
  induction a as [|z a IH]; intros b; cbn.
  - split; [intros H; split; [constructor|split; [exact H|intros x y []]]|intros (_ & H & _); exact H].
  - split.
    + intros H. inversion H as [|? ? H1 H2]; subst. apply IH in H1. destruct H1 as (A1 & B1 & C1). rewrite Forall_forall in H2.
      split; [constructor; [exact A1|apply Forall_forall; intros; apply H2, in_or_app; left; assumption]|]. split; [exact B1|].
      intros x y [<-|I] J; [apply H2, in_or_app; right; exact J|apply C1; assumption].
    + intros (A1 & B1 & C1). inversion A1 as [|? ? H1 H2]; subst. constructor.
      * apply IH. split; [exact H1|]. split; [exact B1|]. intros x y I J. apply C1; [right; exact I|exact J].
      * apply Forall_forall. intros y I. apply in_app_or in I. rewrite Forall_forall in H2. destruct I as [I|I]; [apply H2, I|].
        apply C1; [left; reflexivity|exact I].
Qed.

Lemma minv_path : forall dn p later m l a1 rem1 a2 rem2, minv dn m l a1 rem1 a2 rem2 -> ps = dn ++ p :: later ->
  (forall q, In q later -> ~ lex q p) ->
  exists m' l' a1' rem1' a2' rem2', map_path ix1 ix2 m p = Some m' /\ minv (dn ++ [p]) m' l' a1' rem1' a2' rem2'.
Proof.
  intros dn p later m l a1 rem1 a2 rem2 V EPS LATER.
  assert (INP : In p ps) by (rewrite EPS; apply in_or_app; right; left; reflexivity).
  pose proof (proj1 (Forall_forall _ _) PLAIN p INP) as (q & c & EP & C).
  destruct V as [D1 D2 I1 I2 NEW M1 M2 LOC ORD P1 P2 LE PA1 PA2 SO].
  destruct (split_rem docs1 a1 rem1 p q c EP (STEP1 p INP) D1) as (X1 & X2 & X3).
  set (lim := q ++ [c + 1]) in *.
  set (ch1 := tk p rem1) in *. set (sh := tk lim (dr p rem1)) in *. set (rem1' := dr lim (dr p rem1)) in *.
  assert (E1 : rem1 = ch1 ++ sh ++ rem1') by (unfold ch1, sh, rem1'; rewrite !tk_dr; reflexivity).
  (** every name left of the second index is at or above p *)
  assert (G2 : forall d, In d rem2 -> ~ lex (fst d) p).
  { intros d I. destruct (COVER d) as (r & IR & PR); [rewrite D2; apply in_or_app; right; exact I|].
    rewrite EPS in IR. apply in_app_or in IR. destruct IR as [IR|IR]; [destruct (PA2 d r I IR); contradiction|].
    intros L. apply (prefix_ge _ _ PR). destruct IR as [<-|IR]; [exact L|]. apply (lex_le_trans _ _ _ L (LATER r IR)). }
  assert (N2 : tk p rem2 = []).
  { destruct rem2 as [|d r]; [reflexivity|]. cbn. destruct (str_ltb (fst d) p) eqn:X; [|reflexivity].
    exfalso. apply (G2 d); [left; reflexivity|apply lex_ltb, X]. }
  assert (DP : dr p rem2 = rem2) by (pose proof (tk_dr p rem2) as T; rewrite N2 in T; exact T).
  destruct (split_rem docs2 a2 rem2 p q c EP (STEP2 p INP) D2) as (_ & Y2 & Y3). rewrite DP in Y2, Y3. fold lim in Y2, Y3.
  set (ch2 := tk lim rem2) in *. set (rem2' := dr lim rem2) in *.
  assert (E2 : rem2 = ch2 ++ rem2') by (unfold ch2, rem2'; rewrite tk_dr; reflexivity).
  assert (S1 : skip_names ix1 (m_i1 m) p = Some (nlen (a1 ++ ch1))).
  { rewrite I1, (skip_names_spec ix1 docs1 a1 rem1 p R1 D1), nlen_app. reflexivity. }
  assert (S2 : skip_names ix1 (nlen (a1 ++ ch1)) lim = Some (nlen (a1 ++ ch1 ++ sh))).
  { rewrite (skip_names_spec ix1 docs1 (a1 ++ ch1) (dr p rem1) lim R1); [rewrite !nlen_app, N.add_assoc; reflexivity|].
    rewrite <- app_assoc. unfold ch1. rewrite tk_dr. exact D1. }
  assert (S3 : skip_names ix2 (m_i2 m) lim = Some (nlen (a2 ++ ch2))).
  { rewrite I2, (skip_names_spec ix2 docs2 a2 rem2 lim R2 D2), nlen_app. reflexivity. }
  set (l1 := l ++ [mkSeg true (nlen a1) ch1]). set (l2 := l1 ++ [mkSeg false (nlen a2) ch2]).
  assert (L1 : nlen docs1 = nlen a1 + nlen ch1 + nlen sh + nlen rem1') by (rewrite D1, E1, !nlen_app; lia).
  assert (L2 : nlen docs2 = nlen a2 + nlen ch2 + nlen rem2') by (rewrite D2, E2, !nlen_app; lia).
  assert (ML1 : merged l1 = merged l ++ ch1).
  { unfold l1. rewrite merged_app. f_equal. unfold merged. cbn. apply app_nil_r. }
  assert (ML2 : merged l2 = merged l1 ++ ch2).
  { unfold l2. rewrite merged_app. f_equal. unfold merged. cbn. apply app_nil_r. }
  assert (RA : (if m_i1 m <? nlen (a1 ++ ch1) then (m_map1 m ++ [mkRange (m_i1 m) (nlen (a1 ++ ch1)) (m_new m)], u32 (m_new m + (nlen (a1 ++ ch1) - m_i1 m)))
                else (m_map1 m, m_new m)) = (ranges true 0 l1, nlen (merged l1))).
  { rewrite I1, NEW, M1, nlen_app. unfold l1. rewrite ranges_app, N.add_0_l. cbn [ranges s_first s_lo s_docs Bool.eqb].
    rewrite app_nil_r. rewrite merged_app. destruct ch1 as [|d r] eqn:X.
    - rewrite app_nil_r. replace (nlen a1 <? nlen a1 + nlen []) with false by (symmetry; apply N.ltb_ge; cbn; lia).
      unfold merged at 2. cbn. rewrite app_nil_r. reflexivity.
    - rewrite <- X in *. replace (nlen a1 <? nlen a1 + nlen ch1) with true by (symmetry; apply N.ltb_lt; rewrite X, nlen_cons; lia).
      f_equal. replace (merged [{| s_first := true; s_lo := nlen a1; s_docs := ch1 |}]) with ch1 by (unfold merged; cbn; rewrite app_nil_r; reflexivity).
      rewrite nlen_app. unfold u32. rewrite N.mod_small; lia. }
  assert (RB : (if m_i2 m <? nlen (a2 ++ ch2) then (m_map2 m ++ [mkRange (m_i2 m) (nlen (a2 ++ ch2)) (nlen (merged l1))], u32 (nlen (merged l1) + (nlen (a2 ++ ch2) - m_i2 m)))
                else (m_map2 m, nlen (merged l1))) = (ranges false 0 l2, nlen (merged l2))).
  { assert (RL1 : ranges false 0 l1 = ranges false 0 l).
    { unfold l1. rewrite ranges_app. cbn [ranges s_first Bool.eqb]. rewrite !app_nil_r. reflexivity. }
    rewrite I2, M2, nlen_app. rewrite ML2. unfold l2. rewrite ranges_app, RL1, N.add_0_l. cbn [ranges s_first s_lo s_docs Bool.eqb].
    rewrite app_nil_r. destruct ch2 as [|d r] eqn:X.
    - rewrite !app_nil_r. replace (nlen a2 <? nlen a2 + nlen []) with false by (symmetry; apply N.ltb_ge; cbn; lia). reflexivity.
    - rewrite <- X in *. replace (nlen a2 <? nlen a2 + nlen ch2) with true by (symmetry; apply N.ltb_lt; rewrite X, nlen_cons; lia).
      f_equal. rewrite ML1, !nlen_app. unfold u32. rewrite N.mod_small; lia. }
  exists (mkMaps (nlen (a1 ++ ch1 ++ sh)) (nlen (a2 ++ ch2)) (nlen (merged l2)) (ranges true 0 l1) (ranges false 0 l2)), l2,
    (a1 ++ ch1 ++ sh), rem1', (a2 ++ ch2), rem2'.
  split.
  { unfold map_path. rewrite S1. cbn [bind]. rewrite EP, (limit_spec q c C). cbn [bind]. fold lim. rewrite S2. cbn [bind]. rewrite RA.
    assert (PN : (if m_i2 m <? num_names ix2 then nm <- ix_name ix2 (m_i2 m) ;; if str_ltb nm p then None else Some tt else Some tt) = Some tt).
    { destruct rem2 as [|d r] eqn:X.
      - replace (m_i2 m <? num_names ix2) with false; [reflexivity|]. symmetry. apply N.ltb_ge. rewrite I2, (proj1 R2), D2, app_nil_r. lia.
      - destruct (m_i2 m <? num_names ix2); [|reflexivity]. rewrite I2, (read_mid ix2 docs2 a2 d r R2 D2). cbn [bind].
        replace (str_ltb (fst d) p) with false; [reflexivity|]. symmetry. apply not_lex, G2. left. reflexivity. }
    rewrite <- EP, PN. cbn [bind]. rewrite S3. cbn [bind]. rewrite RB. reflexivity. }
  assert (NC1 : forall d, In d ch1 -> ~ covered ps (fst d)).
  { intros d I (r & IR & PR). pose proof (X1 d I) as L. rewrite EPS in IR. apply in_app_or in IR. destruct IR as [IR|IR].
    - destruct (PA1 d r); [rewrite E1; apply in_or_app; left; exact I|exact IR|contradiction].
    - apply (prefix_ge _ _ PR). destruct IR as [<-|IR]; [exact L|]. apply (lex_le_trans _ _ _ L (LATER r IR)). }
  constructor; cbn [m_i1 m_i2 m_new m_map1 m_map2]; try reflexivity.
  - rewrite D1, E1, <- !app_assoc. reflexivity.
  - rewrite D2, E2, <- !app_assoc. reflexivity.
  - unfold l2. rewrite ranges_app. cbn [ranges s_first Bool.eqb]. rewrite !app_nil_r. reflexivity.
  - unfold l2, l1. apply located_app; [apply located_app; [exact LOC|]|].
    + intros s [<-|[]]. cbn. exists a1, (sh ++ rem1'). split; [rewrite D1, E1; reflexivity|reflexivity].
    + intros s [<-|[]]. cbn. exists a2, rem2'. split; [rewrite D2, E2; reflexivity|reflexivity].
  - unfold l2, l1. rewrite <- app_assoc. eapply ordered_app; [exact ORD|]. cbn. rewrite !nlen_app. lia.
  - unfold l2, l1. rewrite !part_app, !part_one. cbn [Bool.eqb]. rewrite !app_nil_r.
    apply without_app; [exact P1|]. rewrite <- (app_nil_r ch1) at 2. apply without_app; [apply without_none, NC1|].
    apply without_all. intros d I. exists p. split; [exact INP|apply X2, I].
  - unfold l2, l1. rewrite !part_app, !part_one, P2. cbn [Bool.eqb]. rewrite !app_nil_r. reflexivity.
  - rewrite ML2, ML1, !nlen_app. lia.
  - intros d r I J. apply in_app_or in J. destruct J as [J|[<-|[]]]; [|apply X3, I]. apply PA1; [|exact J].
    rewrite E1. apply in_or_app. right. apply in_or_app. right. exact I.
  - intros d r I J. apply in_app_or in J. destruct J as [J|[<-|[]]]; [|apply Y3, I]. apply PA2; [|exact J].
    rewrite E2. apply in_or_app. right. exact I.
  - intros T1 T2. destruct (SO T1 T2) as (T3 & T4).
    assert (U1 : StronglySorted le_doc ch1).
    { rewrite D1, E1 in T1. apply SS_app in T1. destruct T1 as (_ & T1 & _). apply SS_app in T1. apply T1. }
    assert (U2 : StronglySorted le_doc ch2).
    { rewrite D2, E2 in T2. apply SS_app in T2. destruct T2 as (_ & T2 & _). apply SS_app in T2. apply T2. }
    assert (LIMP : forall d : doc, ~ lex (fst d) p /\ ~ prefix p (fst d) -> ~ lex (fst d) lim).
    { intros d (B1 & B2) L. apply B2. rewrite EP. apply limit_lex. split; [exact L|rewrite <- EP; exact B1]. }
    rewrite ML2, ML1. split.
    + apply SS_app. split; [apply SS_app; split; [exact T3|split; [exact U1|]]|split; [exact U2|]].
      * intros x y I J. apply T4; [exact I|]. rewrite E1. apply in_or_app. left. apply in_or_app. left. exact J.
      * intros x y I J. apply in_app_or in I. destruct I as [I|I].
        -- apply T4; [exact I|]. apply in_or_app. right. rewrite E2. apply in_or_app. left. exact J.
        -- intros L. apply (prefix_ge _ _ (Y2 y J)). apply (lex_trans _ _ _ L (X1 x I)).
    + assert (B : forall y, In y (rem1' ++ rem2') -> ~ lex (fst y) lim).
      { intros y I. apply LIMP. apply in_app_or in I. destruct I as [I|I]; [apply X3, I|apply Y3, I]. }
      assert (B' : forall x, In x (ch1 ++ ch2) -> lex (fst x) lim).
      { intros x I. apply in_app_or in I. destruct I as [I|I]; [unfold lim; apply lex_limit; rewrite <- EP; apply X1, I|].
        apply limit_lex. rewrite <- EP. apply Y2, I. }
      intros x y I J. rewrite <- app_assoc in I. apply in_app_or in I. destruct I as [I|I].
      * apply T4; [exact I|]. apply in_app_or in J. destruct J as [J|J]; apply in_or_app; [left|right].
        -- rewrite E1. apply in_or_app. right. apply in_or_app. right. exact J.
        -- rewrite E2. apply in_or_app. right. exact J.
      * intros L. apply (B y J). apply (lex_trans _ _ _ L (B' x I)).
Qed.

Lemma minv_paths : forall later dn m l a1 rem1 a2 rem2, minv dn m l a1 rem1 a2 rem2 -> ps = dn ++ later ->
  StronglySorted (fun p q => ~ lex q p) later ->
  exists m' l' a1' rem1' a2' rem2', map_paths ix1 ix2 m later = Some m' /\ minv ps m' l' a1' rem1' a2' rem2'.
Proof.
  induction later as [|p later IH]; intros dn m l a1 rem1 a2 rem2 V E S.
  - rewrite app_nil_r in E. subst dn. exists m, l, a1, rem1, a2, rem2. split; [reflexivity|exact V].
  - inversion S as [|? ? S1 S2]; subst. rewrite Forall_forall in S2.
    destruct (minv_path dn p later m l a1 rem1 a2 rem2 V E S2) as (m' & l' & a1' & rem1' & a2' & rem2' & H & V').
    destruct (IH _ _ _ _ _ _ _ V') as (m2 & l2 & A); [rewrite <- app_assoc; exact E|exact S1|].
    cbn [map_paths]. rewrite H. cbn [bind]. eauto.
Qed.

Definition names_merged (l : list seg) : Prop :=
  located docs1 docs2 l /\ ordered 0 0 l (nlen docs1) (nlen docs2) /\
  without (fun d => covered ps (fst d)) docs1 (part true l) /\ part false l = docs2 /\
  (StronglySorted le_doc docs1 -> StronglySorted le_doc docs2 -> StronglySorted le_doc (merged l)).

Lemma maps_spec : StronglySorted (fun p q => ~ lex q p) ps ->
  exists m m' l, map_paths ix1 ix2 (mkMaps 0 0 0 [] []) ps = Some m /\ map_rest ix1 ix2 m = Some m' /\
    m_new m' = nlen (merged l) /\ m_map1 m' = ranges true 0 l /\ m_map2 m' = ranges false 0 l /\ names_merged l.
Proof.
  intros S. destruct (minv_paths ps [] _ _ _ _ _ _ minv_start eq_refl S) as (m & l & a1 & rem1 & a2 & rem2 & H & V).
  destruct V as [D1 D2 I1 I2 NEW M1 M2 LOC ORD P1 P2 LE PA1 PA2 SO].
  assert (E2 : rem2 = []).
  { destruct rem2 as [|d r]; [reflexivity|]. exfalso. destruct (COVER d) as (p & IP & PP); [rewrite D2; apply in_or_app; right; left; reflexivity|].
    destruct (PA2 d p); [left; reflexivity|exact IP|contradiction]. }
  subst rem2. rewrite app_nil_r in *. subst a2.
  exists m. set (l' := l ++ [mkSeg true (nlen a1) rem1]).
  assert (ML : merged l' = merged l ++ rem1). { unfold l'. rewrite merged_app. f_equal. unfold merged. cbn. apply app_nil_r. }
  assert (L1 : nlen docs1 = nlen a1 + nlen rem1) by (rewrite D1, nlen_app; lia).
  assert (NM : names_merged l').
  { unfold l'. split; [|split; [|split; [|split]]].
    - apply located_app; [exact LOC|]. intros s [<-|[]]. cbn. exists a1, []. split; [rewrite app_nil_r; exact D1|reflexivity].
    - eapply ordered_app; [exact ORD|]. cbn. lia.
    - rewrite part_app. rewrite D1. apply without_app; [exact P1|]. rewrite part_one. cbn [Bool.eqb].
      apply without_none. intros d I (p & IP & PP). destruct (PA1 d p I IP). contradiction.
    - rewrite part_app, part_one. cbn [Bool.eqb]. rewrite app_nil_r. congruence.
    - intros T1 T2. destruct (SO T1 T2) as (T3 & T4). fold l'. rewrite ML. apply SS_app. split; [exact T3|]. split.
      + rewrite D1 in T1. apply SS_app in T1. apply T1.
      + intros x y I J. apply T4; assumption. }
  assert (RF : ranges false 0 l' = ranges false 0 l).
  { unfold l'. rewrite ranges_app. cbn [ranges s_first Bool.eqb]. rewrite !app_nil_r. reflexivity. }
  assert (RT : ranges true 0 l' = ranges true 0 l ++ match rem1 with [] => [] | _ => [mkRange (nlen a1) (nlen docs1) (nlen (merged l))] end).
  { unfold l'. rewrite ranges_app. cbn [ranges s_first s_lo s_docs Bool.eqb]. rewrite !app_nil_r, N.add_0_l, L1. reflexivity. }
  assert (NN : (m_i2 m <? num_names ix2) = false). { apply N.ltb_ge. rewrite (proj1 R2), I2. lia. }
  unfold map_rest. rewrite (proj1 R1), I1. destruct rem1 as [|d r] eqn:X.
  - replace (nlen a1 <? nlen docs1) with false by (symmetry; apply N.ltb_ge; rewrite D1, app_nil_r; lia). rewrite NN.
    exists m, l'. rewrite app_nil_r in ML, RT. rewrite ML, RT, RF.
    split; [exact H|]. split; [reflexivity|]. split; [exact NEW|]. split; [exact M1|]. split; [exact M2|exact NM].
  - rewrite <- X in *. replace (nlen a1 <? nlen docs1) with true by (symmetry; apply N.ltb_lt; rewrite L1, X, nlen_cons; lia).
    cbn [m_i2]. rewrite NN. eexists. exists l'. split; [exact H|]. split; [reflexivity|]. cbn [m_new m_map1 m_map2].
    split; [rewrite ML, nlen_app, NEW; unfold u32; rewrite N.mod_small; [f_equal; lia|lia]|].
    split; [rewrite RT, M1, NEW; reflexivity|]. split; [rewrite RF, M2; reflexivity|exact NM].
Qed.
End Maps.
