(** What is left open by Model/Handles.v. *)
From Verif Require Import Model.Base Model.Handles.
From Coq Require Import Lia Permutation.
Local Open Scope N_scope.

Definition below (n : N) (l : list N) := Forall (fun m => m < n) l.
(** Numbers still to be given out are not in use. *)
Definition sane (w : world) := below (w_next w) (w_open w) /\ below (w_next w) (w_temp w) /\ below (w_next w) (w_maps w).
(** [cs]: temporary files that have been made and are open. *)
Definition adds (cs : list N) (w w' : world) :=
  w_next w <= w_next w' /\ Forall (fun c => w_next w <= c < w_next w') cs /\
  w_open w' = cs ++ w_open w /\ w_temp w' = cs ++ w_temp w /\ w_maps w' = w_maps w.

Lemma below_le : forall n m l, n <= m -> below n l -> below m l.
Proof. intros n m l L B. eapply Forall_impl; [|exact B]. cbv beta. intros x X. lia. Qed.
Lemma between_below : forall n m cs, Forall (fun c => n <= c < m) cs -> below m cs.
Proof. intros n m cs F. eapply Forall_impl; [|exact F]. cbv beta. intros x X. lia. Qed.
Lemma below_app : forall n a b, below n a -> below n b -> below n (a ++ b).
Proof. intros n a b A B. apply Forall_app. split; assumption. Qed.
Lemma adds_sane : forall cs w w', sane w -> adds cs w w' -> sane w'.
Proof.
  intros cs w w' (O & T & M) (L & C & O' & T' & M'). unfold sane. rewrite O', T', M'.
  pose proof (between_below _ _ _ C) as B.
  split; [|split]; [apply below_app; [exact B|]|apply below_app; [exact B|]|]; eapply below_le; eauto.
Qed.
Lemma adds_refl : forall w, adds [] w w.
Proof. intro w. unfold adds. cbn [app]. split; [lia|]. repeat split; try reflexivity. constructor. Qed.
Lemma adds_trans : forall a b w1 w2 w3, adds a w1 w2 -> adds b w2 w3 -> adds (b ++ a) w1 w3.
Proof.
  intros a b w1 w2 w3 (L1 & C1 & O1 & T1 & M1) (L2 & C2 & O2 & T2 & M2). unfold adds.
  rewrite O2, T2, M2, O1, T1, M1, !app_assoc. split; [lia|]. split; [|auto].
  apply Forall_app. split.
  - eapply Forall_impl; [|exact C2]. cbv beta. intros x X. lia.
  - eapply Forall_impl; [|exact C1]. cbv beta. intros x X. lia.
Qed.
Lemma without_app : forall f a b, without f (a ++ b) = without f a ++ without f b.
Proof.
  intros f a b. unfold without. induction a as [|x a IH]; [reflexivity|].
  cbn [app filter]. destruct (negb (f =? x)); [cbn [app]; f_equal; exact IH|exact IH].
Qed.
Lemma without_other : forall f l, ~ In f l -> without f l = l.
Proof.
  intros f l X. unfold without. induction l as [|x l IH]; [reflexivity|]. cbn [filter].
  destruct (N.eqb_spec f x) as [->|D]; [exfalso; apply X; left; reflexivity|]. cbn [negb]. f_equal. apply IH.
  intro I. apply X. right. exact I.
Qed.
Lemma without_head : forall f l, ~ In f l -> without f (f :: l) = l.
Proof. intros f l X. unfold without. cbn [filter]. rewrite N.eqb_refl. cbn [negb]. apply without_other. exact X. Qed.
Lemma below_fresh : forall n l, below n l -> ~ In n l.
Proof. intros n l B I. pose proof (proj1 (Forall_forall _ _) B _ I) as X. cbv beta in X. lia. Qed.

(** A computation that leaves nothing but [cs]. *)
Definition clean {A} (m : M A) := forall w a w', sane w -> m w = Some (a, w') -> adds [] w w'.
Definition making {A} (m : M A) := forall w a w', sane w -> m w = Some (a, w') -> exists cs, adds cs w w'.
Lemma clean_making : forall A (m : M A), clean m -> making m.
Proof. intros A m C w a w' S R. exists []. exact (C w a w' S R). Qed.
Lemma andThen_inv : forall A B (m : M A) (f : A -> M B) w b w', andThen m f w = Some (b, w') ->
  exists a w1, m w = Some (a, w1) /\ f a w1 = Some (b, w').
Proof. intros A B m f w b w' R. unfold andThen in R. destruct (m w) as [[a w1]|]; [|discriminate]. eauto. Qed.
Lemma clean_ret : forall A (a : A), clean (ret a).
Proof. intros A a w b w' _ R. unfold ret in R. injection R as _ <-. apply adds_refl. Qed.
Lemma clean_fatal : forall A, clean (@fatal A).
Proof. intros A w b w' _ R. discriminate. Qed.
Lemma clean_then : forall A B (m : M A) (f : A -> M B), clean m -> (forall a, clean (f a)) -> clean (andThen m f).
Proof.
  intros A B m f C D w b w' W R. destruct (andThen_inv _ _ _ _ _ _ _ R) as (a & w1 & R1 & R2).
  pose proof (C _ _ _ W R1) as X. pose proof (D a _ _ _ (adds_sane _ _ _ W X) R2) as Y.
  exact (adds_trans _ _ _ _ _ X Y).
Qed.
Lemma making_then : forall A B (m : M A) (f : A -> M B), making m -> (forall a, making (f a)) -> making (andThen m f).
Proof.
  intros A B m f C D w b w' W R. destruct (andThen_inv _ _ _ _ _ _ _ R) as (a & w1 & R1 & R2).
  destruct (C _ _ _ W R1) as (cs & X). destruct (D a _ _ _ (adds_sane _ _ _ W X) R2) as (ds & Y).
  exists (ds ++ cs). exact (adds_trans _ _ _ _ _ X Y).
Qed.
Lemma ask_next : forall w b w', ask w = Some (b, w') ->
  w_next w' = w_next w /\ w_open w' = w_open w /\ w_temp w' = w_temp w /\ w_maps w' = w_maps w.
Proof.
  intros w b w' R. unfold ask in R. destruct (w_answers w); [injection R as _ <-; auto|].
  injection R as _ <-. cbn. auto.
Qed.
Lemma clean_ask : clean ask.
Proof.
  intros w b w' _ R. destruct (ask_next _ _ _ R) as (A & B & C & D). unfold adds. rewrite A, B, C, D.
  cbn [app]. split; [lia|]. split; [constructor|auto].
Qed.
(** With a file open meanwhile. *)
Definition opened (w : world) : world :=
  mkW (w_answers w) (w_next w + 1) (w_next w :: w_open w) (w_temp w) (w_maps w) (w_made w).
Lemma opened_sane : forall w, sane w -> sane (opened w).
Proof.
  intros w (O & T & M). unfold sane, opened, below. cbn [w_made w_next w_open w_temp w_maps].
  split; [constructor; [lia|]|split]; eapply below_le; eauto; lia.
Qed.
Lemma defer_clean : forall A (m : M A), making m -> forall w a w', sane w ->
  defer (close (w_next w)) m (opened w) = Some (a, w') ->
  exists cs w1, m (opened w) = Some (a, w1) /\ adds cs (opened w) w1 /\ adds cs w w'.
Proof.
  intros A m C w a w' W R. unfold defer in R. destruct (andThen_inv _ _ _ _ _ _ _ R) as (b & w1 & R1 & R2).
  destruct (C _ _ _ (opened_sane _ W) R1) as (cs & (L & F & O & T & M)).
  unfold andThen, close, ret in R2. injection R2 as -> <-. exists cs, w1. split; [exact R1|].
  split; [split; [exact L|]; split; [exact F|]; auto|]. unfold opened in *. cbn [w_made w_next w_open w_temp w_maps] in *.
  assert (FR : ~ In (w_next w) cs).
  { intro I. pose proof (proj1 (Forall_forall _ _) F _ I) as X. cbv beta in X. lia. }
  unfold adds. cbn [w_made w_next w_open w_temp w_maps]. split; [lia|]. split.
  - eapply Forall_impl; [|exact F]. cbv beta. intros x X. lia.
  - split; [|auto]. rewrite O, without_app, without_head, without_other; auto. apply below_fresh. apply W.
Qed.
(** os.Open and what is done with the file, closed afterwards. *)
Lemma open_inv : forall A (m : option N -> M A) w a w', andThen os_open m w = Some (a, w') ->
  exists w1, adds [] w w1 /\ ((m None w1 = Some (a, w')) \/ (m (Some (w_next w1)) (opened w1) = Some (a, w'))).
Proof.
  intros A m w a w' R. destruct (andThen_inv _ _ _ _ _ _ _ R) as (o & w2 & R1 & R2). unfold os_open in R1.
  destruct (andThen_inv _ _ _ _ _ _ _ R1) as (ok & w1 & R3 & R4). exists w1.
  destruct (ask_next _ _ _ R3) as (N1 & O1 & T1 & M1). split.
  { unfold adds. rewrite N1, O1, T1, M1. cbn [app]. split; [lia|]. split; [constructor|auto]. }
  destruct ok.
  - right. unfold andThen, new_file, ret in R4. injection R4 as <- <-. exact R2.
  - left. unfold ret in R4. injection R4 as <- <-. exact R2.
Qed.
Lemma using_making : forall A (n : A) (m : N -> M A), (forall f, making (m f)) ->
  making (andThen os_open (fun r => match r with None => ret n | Some f => defer (close f) (m f) end)).
Proof.
  intros A n m C w a w' W R. destruct (open_inv _ _ _ _ _ R) as (w1 & X & [R1|R1]).
  - unfold ret in R1. injection R1 as _ <-. exists []. exact X.
  - destruct (defer_clean _ (m (w_next w1)) (C _) w1 a w' (adds_sane _ _ _ W X) R1) as (cs & _ & _ & _ & Y).
    exists (cs ++ []). exact (adds_trans _ _ _ _ _ X Y).
Qed.
Lemma using_clean : forall A (n : A) (m : N -> M A), (forall f, clean (m f)) ->
  clean (andThen os_open (fun r => match r with None => ret n | Some f => defer (close f) (m f) end)).
Proof.
  intros A n m C w a w' W R. destruct (open_inv _ _ _ _ _ R) as (w1 & X & [R1|R1]).
  - unfold ret in R1. injection R1 as _ <-. exact X.
  - destruct (defer_clean _ (m (w_next w1)) (clean_making _ _ (C _)) w1 a w' (adds_sane _ _ _ W X) R1) as (cs & w2 & R2 & Z & Y).
    pose proof (C _ _ _ _ (opened_sane _ (adds_sane _ _ _ W X)) R2) as (_ & _ & E & _).
    destruct Z as (_ & _ & Z & _). rewrite Z in E. cbn [app] in E.
    assert (cs = []) as -> by (apply (app_inv_tail (w_open (opened w1))); exact E).
    exact (adds_trans _ _ _ _ _ X Y).
Qed.

Ltac clean := first [apply clean_ret | apply clean_fatal | apply clean_ask | apply clean_then; [clean|intros []; clean] | idtac].
Lemma isTextFile_clean : clean isTextFile.
Proof. unfold isTextFile. apply using_clean. intros _. clean. Qed.
Lemma json_clean : clean writeExcludedFilesJson.
Proof. unfold writeExcludedFilesJson. apply using_clean. intros _. clean. Qed.
Lemma manifest_clean : clean writeManifest.
Proof. unfold writeManifest. apply using_clean. intros _. clean. Qed.
Lemma read_clean : clean Read.
Proof. unfold Read. apply using_clean. intros _. clean. Qed.
Lemma grep_clean : clean grep2File.
Proof. unfold grep2File. apply using_clean. intros _. clean. Qed.
Lemma greps_clean : forall n, clean (grep_files n).
Proof.
  induction n as [|n IH]; cbn [grep_files]; [apply clean_ret|]. apply clean_then; [apply grep_clean|].
  intros [|]; [exact IH|apply clean_ret].
Qed.

(** The writer during a walk: full chunks of [cs], beside the files it was made with. *)
Definition chunk : N := npost * 8.
Definition has (cs : list N) (ix ix' : writer) :=
  wr_nameData ix' = wr_nameData ix /\ wr_nameIndex ix' = wr_nameIndex ix /\ wr_postIndex ix' = wr_postIndex ix /\
  wr_main ix' = wr_main ix /\ wr_postData ix' = wr_postData ix /\
  wr_postFile ix' = wr_postFile ix ++ map (fun f => (f, chunk)) (List.rev cs) /\ wr_post ix' <= npost.
Lemma has_refl : forall ix, wr_post ix <= npost -> has [] ix ix.
Proof. intros ix L. unfold has. cbn [List.rev map]. rewrite app_nil_r. auto 10. Qed.
Lemma has_trans : forall a b i1 i2 i3, has a i1 i2 -> has b i2 i3 -> has (b ++ a) i1 i3.
Proof.
  intros a b i1 i2 i3 (A1 & A2 & A3 & A4 & A5 & A6 & A7) (B1 & B2 & B3 & B4 & B5 & B6 & B7). unfold has.
  rewrite rev_app_distr, map_app, app_assoc, <- A6. repeat split; congruence || assumption.
Qed.
Definition writing (m : writer -> M writer) := forall ix w ix' w', sane w -> wr_post ix <= npost -> m ix w = Some (ix', w') ->
  exists cs, adds cs w w' /\ has cs ix ix'.
Lemma temp_inv : forall A (m : option N -> M A) w a w', andThen temp_file m w = Some (a, w') ->
  exists w1, (adds [] w w1 /\ m None w1 = Some (a, w')) \/
    (exists f, adds [f] w w1 /\ m (Some f) w1 = Some (a, w')).
Proof.
  intros A m w a w' R. destruct (andThen_inv _ _ _ _ _ _ _ R) as (o & w2 & R1 & R2). unfold temp_file in R1.
  destruct (andThen_inv _ _ _ _ _ _ _ R1) as (ok & w1 & R3 & R4). exists w2.
  destruct (ask_next _ _ _ R3) as (N1 & O1 & T1 & M1). destruct ok.
  - right. injection R4 as <- <-. exists (w_next w1). split; [|exact R2].
    unfold adds. cbn [w_made w_next w_open w_temp w_maps app]. rewrite N1, O1, T1, M1. split; [lia|].
    split; [constructor; [lia|constructor]|auto].
  - left. unfold ret in R4. injection R4 as <- <-. split; [|exact R2].
    unfold adds. rewrite N1, O1, T1, M1. cbn [app]. split; [lia|]. split; [constructor|auto].
Qed.
Lemma flushPost_ok : forall ix w ix' w', sane w -> wr_post ix = npost -> flushPost ix w = Some (ix', w') ->
  exists f, adds [f] w w' /\ has [f] ix ix' /\ wr_post ix' = 0.
Proof.
  intros ix w ix' w' W L R. unfold flushPost in R. destruct (temp_inv _ _ _ _ _ R) as (w1 & [(_ & X)|(f & X & Y)]); [discriminate|].
  destruct (andThen_inv _ _ _ _ _ _ _ Y) as (ok & w2 & R1 & R2). destruct ok; [|discriminate].
  unfold ret in R2. injection R2 as <- <-. exists f.
  assert (Z : adds [] w1 w2) by (exact (clean_ask _ _ _ (adds_sane _ _ _ W X) R1)).
  split; [exact (adds_trans _ _ _ _ _ X Z)|]. unfold has, chunk. cbn. rewrite L. repeat split; try reflexivity; lia.
Qed.
Lemma add_posts_ok : forall k, writing (add_posts k).
Proof.
  induction k as [|k IH]; intros ix w ix' w' W L R; cbn [add_posts] in R.
  - unfold ret in R. injection R as <- <-. exists []. split; [apply adds_refl|apply has_refl; exact L].
  - destruct (andThen_inv _ _ _ _ _ _ _ R) as (ix1 & w1 & R1 & R2).
    assert (X : exists cs, adds cs w w1 /\ has cs ix ix1 /\ wr_post ix1 < npost).
    { destruct (N.leb_spec npost (wr_post ix)) as [G|G].
      - destruct (flushPost_ok ix w ix1 w1 W ltac:(lia) R1) as (f & F1 & F2 & F3). exists [f].
        split; [exact F1|]. split; [exact F2|]. rewrite F3. reflexivity.
      - unfold ret in R1. injection R1 as <- <-. exists []. split; [apply adds_refl|]. split; [apply has_refl; lia|exact G]. }
    destruct X as (cs & X & H & P).
    assert (LP : wr_post ix1 + 1 <= npost) by lia.
    pose proof (fun L => IH _ _ _ _ (adds_sane _ _ _ W X) L R2) as IH'. destruct (IH' LP) as (ds & Y & H').
    exists (ds ++ cs). split; [exact (adds_trans _ _ _ _ _ X Y)|]. refine (has_trans _ _ _ ix1 _ H _).
    destruct H' as (B1 & B2 & B3 & B4 & B5 & B6 & B7). unfold has. cbn in *. auto 10.
Qed.
(** The same for what may fail. *)
Definition writing' (m : writer -> M (option writer)) := forall ix w r w', sane w -> wr_post ix <= npost -> m ix w = Some (r, w') ->
  exists cs, adds cs w w' /\ match r with Some ix' => has cs ix ix' | None => True end.
Lemma addFile_ok : forall reason k, writing' (fun ix => addFileToIndex ix reason k).
Proof.
  intros reason k ix w r w' W L R. unfold addFileToIndex in R.
  destruct (andThen_inv _ _ _ _ _ _ _ R) as (ok & w1 & R1 & R2). pose proof (clean_ask _ _ _ W R1) as X1.
  pose proof (adds_sane _ _ _ W X1) as W1. destruct ok; [|unfold ret in R2; injection R2 as <- <-; exists []; split; [exact X1|exact I]].
  set (inner := if reason then ret (Some ix) else andThen (add_posts k ix) (fun ix => ret (Some ix))) in *.
  assert (IN : forall w r w', sane w -> inner w = Some (r, w') -> exists cs, adds cs w w' /\ match r with Some ix' => has cs ix ix' | None => True end).
  { intros v q v' V Q. unfold inner in Q. destruct reason.
    - unfold ret in Q. injection Q as <- <-. exists []. split; [apply adds_refl|apply has_refl; exact L].
    - destruct (andThen_inv _ _ _ _ _ _ _ Q) as (ix1 & v1 & Q1 & Q2). unfold ret in Q2. injection Q2 as <- <-.
      exact (add_posts_ok k _ _ _ _ V L Q1). }
  assert (MK : making inner). { intros v q v' V Q. destruct (IN _ _ _ V Q) as (cs & C & _). eauto. }
  destruct (open_inv _ _ _ _ _ R2) as (w2 & X2 & [R3|R3]);
    [unfold ret in R3; injection R3 as <- <-; exists []; split; [exact (adds_trans _ _ _ _ _ X1 X2)|exact I]|].
  pose proof (adds_sane _ _ _ W1 X2) as W2. cbv beta in R3.
  destruct (defer_clean _ _ (using_making _ None (fun _ => inner) (fun _ => MK)) w2 r w' W2 R3) as (cs & w3 & R4 & X3 & X4).
  exists (cs ++ []). split; [exact (adds_trans _ _ _ _ _ (adds_trans _ _ _ _ _ X1 X2) X4)|]. rewrite app_nil_r.
  destruct (open_inv _ _ _ _ _ R4) as (w4 & X5 & [R5|R5]); [unfold ret in R5; injection R5 as <- <-; exact I|].
  pose proof (adds_sane _ _ _ (opened_sane _ W2) X5) as W4.
  destruct (defer_clean _ inner MK w4 r w3 W4 R5) as (ds & w5 & R6 & X6 & X7).
  destruct (IN _ _ _ (opened_sane _ W4) R6) as (es & X8 & H).
  assert (es = ds) as ->.
  { destruct X6 as (_ & _ & E1 & _). destruct X8 as (_ & _ & E2 & _). rewrite E1 in E2. apply app_inv_tail in E2. congruence. }
  assert (cs = ds) as ->; [|exact H].
  pose proof (adds_trans _ _ _ _ _ X5 X7) as (_ & _ & E1 & _). destruct X3 as (_ & _ & E2 & _). rewrite E1, app_nil_r in E2.
  apply app_inv_tail in E2. congruence.
Qed.
Lemma visiting_ok : forall v, writing' (visiting v).
Proof.
  intros v ix w r w' W L R.
  assert (Q : forall (m : M (option writer)), (forall w r w', sane w -> m w = Some (r, w') ->
     exists cs, adds cs w w' /\ match r with Some ix' => has cs ix ix' | None => True end) ->
     andThen ask (fun rel => if rel then m else ret None) w = Some (r, w') ->
     exists cs, adds cs w w' /\ match r with Some ix' => has cs ix ix' | None => True end).
  { intros m C Q. destruct (andThen_inv _ _ _ _ _ _ _ Q) as (ok & w1 & R1 & R2). pose proof (clean_ask _ _ _ W R1) as X1.
    destruct ok; [|unfold ret in R2; injection R2 as <- <-; exists []; split; [exact X1|exact I]].
    destruct (C _ _ _ (adds_sane _ _ _ W X1) R2) as (cs & X2 & H). exists (cs ++ []).
    split; [exact (adds_trans _ _ _ _ _ X1 X2)|]. rewrite app_nil_r. exact H. }
  destruct v as [| | |reason k]; [discriminate| | |]; apply (Q _) in R; try exact R; clear R Q; intros v q v' V R.
  - unfold ret in R. injection R as <- <-. exists []. split; [apply adds_refl|apply has_refl; exact L].
  - destruct (andThen_inv _ _ _ _ _ _ _ R) as (ok & w1 & R1 & R2). pose proof (clean_ask _ _ _ V R1) as X1.
    unfold ret in R2. injection R2 as <- <-. exists []. split; [exact X1|]. destruct ok; [apply has_refl; exact L|exact I].
  - destruct (andThen_inv _ _ _ _ _ _ _ R) as (t & w1 & R1 & R2). pose proof (isTextFile_clean _ _ _ V R1) as X1.
    destruct t as [[|]|].
    + destruct (addFile_ok _ _ _ _ _ _ (adds_sane _ _ _ V X1) L R2) as (cs & X2 & H). exists (cs ++ []).
      split; [exact (adds_trans _ _ _ _ _ X1 X2)|]. rewrite app_nil_r. exact H.
    + unfold ret in R2. injection R2 as <- <-. exists []. split; [exact X1|apply has_refl; exact L].
    + unfold ret in R2. injection R2 as <- <-. exists []. split; [exact X1|exact I].
Qed.
Lemma walk_ok : forall vs, writing' (walk vs).
Proof.
  induction vs as [|v vs IH]; intros ix w r w' W L R; cbn [walk] in R.
  - unfold ret in R. injection R as <- <-. exists []. split; [apply adds_refl|apply has_refl; exact L].
  - destruct (andThen_inv _ _ _ _ _ _ _ R) as (q & w1 & R1 & R2). destruct (visiting_ok v _ _ _ _ W L R1) as (cs & X & H).
    destruct q as [ix1|]; [|unfold ret in R2; injection R2 as <- <-; exists cs; split; [exact X|exact I]].
    assert (L1 : wr_post ix1 <= npost) by apply H.
    destruct (IH _ _ _ _ (adds_sane _ _ _ W X) L1 R2) as (ds & Y & H'). exists (ds ++ cs).
    split; [exact (adds_trans _ _ _ _ _ X Y)|]. destruct r as [ix'|]; [exact (has_trans _ _ _ _ _ H H')|exact I].
Qed.

Lemma create_ok : forall w ix w', sane w -> Create w = Some (ix, w') -> exists w1 nd ni pi,
  adds [pi; ni; nd] w w1 /\ nd < ni < pi /\ w' = opened w1 /\ ix = mkWr nd ni pi (w_next w1) 0 [] [].
Proof.
  assert (T : forall w f w', sane w -> bufCreate false w = Some (f, w') -> adds [f] w w').
  { intros w f w' W R. unfold bufCreate in R. destruct (temp_inv _ _ _ _ _ R) as (w1 & [(_ & X)|(g & X & Y)]); [discriminate|].
    unfold ret in Y. injection Y as <- <-. exact X. }
  intros w ix w' W R. unfold Create in R.
  destruct (andThen_inv _ _ _ _ _ _ _ R) as (nd & w1 & R1 & R'). pose proof (T _ _ _ W R1) as X1. pose proof (adds_sane _ _ _ W X1) as W1.
  destruct (andThen_inv _ _ _ _ _ _ _ R') as (ni & w2 & R2 & R''). pose proof (T _ _ _ W1 R2) as X2. pose proof (adds_sane _ _ _ W1 X2) as W2.
  destruct (andThen_inv _ _ _ _ _ _ _ R'') as (pi & w3 & R3 & R'''). pose proof (T _ _ _ W2 R3) as X3. pose proof (adds_sane _ _ _ W2 X3) as W3.
  destruct (andThen_inv _ _ _ _ _ _ _ R''') as (mn & w4 & R4 & R5). unfold bufCreate in R4.
  destruct (open_inv _ _ _ _ _ R4) as (w5 & X5 & [R6|R6]); [discriminate|]. unfold ret in R5, R6. injection R5 as <- <-. injection R6 as <- <-.
  exists w5, nd, ni, pi. split; [exact (adds_trans _ _ _ _ _ (adds_trans _ _ _ _ _ (adds_trans _ _ _ _ _ X1 X2) X3) X5)|].
  split; [|auto]. destruct X1 as (A1 & A2 & _). destruct X2 as (B1 & B2 & _). destruct X3 as (C1 & C2 & _).
  pose proof (Forall_inv A2) as A3. pose proof (Forall_inv B2) as B3. pose proof (Forall_inv C2) as C3. cbv beta in *. lia.
Qed.

Definition withouts (fs : list N) (l : list N) : list N := fold_left (fun l f => without f l) fs l.
Lemma withouts_app : forall fs a b, withouts fs (a ++ b) = withouts fs a ++ withouts fs b.
Proof.
  unfold withouts. induction fs as [|f fs IH]; intros a b; [reflexivity|]. cbn [fold_left].
  rewrite without_app. apply IH.
Qed.
Lemma withouts_other : forall fs l, (forall f, In f fs -> ~ In f l) -> withouts fs l = l.
Proof.
  unfold withouts. induction fs as [|f fs IH]; intros l X; [reflexivity|]. cbn [fold_left].
  rewrite without_other by (apply X; left; reflexivity). apply IH. intros g G. apply X. right. exact G.
Qed.
Lemma withouts_nil : forall fs, withouts fs [] = [].
Proof. intro fs. apply withouts_other. intros f _ []. Qed.
Lemma withouts_all : forall fs l, (forall f, In f l -> In f fs) -> withouts fs l = [].
Proof.
  intros fs l. induction l as [|x l IH]; intro X; [apply withouts_nil|]. change (x :: l) with ([x] ++ l).
  rewrite withouts_app, IH by (intros f F; apply X; right; exact F). rewrite app_nil_r.
  specialize (X x (or_introl eq_refl)). clear IH. unfold withouts. induction fs as [|f fs IH]; [destruct X|]. cbn [fold_left].
  unfold without at 2. cbn [filter]. destruct (N.eqb_spec f x) as [->|D].
  - cbn [negb]. apply (withouts_nil fs).
  - cbn [negb]. apply IH. destruct X as [X|X]; [congruence|exact X].
Qed.

(** The mapping of full chunks. *)
Definition whole (m : N) : slice := mkSlice (Some m) chunk chunk.
Lemma mmapFile_inv : forall f size w m w', mmapFile f size w = Some (m, w') -> 0 < size -> exists w1, adds [] w w1 /\
  m = mkMm f (mkSlice (Some (w_next w1)) size ((size + 4095) / 4096 * 4096))
        (mkSlice (Some (w_next w1)) ((size + 4095) / 4096 * 4096) ((size + 4095) / 4096 * 4096)) /\
  w' = mkW (w_answers w1) (w_next w1 + 1) (w_open w1) (w_temp w1) (w_next w1 :: w_maps w1) (w_made w1).
Proof.
  intros f size w m w' R P. unfold mmapFile in R. destruct (andThen_inv _ _ _ _ _ _ _ R) as (ok & w1 & R1 & R2).
  destruct ok; [|discriminate]. destruct (N.eqb_spec size 0) as [Z|_]; [lia|].
  destruct (andThen_inv _ _ _ _ _ _ _ R2) as (ok & w2 & R3 & R4). destruct ok; [|discriminate].
  unfold andThen, new_map, ret in R4. cbn [sl_map sl_cap] in R4. injection R4 as <- <-. exists w2. split; [|auto].
  destruct (ask_next _ _ _ R1) as (A1 & B1 & C1 & D1). destruct (ask_next _ _ _ R3) as (A2 & B2 & C2 & D2).
  unfold adds. cbn [app]. split; [rewrite A2, A1; lia|]. split; [constructor|]. split; congruence || split; congruence.
Qed.
Lemma add_files_ok : forall fs w ds w', add_files (map (fun f => (f, chunk)) fs) w = Some (ds, w') ->
  exists ms, ds = map whole ms /\ Forall (fun m => w_next w <= m < w_next w') ms /\ w_next w <= w_next w' /\
    w_open w' = w_open w /\ w_temp w' = w_temp w /\ w_maps w' = List.rev ms ++ w_maps w.
Proof.
  induction fs as [|f fs IH]; intros w ds w' R; cbn [map add_files] in R.
  - unfold ret in R. injection R as <- <-. exists []. cbn. repeat split; try constructor; lia.
  - destruct (andThen_inv _ _ _ _ _ _ _ R) as (m & w1 & R1 & R2).
    destruct (mmapFile_inv f chunk w m w1 R1 ltac:(reflexivity)) as (w2 & X & E & E').
    assert (CC : (chunk + 4095) / 4096 * 4096 = chunk) by reflexivity. rewrite CC in E.
    subst m w1. cbn [sl_len mm_d] in R2. destruct (N.eqb_spec chunk 0) as [Z|_]; [discriminate Z|].
    destruct (andThen_inv _ _ _ _ _ _ _ R2) as (es & w3 & R3 & R4). unfold ret in R4. injection R4 as <- <-.
    destruct (IH _ _ _ R3) as (ms & -> & F & L & O & T & M). cbn [w_made w_next w_open w_temp w_maps] in *.
    destruct X as (XL & _ & XO & XT & XM). cbn [app] in *.
    exists (w_next w2 :: ms). split; [reflexivity|]. split.
    { constructor; [lia|]. eapply Forall_impl; [|exact F]. cbv beta. intros x Hx. lia. }
    split; [lia|]. split; [congruence|]. split; [congruence|]. cbn [List.rev]. rewrite <- app_assoc. cbn [app].
    rewrite M, XM. reflexivity.
Qed.
Lemma unmap_all : forall ms w u w', each (fun d => andThen (unmmap d) (fun _ => ret tt)) (map whole ms) w = Some (u, w') ->
  w' = mkW (w_answers w) (w_next w) (w_open w) (w_temp w) (withouts ms (w_maps w)) (w_made w).
Proof.
  induction ms as [|m ms IH]; intros w u w' R; cbn [map each] in R.
  - unfold ret in R. injection R as _ <-. destruct w; reflexivity.
  - destruct (andThen_inv _ _ _ _ _ _ _ R) as (v & w1 & R1 & R2). rewrite (IH _ _ _ R2). clear IH R2.
    unfold andThen, unmmap, munmap, ret in R1. cbn [whole sl_len sl_cap sl_map] in R1. rewrite N.eqb_refl in R1.
    change (chunk =? 0) with false in R1. cbn [orb negb] in R1.
    destruct (existsb (N.eqb m) (w_maps w)) eqn:B.
    + injection R1 as _ <-. reflexivity.
    + injection R1 as _ <-. f_equal. unfold withouts. cbn [fold_left]. f_equal. symmetry. apply without_other.
      intro X. apply Bool.not_true_iff_false in B. apply B. apply existsb_exists. exists m. split; [exact X|apply N.eqb_refl].
Qed.
Lemma close_all : forall fs w u w',
  each (fun f => andThen (close (fst f)) (fun _ => os_remove (fst f))) (map (fun f => (f, chunk)) fs) w = Some (u, w') ->
  w' = mkW (w_answers w) (w_next w) (withouts fs (w_open w)) (withouts fs (w_temp w)) (w_maps w) (w_made w).
Proof.
  induction fs as [|f fs IH]; intros w u w' R; cbn [map each] in R.
  - unfold ret in R. injection R as _ <-. destruct w; reflexivity.
  - destruct (andThen_inv _ _ _ _ _ _ _ R) as (v & w1 & R1 & R2). rewrite (IH _ _ _ R2). clear IH R2.
    unfold andThen, close, os_remove in R1. injection R1 as _ <-. reflexivity.
Qed.
Lemma flush_ok : forall ix cs w u w', sane w -> wr_postData ix = [] -> wr_postFile ix = map (fun f => (f, chunk)) cs ->
  Flush ix w = Some (u, w') ->
  w_next w <= w_next w' /\ w_maps w' = w_maps w /\ w_open w' = withouts cs (w_open w) /\
  w_temp w' = withouts [wr_nameIndex ix; wr_postIndex ix] (withouts cs (without (wr_nameData ix) (w_temp w))).
Proof.
  intros ix cs w u w' W PD PF R. unfold Flush, copyFile in R.
  assert (CF : forall (B : Type) (m : M B) w b w', andThen (andThen ask (fun ok => if ok then ret tt else fatal)) (fun _ => m) w = Some (b, w') ->
     exists w1, adds [] w w1 /\ m w1 = Some (b, w')).
  { intros B m v b v' Q. destruct (andThen_inv _ _ _ _ _ _ _ Q) as (t & v1 & Q1 & Q2). exists v1. split; [|exact Q2].
    destruct (andThen_inv _ _ _ _ _ _ _ Q1) as (ok & v2 & Q3 & Q4). destruct ok; [|discriminate]. unfold ret in Q4. injection Q4 as _ <-.
    destruct (ask_next _ _ _ Q3) as (A1 & B1 & C1 & D1). unfold adds. rewrite A1, B1, C1, D1. cbn [app]. split; [lia|]. split; [constructor|auto]. }
  destruct (CF _ _ _ _ _ R) as (w1 & X1 & R1). clear R.
  destruct (andThen_inv _ _ _ _ _ _ _ R1) as (ix2 & w2 & R2 & R3). clear R1.
  unfold mergePost in R2. destruct (andThen_inv _ _ _ _ _ _ _ R2) as (ds & w2' & R4 & R5). unfold ret in R5. injection R5 as <- <-. clear R2.
  rewrite PF in R4. destruct (add_files_ok _ _ _ _ R4) as (ms & -> & F & L & O2 & T2 & M2).
  cbn [wr_nameData wr_nameIndex wr_postIndex wr_main wr_post wr_postFile wr_postData] in R3. rewrite PD in R3. cbn [app] in R3.
  destruct (CF _ _ _ _ _ R3) as (w3 & X3 & R6). destruct (CF _ _ _ _ _ R6) as (w4 & X4 & R7). clear R3 R6.
  destruct (andThen_inv _ _ _ _ _ _ _ R7) as (v5 & w5 & R8 & R9). unfold os_remove in R8. injection R8 as _ <-. clear R7.
  destruct (andThen_inv _ _ _ _ _ _ _ R9) as (v6 & w6 & R10 & R11). rewrite (unmap_all _ _ _ _ R10) in R11. clear R9 R10.
  cbn [w_made w_answers w_next w_open w_temp w_maps] in R11. rewrite PF in R11.
  destruct (andThen_inv _ _ _ _ _ _ _ R11) as (v7 & w7 & R12 & R13). rewrite (close_all _ _ _ _ R12) in R13. clear R11 R12.
  unfold andThen, os_remove in R13. injection R13 as _ <-. cbn [w_made w_answers w_next w_open w_temp w_maps] in *.
  destruct X1 as (L1 & _ & O1 & T1 & M1). destruct X3 as (L3 & _ & O3 & T3 & M3). destruct X4 as (L4 & _ & O4 & T4 & M4). cbn [app] in *.
  split; [lia|]. split.
  - rewrite M4, M3, M2, withouts_app, (withouts_all ms (List.rev ms)), withouts_other by
      (try (intros f Hf; apply in_rev; exact Hf);
       intros f Hf I; rewrite M1 in I; pose proof (proj1 (Forall_forall _ _) F _ Hf) as Q; cbv beta in Q;
       destruct W as (_ & _ & WM); pose proof (proj1 (Forall_forall _ _) WM _ I) as Q'; cbv beta in Q'; lia).
    exact M1.
  - split; [rewrite O4, O3, O2, O1; reflexivity|]. rewrite T4, T3, T2, T1. reflexivity.
Qed.

(** All of it. *)
Lemma index_ok : forall vs w ok w', sane w -> indexAllFiles vs w = Some (ok, w') -> exists nd ni pi cs,
  nd < ni < pi /\ Forall (fun c => pi < c) cs /\ w_next w <= nd /\ w_next w <= w_next w' /\ below (w_next w') (pi :: cs) /\
  w_maps w' = w_maps w /\
  if ok then w_temp w' = w_temp w /\ w_open w' = [pi; ni; nd] ++ w_open w
  else w_temp w' = cs ++ [pi; ni; nd] ++ w_temp w /\ w_open w' = cs ++ [pi; ni; nd] ++ w_open w.
Proof.
  intros vs w ok w' W R. unfold indexAllFiles in R. destruct (andThen_inv _ _ _ _ _ _ _ R) as (ix & w0 & R1 & R2). clear R.
  destruct (create_ok _ _ _ W R1) as (w1 & nd & ni & pi & X1 & ORD & -> & ->). clear R1.
  pose proof (adds_sane _ _ _ W X1) as W1. pose proof (opened_sane _ W1) as W1'.
  unfold defer, Close in R2. cbn [wr_main] in R2.
  destruct (andThen_inv _ _ _ _ _ _ _ R2) as (ok' & w2 & R3 & R4). unfold andThen, close, ret in R4. injection R4 as -> <-. clear R2.
  assert (G : exists cs, Forall (fun c => w_next w1 < c < w_next w2) cs /\ w_next w1 < w_next w2 /\ w_maps w2 = w_maps w1 /\
     if ok then w_temp w2 = w_temp w /\ w_open w2 = w_open (opened w1)
     else w_temp w2 = cs ++ w_temp w1 /\ w_open w2 = cs ++ w_open (opened w1)).
  { destruct (open_inv _ _ _ _ _ R3) as (w3 & X3 & [R5|R5]).
    - unfold ret in R5. injection R5 as <- <-. exists []. destruct X3 as (L3 & _ & O3 & T3 & M3). cbn [opened w_made w_next w_open w_temp w_maps app] in *.
      split; [constructor|]. split; [lia|]. split; [exact M3|]. split; [exact T3|exact O3].
    - pose proof (adds_sane _ _ _ W1' X3) as W3. pose proof (opened_sane _ W3) as W3'.
      unfold defer in R5. destruct (andThen_inv _ _ _ _ _ _ _ R5) as (ok' & w4 & R6 & R7). unfold andThen, close, ret in R7. injection R7 as -> <-. clear R5.
      destruct (andThen_inv _ _ _ _ _ _ _ R6) as (q & w5 & R8 & R9). clear R6.
      pose proof (fun L => walk_ok vs _ _ _ _ W3' L R8) as WK. destruct (WK (N.le_0_l npost)) as (cs & X5 & H). clear WK. exists cs.
      pose proof (adds_sane _ _ _ W3' X5) as W5.
      destruct X3 as (L3 & _ & O3 & T3 & M3). destruct X5 as (L5 & F5 & O5 & T5 & M5).
      cbn [opened w_made w_next w_open w_temp w_maps app] in *.
      assert (NI : ~ In (w_next w3) cs).
      { intro Y. pose proof (proj1 (Forall_forall _ _) F5 _ Y) as Q. cbv beta in Q. lia. }
      assert (NJ : ~ In (w_next w3) (w_open w3)) by (apply below_fresh; apply W3).
      assert (BAD : forall w6, adds [] w5 w6 -> w_next w1 < w_next w6 /\ Forall (fun c => w_next w1 < c < w_next w6) cs /\ w_maps w6 = w_maps w1 /\
         w_temp w6 = cs ++ w_temp w1 /\ without (w_next w3) (w_open w6) = cs ++ w_next w1 :: w_open w1).
      { intros w6 (L6 & _ & O6 & T6 & M6). cbn [app] in *. split; [lia|]. split.
        { eapply Forall_impl; [|exact F5]. cbv beta. intros x Hx. lia. }
        split; [congruence|]. split; [congruence|]. rewrite O6, O5, without_app, without_other, without_head by assumption.
        rewrite O3. reflexivity. }
      destruct q as [ix'|].
      + destruct (andThen_inv _ _ _ _ _ _ _ R9) as (js & w6 & R10 & R11). pose proof (json_clean _ _ _ W5 R10) as X6.
        destruct js.
        * destruct (andThen_inv _ _ _ _ _ _ _ R11) as (u & w7 & R12 & R13). unfold ret in R13. injection R13 as <- <-.
          pose proof (adds_sane _ _ _ W5 X6) as W6. cbn [w_made w_next w_open w_temp w_maps].
          destruct H as (H1 & H2 & H3 & H4 & H5 & H6 & H7). cbn [wr_nameData wr_nameIndex wr_postIndex wr_main wr_post wr_postFile wr_postData app] in *.
          destruct (flush_ok ix' (List.rev cs) w6 u w7 W6 H5 H6 R12) as (L7 & M7 & O7 & T7).
          destruct (BAD _ X6) as (B1 & B2 & B3 & B4 & B5). destruct X6 as (L6 & _ & O6 & T6 & M6). cbn [app] in *.
          split; [eapply Forall_impl; [|exact F5]; cbv beta; intros x Hx; lia|]. split; [lia|]. split; [congruence|].
          assert (RA : withouts (List.rev cs) cs = []) by (apply withouts_all; intros f Hf; apply in_rev in Hf; exact Hf).
          assert (SM : forall c, In c cs -> w_next w3 < c).
          { intros c Hc. pose proof (proj1 (Forall_forall _ _) F5 _ Hc) as Q. cbv beta in Q. lia. }
          assert (RO : forall l n, below n l -> n <= w_next w3 -> withouts (List.rev cs) l = l).
          { intros l n B Ln. apply withouts_other. intros f Hf I. apply in_rev in Hf. specialize (SM _ Hf).
            pose proof (proj1 (Forall_forall _ _) B _ I) as Q. cbv beta in Q. lia. }
          destruct X1 as (L1 & F1 & O1 & T1 & M1).
          destruct W as (WO & WT & WM). destruct W1 as (W1O & W1T & W1M). destruct W3 as (W3O & W3T & W3M).
          pose proof (Forall_inv F1) as Fpi. pose proof (Forall_inv (Forall_inv_tail F1)) as Fni.
          pose proof (Forall_inv (Forall_inv_tail (Forall_inv_tail F1))) as Fnd. cbv beta in Fpi, Fni, Fnd.
          split.
          -- rewrite T7, H1, H2, H3, B4, T1, without_app, withouts_app.
             rewrite without_other by (intro I; specialize (SM _ I); lia). rewrite RA. cbn [app].
             unfold without at 1. cbn [filter].
             destruct (N.eqb_spec nd pi) as [?|_]; [lia|]. destruct (N.eqb_spec nd ni) as [?|_]; [lia|]. rewrite N.eqb_refl. cbn [negb].
             fold (without nd (w_temp w)).
             assert (NT : forall f, w_next w <= f -> ~ In f (w_temp w)).
             { intros f Lf I. pose proof (proj1 (Forall_forall _ _) WT _ I) as Q. cbv beta in Q. lia. }
             rewrite (without_other nd) by (apply NT; lia).
             rewrite (RO _ (w_next w1)); [|constructor; [lia|]; constructor; [lia|]; eapply below_le; [|exact WT]; lia|lia].
             unfold withouts. cbn [fold_left]. unfold without at 2. cbn [filter].
             destruct (N.eqb_spec ni pi) as [?|_]; [lia|]. rewrite N.eqb_refl. cbn [negb]. fold (without ni (w_temp w)).
             rewrite (without_other ni) by (apply NT; lia). apply without_head. apply NT. lia.
          -- rewrite O7, O6, O5, withouts_app, RA. cbn [app].
             rewrite withouts_other.
             ++ rewrite without_head by exact NJ. exact O3.
             ++ intros f Hf. apply in_rev in Hf. specialize (SM _ Hf). intros [I|I]; [lia|].
                pose proof (proj1 (Forall_forall _ _) W3O _ I) as Q. cbv beta in Q. lia.
        * unfold ret in R11. injection R11 as <- <-. cbn [w_made w_next w_open w_temp w_maps].
          destruct (BAD _ X6) as (B1 & B2 & B3 & B4 & B5). auto.
      + unfold ret in R9. injection R9 as <- <-. cbn [w_made w_next w_open w_temp w_maps].
        destruct (BAD _ (adds_refl w5)) as (B1 & B2 & B3 & B4 & B5). auto. }
  destruct G as (cs & F & L & M & G). exists nd, ni, pi, cs. cbn [opened w_made w_next w_open w_temp w_maps] in *.
  destruct X1 as (L1 & F1 & O1 & T1 & M1).
  pose proof (Forall_inv F1) as Fpi. pose proof (Forall_inv (Forall_inv_tail (Forall_inv_tail F1))) as Fnd. cbv beta in Fpi, Fnd.
  split; [exact ORD|]. split; [eapply Forall_impl; [|exact F]; cbv beta; intros x Hx; lia|]. split; [lia|]. split; [lia|].
  split. { constructor; [lia|]. eapply Forall_impl; [|exact F]; cbv beta; intros x Hx; lia. }
  split; [congruence|].
  assert (NX : ~ In (w_next w1) (w_open w1)) by (apply below_fresh; apply W1).
  destruct ok.
  - destruct G as (GT & GO). split; [exact GT|]. rewrite GO, without_head by exact NX. exact O1.
  - destruct G as (GT & GO). split; [rewrite GT, T1; reflexivity|]. rewrite GO, without_app, without_head by exact NX.
    rewrite without_other; [rewrite O1; reflexivity|]. intro I. pose proof (proj1 (Forall_forall _ _) F _ I) as Q. cbv beta in Q. lia.
Qed.

(** [cs]: files that were made and are open. *)
Definition leaves (cs : list N) (w w' : world) :=
  w_next w <= w_next w' /\ Forall (fun c => w_next w <= c < w_next w') cs /\
  w_open w' = cs ++ w_open w /\ w_maps w' = w_maps w.
Lemma index_leaves : forall vs w ok w', sane w -> indexAllFiles vs w = Some (ok, w') -> exists cs, leaves cs w w' /\
  (3 <= length cs)%nat /\ if ok then w_temp w' = w_temp w /\ length cs = 3%nat else w_temp w' = cs ++ w_temp w.
Proof.
  intros vs w ok w' W R. destruct (index_ok _ _ _ _ W R) as (nd & ni & pi & cs & ORD & F & L & LN & B & M & G).
  assert (L3 : Forall (fun c => w_next w <= c < w_next w') [pi; ni; nd]).
  { pose proof (Forall_inv B) as Bp. cbv beta in Bp. constructor; [lia|]. constructor; [lia|]. constructor; [lia|constructor]. }
  destruct ok.
  - destruct G as (GT & GO). exists [pi; ni; nd]. split; [|split; [cbn [length]; lia|split; [exact GT|reflexivity]]].
    split; [exact LN|]. split; [exact L3|]. split; [exact GO|exact M].
  - destruct G as (GT & GO). exists (cs ++ [pi; ni; nd]). rewrite !app_assoc in GT, GO. split; [|split].
    + split; [exact LN|]. split; [|split; [exact GO|exact M]]. apply Forall_app. split; [|exact L3].
      pose proof (Forall_inv_tail B) as Bt. pose proof (Forall_inv L3) as Lp. cbv beta in Lp. rewrite Forall_forall in *. intros c Hc.
      specialize (F _ Hc). specialize (Bt _ Hc). cbv beta in F, Bt. lia.
    + rewrite app_length. cbn [length]. lia.
    + exact GT.
Qed.
Lemma leaves_adds : forall cs w w' w'', leaves cs w w' -> adds [] w' w'' -> leaves cs w w''.
Proof.
  intros cs w w' w'' (L & F & O & M) (L' & _ & O' & _ & M'). cbn [app] in *. split; [lia|]. split; [|split; congruence].
  eapply Forall_impl; [|exact F]. cbv beta. intros x X. lia.
Qed.
Lemma adds_leaves : forall cs w w' w'', adds [] w w' -> leaves cs w' w'' -> leaves cs w w''.
Proof.
  intros cs w w' w'' (L & _ & O & _ & M) (L' & F & O' & M'). cbn [app] in *. split; [lia|]. split; [|split; congruence].
  eapply Forall_impl; [|exact F]. cbv beta. intros x X. lia.
Qed.
Lemma leaves_refl : forall w, leaves [] w w.
Proof. intro w. split; [lia|]. split; [constructor|auto]. Qed.
Lemma index_sane : forall vs w ok w', sane w -> indexAllFiles vs w = Some (ok, w') -> sane w'.
Proof.
  intros vs w ok w' W R. destruct (index_leaves _ _ _ _ W R) as (cs & (L & F & O & M) & _ & G). destruct W as (WO & WT & WM).
  assert (B : below (w_next w') cs) by exact (between_below _ _ _ F).
  unfold sane. rewrite O, M. split; [apply below_app; [exact B|]; eapply below_le; [exact L|exact WO]|].
  split; [|eapply below_le; [exact L|exact WM]]. destruct ok; [destruct G as (G & _)|]; rewrite G.
  - eapply below_le; [exact L|exact WT].
  - apply below_app; [exact B|]. eapply below_le; [exact L|exact WT].
Qed.
Lemma build_leaves : forall vs w ok w', sane w -> Build vs w = Some (ok, w') -> sane w' /\ exists cs, leaves cs w w' /\
  if ok then w_temp w' = w_temp w /\ length cs = 3%nat else True.
Proof.
  intros vs w ok w' W R. unfold Build in R. destruct (andThen_inv _ _ _ _ _ _ _ R) as (a & w1 & R1 & R2).
  pose proof (clean_ask _ _ _ W R1) as X1. pose proof (adds_sane _ _ _ W X1) as W1.
  assert (STOP : forall v, adds [] w v -> sane v -> forall ok' v', ret false v = Some (ok', v') -> sane v' /\ exists cs, leaves cs w v' /\
     if ok' then w_temp v' = w_temp w /\ length cs = 3%nat else True).
  { intros v Xv Wv ok' v' Rv. unfold ret in Rv. injection Rv as <- <-. split; [exact Wv|]. exists []. split; [|exact I].
    exact (leaves_adds _ _ _ _ (leaves_refl w) Xv). }
  destruct a; [|exact (STOP _ X1 W1 _ _ R2)].
  destruct (andThen_inv _ _ _ _ _ _ _ R2) as (b & w2 & R3 & R4). pose proof (clean_ask _ _ _ W1 R3) as X2.
  pose proof (adds_trans _ _ _ _ _ X1 X2) as X12. pose proof (adds_sane _ _ _ W1 X2) as W2.
  destruct b; [|exact (STOP _ X12 W2 _ _ R4)].
  destruct (andThen_inv _ _ _ _ _ _ _ R4) as (c & w3 & R5 & R6). pose proof (index_sane _ _ _ _ W2 R5) as W3.
  destruct (index_leaves _ _ _ _ W2 R5) as (cs & LV & _ & G). pose proof (adds_leaves _ _ _ _ X12 LV) as LV'. cbn [app] in LV'.
  destruct c.
  - pose proof (manifest_clean _ _ _ W3 R6) as X6. split; [exact (adds_sane _ _ _ W3 X6)|]. exists cs.
    split; [exact (leaves_adds _ _ _ _ LV' X6)|]. destruct ok; [|exact I]. destruct G as (GT & GL). split; [|exact GL].
    destruct X12 as (_ & _ & _ & T1 & _). destruct X6 as (_ & _ & _ & T6 & _). cbn [app] in *. congruence.
  - unfold ret in R6. injection R6 as <- <-. split; [exact W3|]. exists cs. split; [exact LV'|exact I].
Qed.
(** An index in use: its file is open, and all of it is mapped. *)
Definition full (m c : N) : slice := mkSlice (Some m) c c.
Lemma open_tri : forall size w mm w', sane w -> OpenTri size w = Some (mm, w') -> exists f m c,
  c <> 0 /\ mm_f mm = f /\ mm_o mm = full m c /\ w_next w <= f < w_next w' /\ w_next w <= m < w_next w' /\ f <> m /\
  w_open w' = f :: w_open w /\ w_temp w' = w_temp w /\ w_maps w' = m :: w_maps w.
Proof.
  intros size w mm w' W R. unfold OpenTri in R. destruct (open_inv _ _ _ _ _ R) as (w1 & X1 & [R1|R1]); [discriminate|].
  destruct (andThen_inv _ _ _ _ _ _ _ R1) as (m & w2 & R2 & R3).
  destruct (N.eq_0_gt_0_cases size) as [Z|P].
  { exfalso. subst size. unfold mmapFile in R2. destruct (andThen_inv _ _ _ _ _ _ _ R2) as (ok & w3 & _ & R4). destruct ok; [|discriminate].
    change (0 =? 0) with true in R4. unfold ret in R4. injection R4 as <- <-. discriminate R3. }
  destruct (mmapFile_inv _ _ _ _ _ R2 P) as (w3 & X3 & -> & ->). cbn [sl_len mm_d] in R3.
  destruct (size <? 4 * 4 + 16); [discriminate|].
  destruct (andThen_inv _ _ _ _ _ _ _ R3) as (ok & w4 & R4 & R5). destruct ok; [|discriminate]. unfold ret in R5. injection R5 as <- <-.
  exists (w_next w1), (w_next w3), ((size + 4095) / 4096 * 4096). cbn [mm_f mm_o].
  destruct (ask_next _ _ _ R4) as (A & B & C & D). cbn [w_made w_next w_open w_temp w_maps] in *.
  destruct X1 as (L1 & _ & O1 & T1 & M1). destruct X3 as (L3 & _ & O3 & T3 & M3). cbn [app opened w_made w_next w_open w_temp w_maps] in *.
  split.
  { intro E0. pose proof (N.div_mod (size + 4095) 4096 ltac:(discriminate)) as DM.
    pose proof (N.mod_lt (size + 4095) 4096 ltac:(discriminate)) as ML. lia. }
  split; [reflexivity|]. split; [reflexivity|]. split; [lia|]. split; [lia|]. split; [lia|]. split; [congruence|]. split; congruence.
Qed.
(** [cur] in use ([true]) or closed; [base]: the other mappings; [n]: at least so many other open files. *)
Definition state (base : list N) (n : nat) (cur : mmapData) (w : world) : Prop :=
  exists m c, c <> 0 /\ mm_o cur = full m c /\ mm_f cur < w_next w /\ m < w_next w /\
  ((w_maps w = m :: base /\ ~ In m base /\ exists l1 l2, w_open w = l1 ++ mm_f cur :: l2 /\ ~ In (mm_f cur) (l1 ++ l2) /\ (n <= length (l1 ++ l2))%nat) \/
   (w_maps w = base /\ ~ In m base /\ (n <= length (w_open w))%nat)).
Lemma close_state : forall mm m c w ok w', mm_o mm = full m c -> c <> 0 -> CloseIndex mm w = Some (ok, w') ->
  (In m (w_maps w) -> ok = true /\ w' = mkW (w_answers w) (w_next w) (without (mm_f mm) (w_open w)) (w_temp w) (without m (w_maps w)) (w_made w)) /\
  (~ In m (w_maps w) -> ok = false /\ w' = w).
Proof.
  intros mm m c w ok w' E C R. unfold CloseIndex, unmmapFile, munmap, andThen in R. rewrite E in R. unfold full in R. cbn [sl_len sl_cap sl_map] in R.
  rewrite N.eqb_refl in R. destruct (N.eqb_spec c 0) as [?|_]; [congruence|]. cbn [orb negb] in R.
  destruct (existsb (N.eqb m) (w_maps w)) eqn:B.
  - split.
    + intros _. unfold close, ret in R. injection R as <- <-. auto.
    + intro NI. exfalso. apply NI. apply existsb_exists in B. destruct B as (x & I & E'). apply N.eqb_eq in E'. subst x. exact I.
  - split.
    + intro I. exfalso. apply Bool.not_true_iff_false in B. apply B. apply existsb_exists. exists m. split; [exact I|apply N.eqb_refl].
    + intros _. unfold ret in R. injection R as <- <-. auto.
Qed.
Lemma destroy_state : forall mm m c w ok w', mm_o mm = full m c -> c <> 0 -> Destroy mm w = Some (ok, w') ->
  (In m (w_maps w) -> w_next w' = w_next w /\ w_open w' = without (mm_f mm) (w_open w) /\ w_temp w' = w_temp w /\ w_maps w' = without m (w_maps w)) /\
  (~ In m (w_maps w) -> ok = false /\ w' = w).
Proof.
  intros mm m c w ok w' E C R. unfold Destroy in R. destruct (andThen_inv _ _ _ _ _ _ _ R) as (b & w1 & R1 & R2).
  destruct (close_state _ _ _ _ _ _ E C R1) as (Y & N). split.
  - intro I. destruct (Y I) as (-> & ->). destruct (ask_next _ _ _ R2) as (A1 & A2 & A3 & A4). cbn [w_made w_next w_open w_temp w_maps] in *. auto.
  - intro I. destruct (N I) as (-> & ->). unfold ret in R2. injection R2 as <- <-. auto.
Qed.
Lemma below_sane_open : forall w l m, sane w -> below (w_next w) l -> m < w_next w -> sane (mkW (w_answers w) (w_next w) l (w_temp w) (m :: w_maps w) (w_made w)).
Proof. intros w l m (O & T & M) L B. unfold sane. cbn. split; [exact L|]. split; [exact T|constructor; [exact B|exact M]]. Qed.
Lemma in_without : forall f l x, In x (without f l) -> In x l.
Proof. intros f l x X. unfold without in X. apply filter_In in X. apply X. Qed.
Lemma below_without : forall n f l, below n l -> below n (without f l).
Proof. intros n f l B. apply Forall_forall. intros x X. exact (proj1 (Forall_forall _ _) B _ (in_without _ _ _ X)). Qed.

Lemma state_leaves : forall base n cur w w' cs, state base n cur w -> sane w -> leaves cs w w' -> state base (length cs + n) cur w'.
Proof.
  intros base n cur w w' cs (m & c & C & E & LF & LM & D) W (L & F & O & M). exists m, c. split; [exact C|]. split; [exact E|]. split; [lia|]. split; [lia|].
  destruct D as [(D1 & D2 & l1 & l2 & D3 & D4 & D5)|(D1 & D2 & D3)].
  - left. split; [congruence|]. split; [exact D2|]. exists (cs ++ l1), l2. rewrite O, D3, <- !app_assoc. split; [reflexivity|]. split.
    + intro I. apply in_app_iff in I. destruct I as [I|I]; [|contradiction].
      pose proof (proj1 (Forall_forall _ _) F _ I) as Q. cbv beta in Q. lia.
    + rewrite app_length. lia.
  - right. split; [congruence|]. split; [exact D2|]. rewrite O, app_length. lia.
Qed.
Lemma state_le : forall base n n' cur w, state base n cur w -> (n' <= n)%nat -> state base n' cur w.
Proof.
  intros base n n' cur w (m & c & C & E & LF & LM & D) L. exists m, c. split; [exact C|]. split; [exact E|]. split; [exact LF|]. split; [exact LM|].
  destruct D as [(D1 & D2 & l1 & l2 & D3 & D4 & D5)|(D1 & D2 & D3)].
  - left. split; [exact D1|]. split; [exact D2|]. exists l1, l2. split; [exact D3|]. split; [exact D4|lia].
  - right. split; [exact D1|]. split; [exact D2|lia].
Qed.
Lemma update_state : forall base n there vs size cur w r w', sane w -> state base n cur w -> updateAndReindex there vs size cur w = Some (r, w') ->
  sane w' /\ state base (if snd r && negb there then 3 + n else n) (fst r) w'.
Proof.
  intros base n there vs size cur w r w' W S R. unfold updateAndReindex in R.
  assert (STAY : forall v cs, leaves cs w v -> sane v -> sane v /\ state base n cur v).
  { intros v cs LV V. split; [exact V|]. apply (state_le _ (length cs + n)); [exact (state_leaves _ _ _ _ _ _ S W LV)|lia]. }
  destruct (andThen_inv _ _ _ _ _ _ _ R) as (p & w1 & R1 & R2). pose proof (clean_ask _ _ _ W R1) as X1. pose proof (adds_sane _ _ _ W X1) as W1.
  pose proof (leaves_adds _ _ _ _ (leaves_refl w) X1) as LV1.
  destruct p; [|unfold ret in R2; injection R2 as <- <-; exact (STAY _ _ LV1 W1)].
  destruct (andThen_inv _ _ _ _ _ _ _ R2) as (q & w2 & R3 & R4). pose proof (clean_ask _ _ _ W1 R3) as X2. pose proof (adds_sane _ _ _ W1 X2) as W2.
  pose proof (leaves_adds _ _ _ _ LV1 X2) as LV2.
  destruct q; [|unfold ret in R4; injection R4 as <- <-; exact (STAY _ _ LV2 W2)].
  destruct (andThen_inv _ _ _ _ _ _ _ R4) as (o & w3 & R5 & R6). unfold buildAndOpenIndex in R5.
  destruct (andThen_inv _ _ _ _ _ _ _ R5) as (ok & w5 & R9 & R10).
  assert (B5 : sane w5 /\ exists cs, leaves cs w w5 /\ (ok = true -> there = false -> length cs = 3%nat)).
  { destruct there.
    - pose proof (read_clean _ _ _ W2 R9) as X5. split; [exact (adds_sane _ _ _ W2 X5)|]. exists [].
      split; [exact (leaves_adds _ _ _ _ LV2 X5)|discriminate].
    - destruct (build_leaves _ _ _ _ W2 R9) as (W5 & cs & LV5 & G). split; [exact W5|]. exists cs.
      split; [exact (adds_leaves _ _ _ _ (adds_trans _ _ _ _ _ X1 X2) LV5)|]. intros -> _. apply G. }
  destruct B5 as (W5 & cs & LV5 & CN).
  destruct ok; [|unfold ret in R10; injection R10 as <- <-; unfold ret in R6; injection R6 as <- <-; exact (STAY _ _ LV5 W5)].
  destruct (andThen_inv _ _ _ _ _ _ _ R10) as (idx & w6 & R11 & R12). unfold ret in R12. injection R12 as <- <-.
  destruct (open_tri _ _ _ _ W5 R11) as (f & m & c & C & Ef & Em & Lf & Lm & FM & O6 & T6 & M6).
  pose proof (state_leaves _ _ _ _ _ _ S W LV5) as S5. destruct S5 as (m0 & c0 & C0 & E0 & LF0 & LM0 & D0).
  destruct W5 as (WO & WT & WM).
  assert (LE : (length cs + n >= if true && negb there then 3 + n else n)%nat).
  { destruct there; cbn [negb andb]; [lia|]. rewrite (CN eq_refl eq_refl). lia. }
  destruct (andThen_inv _ _ _ _ _ _ _ R6) as (ok & w7 & R13 & R14).
  destruct (destroy_state _ _ _ _ _ _ E0 C0 R13) as (Y0 & N0).
  assert (NF : forall l, below (w_next w5) l -> ~ In f l).
  { intros l B I. pose proof (proj1 (Forall_forall _ _) B _ I) as Q. cbv beta in Q. lia. }
  assert (NM : forall l, below (w_next w5) l -> ~ In m l).
  { intros l B I. pose proof (proj1 (Forall_forall _ _) B _ I) as Q. cbv beta in Q. lia. }
  destruct D0 as [(D1 & D2 & l1 & l2 & D3 & D4 & D5)|(D1 & D2 & D3)].
  - destruct Y0 as (N7 & O7 & T7 & M7); [rewrite M6, D1; right; left; reflexivity|].
    assert (M7' : w_maps w7 = m :: base).
    { rewrite M7, M6, D1. change (m :: m0 :: base) with ([m] ++ m0 :: base). rewrite without_app, without_other, without_head; [reflexivity|exact D2|].
      intros [->|[]]. lia. }
    assert (O7' : w_open w7 = f :: l1 ++ l2).
    { rewrite O7, O6, D3. change (f :: l1 ++ mm_f cur :: l2) with ((f :: l1) ++ mm_f cur :: l2). rewrite without_app, without_other, without_head; [reflexivity| |].
      - intro I. apply D4. apply in_or_app. right. exact I.
      - intros [I|I]; [lia|]. apply D4. apply in_or_app. left. exact I. }
    assert (Bl : below (w_next w5) (l1 ++ l2)).
    { rewrite D3 in WO. apply Forall_app in WO. destruct WO as (A & B). apply Forall_app. split; [exact A|exact (Forall_inv_tail B)]. }
    assert (Bb : below (w_next w5) base) by (rewrite D1 in WM; exact (Forall_inv_tail WM)).
    destruct ok.
    + unfold ret in R14. injection R14 as <- <-. cbn [fst snd]. split.
      * unfold sane. rewrite N7, O7', M7', T7, T6. split; [constructor; [lia|]; eapply below_le; [|exact Bl]; lia|].
        split; [eapply below_le; [|exact WT]; lia|]. constructor; [lia|]. eapply below_le; [|exact Bb]. lia.
      * exists m, c. split; [exact C|]. split; [exact Em|]. rewrite Ef. split; [lia|]. split; [lia|]. left. split; [exact M7'|]. split; [exact (NM _ Bb)|].
        exists [], (l1 ++ l2). cbn [app]. split; [exact O7'|]. split; [exact (NF _ Bl)|lia].
    + destruct (andThen_inv _ _ _ _ _ _ _ R14) as (k & w8 & R15 & R16). unfold ret in R16. injection R16 as <- <-. cbn [fst snd andb].
      destruct (destroy_state _ _ _ _ _ _ Em C R15) as (Y1 & _). destruct Y1 as (N8 & O8 & T8 & M8); [rewrite M7'; left; reflexivity|].
      rewrite M7', without_head in M8 by exact (NM _ Bb). rewrite Ef, O7', without_head in O8 by exact (NF _ Bl).
      split.
      * unfold sane. rewrite N8, N7, O8, M8, T8, T7, T6. split; [eapply below_le; [|exact Bl]; lia|].
        split; [eapply below_le; [|exact WT]; lia|]. eapply below_le; [|exact Bb]. lia.
      * exists m, c. split; [exact C|]. split; [exact Em|]. rewrite Ef. split; [lia|]. split; [lia|]. right. split; [exact M8|]. split; [exact (NM _ Bb)|].
        rewrite O8. lia.
  - destruct N0 as (-> & ->); [rewrite M6, D1; intros [I|I]; [lia|exact (D2 I)]|].
    assert (Bb : below (w_next w5) base) by (rewrite D1 in WM; exact WM).
    destruct (andThen_inv _ _ _ _ _ _ _ R14) as (k & w8 & R15 & R16). unfold ret in R16. injection R16 as <- <-. cbn [fst snd andb].
    destruct (destroy_state _ _ _ _ _ _ Em C R15) as (Y1 & _). destruct Y1 as (N8 & O8 & T8 & M8); [rewrite M6; left; reflexivity|].
    rewrite M6, D1, without_head in M8 by exact (NM _ Bb). rewrite Ef, O6, without_head in O8 by exact (NF _ WO).
    split.
    * unfold sane. rewrite N8, O8, M8, T8, T6. split; [eapply below_le; [|exact WO]; lia|].
      split; [eapply below_le; [|exact WT]; lia|]. eapply below_le; [|exact Bb]. lia.
    * exists m, c. split; [exact C|]. split; [exact Em|]. rewrite Ef. split; [lia|]. split; [lia|]. right. split; [exact M8|]. split; [exact (NM _ Bb)|].
      rewrite O8. lia.
Qed.
Lemma live_state : forall ds base n cur w r w', sane w -> state base n cur w -> live ds cur w = Some (r, w') ->
  sane w' /\ state base (3 * snd r + n) (fst r) w'.
Proof.
  induction ds as [|[there vs size|k] ds IH]; intros base n cur w r w' W S R; cbn [live] in R.
  - unfold ret in R. injection R as <- <-. cbn [fst snd]. split; [exact W|exact S].
  - destruct (andThen_inv _ _ _ _ _ _ _ R) as (q & w1 & R1 & R2). destruct (update_state _ _ _ _ _ _ _ _ _ W S R1) as (W1 & S1).
    destruct (andThen_inv _ _ _ _ _ _ _ R2) as (p & w2 & R3 & R4). unfold ret in R4. injection R4 as <- <-. cbn [fst snd].
    destruct (IH _ _ _ _ _ _ W1 S1 R3) as (W2 & S2). split; [exact W2|]. apply (state_le _ _ _ _ _ S2).
    destruct (snd q && negb there); lia.
  - destruct (andThen_inv _ _ _ _ _ _ _ R) as (q & w1 & R1 & R2). pose proof (greps_clean _ _ _ _ W R1) as X.
    apply (IH base n cur w1 r w' (adds_sane _ _ _ W X)); [|exact R2].
    exact (state_leaves _ _ _ _ _ _ S W (leaves_adds _ _ _ _ (leaves_refl w) X)).
Qed.
Lemma opened_state : forall there vs size w idx w', sane w -> buildAndOpenIndex there vs size w = Some (Some idx, w') ->
  sane w' /\ state (w_maps w) (length (w_open w)) idx w'.
Proof.
  intros there vs size w idx w' W R. unfold buildAndOpenIndex in R. destruct (andThen_inv _ _ _ _ _ _ _ R) as (ok & w1 & R1 & R2).
  destruct ok; [|discriminate]. destruct (andThen_inv _ _ _ _ _ _ _ R2) as (mm & w2 & R3 & R4). unfold ret in R4. injection R4 as <- <-.
  assert (B : sane w1 /\ exists cs, leaves cs w w1).
  { destruct there.
    - pose proof (read_clean _ _ _ W R1) as X. split; [exact (adds_sane _ _ _ W X)|]. exists []. exact (leaves_adds _ _ _ _ (leaves_refl w) X).
    - destruct (build_leaves _ _ _ _ W R1) as (W1 & cs & L & _). split; [exact W1|]. exists cs. exact L. }
  destruct B as (W1 & cs & (L & F & O & M)). destruct W1 as (WO & WT & WM).
  destruct (open_tri _ _ _ _ (conj WO (conj WT WM)) R3) as (f & m & c & C & Ef & Em & Lf & Lm & FM & O2 & T2 & M2). split.
  - unfold sane. rewrite O2, T2, M2. split; [constructor; [lia|]; eapply below_le; [|exact WO]; lia|].
    split; [eapply below_le; [|exact WT]; lia|]. constructor; [lia|]. eapply below_le; [|exact WM]. lia.
  - exists m, c. split; [exact C|]. split; [exact Em|]. rewrite Ef. split; [lia|]. split; [lia|]. left. split; [congruence|]. split.
    + rewrite <- M. intro I. pose proof (proj1 (Forall_forall _ _) WM _ I) as Q. cbv beta in Q. lia.
    + exists [], (w_open w1). split; [exact O2|]. cbn [app]. split.
      * intro I. pose proof (proj1 (Forall_forall _ _) WO _ I) as Q. cbv beta in Q. lia.
      * rewrite O, app_length. lia.
Qed.

(** So many trigrams that a chunk is written. *)
Lemma add_posts_app : forall a b ix, forall w, add_posts (a + b) ix w = andThen (add_posts a ix) (add_posts b) w.
Proof.
  induction a as [|a IH]; intros b ix w; [reflexivity|]. cbn [Nat.add add_posts]. unfold andThen at 1 3.
  unfold andThen at 1. destruct ((if npost <=? wr_post ix then flushPost ix else ret ix) w) as [[ix1 w1]|]; [apply IH|reflexivity].
Qed.
Lemma add_posts_few : forall k nd ni pi mn p pf pd w, p + N.of_nat k <= npost ->
  add_posts k (mkWr nd ni pi mn p pf pd) w = Some (mkWr nd ni pi mn (p + N.of_nat k) pf pd, w).
Proof.
  induction k as [|k IH]; intros nd ni pi mn p pf pd w L.
  - cbn [add_posts]. unfold ret. rewrite N.add_0_r. reflexivity.
  - cbn [add_posts wr_post wr_nameData wr_nameIndex wr_postIndex wr_main wr_postFile wr_postData].
    destruct (N.leb_spec npost p) as [G|G]; [lia|]. unfold andThen, ret.
    cbn [wr_post wr_nameData wr_nameIndex wr_postIndex wr_main wr_postFile wr_postData]. rewrite IH by lia.
    replace (p + 1 + N.of_nat k) with (p + N.of_nat (S k)) by lia. reflexivity.
Qed.
