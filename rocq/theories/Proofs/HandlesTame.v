(** Which files are left open: temporary ones, and that of the index in use. *)
From Verif Require Import Model.Base Model.Handles Proofs.HandlesProofs.
From Coq Require Import Lia.
Local Open Scope N_scope.

(** Opens at most temporary files, and [fs] of its result. *)
Definition opens {A} (fs : A -> list N) (m : M A) := forall w a w', m w = Some (a, w') ->
  incl (w_made w) (w_made w') /\ forall x, In x (w_open w') -> In x (w_open w) \/ In x (w_made w') \/ In x (fs a).
Definition tame {A} (m : M A) := opens (fun _ => []) m.
Lemma tame_same : forall A (m : M A), (forall w a w', m w = Some (a, w') -> w_made w' = w_made w /\ incl (w_open w') (w_open w)) -> tame m.
Proof. intros A m S w a w' R. destruct (S _ _ _ R) as (E & I). rewrite E. split; [apply incl_refl|]. intros x X. left. exact (I _ X). Qed.
Lemma tame_ret : forall A (a : A), tame (ret a).
Proof. intros A a. apply tame_same. intros w b w' R. unfold ret in R. injection R as _ <-. split; [reflexivity|apply incl_refl]. Qed.
Lemma tame_fatal : forall A, tame (@fatal A).
Proof. intros A w a w' R. discriminate. Qed.
Lemma opens_then : forall A B fs (m : M A) (f : A -> M B), tame m -> (forall a, opens fs (f a)) -> opens fs (andThen m f).
Proof.
  intros A B fs m f T F w b w' R. destruct (andThen_inv _ _ _ _ _ _ _ R) as (a & w1 & R1 & R2).
  destruct (T _ _ _ R1) as (I1 & O1). destruct (F a _ _ _ R2) as (I2 & O2). split; [exact (incl_tran I1 I2)|].
  intros x X. destruct (O2 _ X) as [Y|[Y|Y]]; [|auto|auto]. destruct (O1 _ Y) as [Z|[Z|[]]]; [auto|]. right. left. exact (I2 _ Z).
Qed.
Lemma tame_then : forall A B (m : M A) (f : A -> M B), tame m -> (forall a, tame (f a)) -> tame (andThen m f).
Proof. intros A B m f. apply opens_then. Qed.
Lemma tame_opens : forall A fs (m : M A), tame m -> opens fs m.
Proof. intros A fs m T w a w' R. destruct (T _ _ _ R) as (I1 & O1). split; [exact I1|]. intros x X. destruct (O1 _ X) as [Y|[Y|[]]]; auto. Qed.
Lemma tame_ask : tame ask.
Proof.
  apply tame_same. intros w b w' R. unfold ask in R. destruct (w_answers w); injection R as _ <-; cbn [w_made w_open]; (split; [reflexivity|apply incl_refl]).
Qed.
Lemma tame_close : forall f, tame (close f).
Proof.
  intros f. apply tame_same. intros w b w' R. unfold close in R. injection R as _ <-. cbn [w_made w_open].
  split; [reflexivity|]. intros x X. exact (in_without _ _ _ X).
Qed.
Lemma tame_remove : forall f, tame (os_remove f).
Proof.
  intros f. apply tame_same. intros w b w' R. unfold os_remove in R. injection R as _ <-. cbn [w_made w_open]. split; [reflexivity|apply incl_refl].
Qed.
Lemma tame_munmap : forall s, tame (munmap s).
Proof.
  intros s. apply tame_same. intros w b w' R. unfold munmap in R.
  destruct ((sl_len s =? 0) || negb (sl_len s =? sl_cap s)); [injection R as _ <-; split; [reflexivity|apply incl_refl]|].
  destruct (sl_map s) as [m|]; [|injection R as _ <-; split; [reflexivity|apply incl_refl]].
  destruct (existsb (N.eqb m) (w_maps w)); injection R as _ <-; cbn [w_made w_open]; (split; [reflexivity|apply incl_refl]).
Qed.
Lemma tame_map : forall n, tame (new_map n).
Proof. intros n. apply tame_same. intros w b w' R. unfold new_map in R. injection R as _ <-. cbn [w_made w_open]. split; [reflexivity|apply incl_refl]. Qed.
Lemma tame_temp : tame temp_file.
Proof.
  unfold temp_file. apply tame_then; [apply tame_ask|]. intros [|]; [|apply tame_ret]. intros w a w' R. injection R as _ <-. cbn [w_made w_open]. split.
  - apply incl_tl, incl_refl.
  - intros x [<-|X]; [right; left; left; reflexivity|auto].
Qed.
Lemma opens_open : opens (fun o => match o with Some f => [f] | None => [] end) os_open.
Proof.
  unfold os_open. apply opens_then; [apply tame_ask|]. intros [|]; [|apply tame_opens, tame_ret].
  intros w a w' R. unfold andThen, new_file, ret in R. injection R as <- <-. cbn [w_made w_open]. split; [apply incl_refl|].
  intros x [<-|X]; [right; right; left; reflexivity|auto].
Qed.
(** What is closed in the end. *)
Lemma defer_opens : forall A f (m : M A) w b w', tame m -> defer (close f) m w = Some (b, w') ->
  incl (w_made w) (w_made w') /\ forall x, In x (w_open w') -> x <> f /\ (In x (w_open w) \/ In x (w_made w')).
Proof.
  intros A f m w b w' T R. unfold defer in R. destruct (andThen_inv _ _ _ _ _ _ _ R) as (c & w2 & R3 & R4).
  unfold andThen, close, ret in R4. injection R4 as -> <-. destruct (T _ _ _ R3) as (I2 & O2). cbn [w_made w_open]. split; [exact I2|].
  intros x X. split.
  - unfold without in X. apply filter_In in X. destruct X as (_ & X). intro E. subst x. rewrite N.eqb_refl in X. discriminate.
  - destruct (O2 _ (in_without _ _ _ X)) as [Y|[Y|[]]]; auto.
Qed.
Lemma tame_using : forall A (n : A) (m : N -> M A), (forall f, tame (m f)) ->
  tame (andThen os_open (fun r => match r with None => ret n | Some f => defer (close f) (m f) end)).
Proof.
  intros A n m C w b w' R. destruct (andThen_inv _ _ _ _ _ _ _ R) as (o & w1 & R1 & R2).
  destruct (opens_open _ _ _ R1) as (I1 & O1). destruct o as [f|].
  - destruct (defer_opens _ _ _ _ _ _ (C f) R2) as (I2 & O2). split; [exact (incl_tran I1 I2)|]. intros x X.
    destruct (O2 _ X) as (NX & [Y|Y]); [|auto]. destruct (O1 _ Y) as [Z|[Z|[Z|[]]]]; [auto| |congruence]. right. left. exact (I2 _ Z).
  - unfold ret in R2. injection R2 as _ <-. split; [exact I1|]. intros x X. destruct (O1 _ X) as [Z|[Z|[]]]; auto.
Qed.
Ltac tame := first [apply tame_ret | apply tame_fatal | apply tame_ask | apply tame_remove | apply tame_close | apply tame_munmap | apply tame_map
  | assumption | apply tame_temp | apply tame_then; [tame|intros; tame]
  | match goal with |- tame (match ?x with _ => _ end) => destruct x; tame end | idtac].
Lemma text_tame : tame isTextFile.
Proof. unfold isTextFile. apply tame_using. intros _. tame. Qed.
Lemma json_tame : tame writeExcludedFilesJson.
Proof. unfold writeExcludedFilesJson. apply tame_using. intros _. tame. Qed.
Lemma manifest_tame : tame writeManifest.
Proof. unfold writeManifest. apply tame_using. intros _. tame. Qed.
Lemma read_tame : tame Read.
Proof. unfold Read. apply tame_using. intros _. tame. Qed.
Lemma greps_tame : forall n, tame (grep_files n).
Proof.
  induction n as [|n IH]; cbn [grep_files]; [tame|]. apply tame_then; [unfold grep2File; apply tame_using; intros _; tame|]. intros [|]; tame.
Qed.
Lemma posts_tame : forall k ix, tame (add_posts k ix).
Proof.
  induction k as [|k IH]; intro ix; cbn [add_posts]; [tame|]. apply tame_then; [|intros; apply IH].
  destruct (npost <=? wr_post ix); [|tame]. unfold flushPost. tame.
Qed.
Lemma file_tame : forall ix reason k, tame (addFileToIndex ix reason k).
Proof.
  intros ix reason k. unfold addFileToIndex. apply tame_then; [tame|]. intros [|]; [|tame]. apply tame_using. intros _. apply tame_using. intros _.
  destruct reason; [tame|]. apply tame_then; [apply posts_tame|intros; tame].
Qed.
Lemma walk_tame : forall vs ix, tame (walk vs ix).
Proof.
  induction vs as [|v vs IH]; intro ix; cbn [walk]; [tame|]. apply tame_then; [|intros [ix'|]; [apply IH|tame]].
  destruct v as [| | |reason k]; cbn [visiting]; [tame|tame|tame|]. apply tame_then; [tame|]. intros [|]; [|tame].
  apply tame_then; [apply text_tame|]. intros [[|]|]; [apply file_tame|tame|tame].
Qed.
Lemma mmap_tame : forall f size, tame (mmapFile f size).
Proof. intros f size. unfold mmapFile. tame. Qed.
Lemma adds_tame : forall fs, tame (add_files fs).
Proof.
  induction fs as [|[f size] fs IH]; cbn [add_files]; [tame|]. apply tame_then; [apply mmap_tame|]. intro m. destruct (sl_len (mm_d m) =? 0); [tame|].
  apply tame_then; [exact IH|intros; tame].
Qed.
Lemma each_tame : forall A (f : A -> M unit) l, (forall a, tame (f a)) -> tame (each f l).
Proof. intros A f l F. induction l as [|a l IH]; cbn [each]; [tame|]. apply tame_then; [apply F|intros; exact IH]. Qed.
Lemma flush_tame : forall ix, tame (Flush ix).
Proof.
  intro ix. assert (CF : tame copyFile) by (unfold copyFile; tame). unfold Flush. apply tame_then; [exact CF|]. intros _. apply tame_then.
  { unfold mergePost. apply tame_then; [apply adds_tame|intros; tame]. }
  intro ix'. apply tame_then; [exact CF|]. intros _. apply tame_then; [exact CF|]. intros _. apply tame_then; [tame|]. intros _.
  apply tame_then; [apply each_tame; intros; unfold unmmap; tame|]. intros _. apply tame_then; [apply each_tame; intros; tame|]. intros _. tame.
Qed.
Lemma create_opens : opens (fun ix => [wr_main ix]) Create.
Proof.
  assert (B : tame (bufCreate false)) by (unfold bufCreate; tame).
  unfold Create. apply opens_then; [exact B|]. intro nd. apply opens_then; [exact B|]. intro ni. apply opens_then; [exact B|]. intro pi.
  intros w a w' R. destruct (andThen_inv _ _ _ _ _ _ _ R) as (mn & w1 & R1 & R2). unfold ret in R2. injection R2 as <- <-. cbn [wr_main].
  unfold bufCreate in R1. destruct (andThen_inv _ _ _ _ _ _ _ R1) as (o & w2 & R3 & R4). destruct (opens_open _ _ _ R3) as (I1 & O1).
  destruct o as [f|]; [|discriminate]. unfold ret in R4. injection R4 as <- <-. split; [exact I1|exact O1].
Qed.
Lemma index_tame : forall vs, tame (indexAllFiles vs).
Proof.
  intros vs w b w' R. unfold indexAllFiles in R. destruct (andThen_inv _ _ _ _ _ _ _ R) as (ix & w1 & R1 & R2).
  destruct (create_opens _ _ _ R1) as (I1 & O1). unfold Close in R2.
  match type of R2 with defer _ ?m _ = _ => assert (T : tame m) end.
  { apply tame_using. intros _. apply tame_then; [apply walk_tame|]. intros [ix'|]; [|tame]. apply tame_then; [apply json_tame|]. intros [|]; [|tame].
    apply tame_then; [apply flush_tame|intros; tame]. }
  destruct (defer_opens _ _ _ _ _ _ T R2) as (I2 & O2). split; [exact (incl_tran I1 I2)|]. intros x X.
  destruct (O2 _ X) as (NX & [Y|Y]); [|auto]. destruct (O1 _ Y) as [Z|[Z|[Z|[]]]]; [auto| |congruence]. right. left. exact (I2 _ Z).
Qed.
Lemma build_tame : forall vs, tame (Build vs).
Proof.
  intro vs. unfold Build. apply tame_then; [tame|]. intros [|]; [|tame]. apply tame_then; [tame|]. intros [|]; [|tame].
  apply tame_then; [apply index_tame|]. intros [|]; [apply manifest_tame|tame].
Qed.
Lemma tri_opens : forall size, opens (fun mm => [mm_f mm]) (OpenTri size).
Proof.
  intros size w mm w' R. unfold OpenTri in R. destruct (andThen_inv _ _ _ _ _ _ _ R) as (o & w1 & R1 & R2).
  destruct (opens_open _ _ _ R1) as (I1 & O1). destruct o as [f|]; [|discriminate].
  destruct (andThen_inv _ _ _ _ _ _ _ R2) as (m & w2 & R3 & R4). destruct (mmap_tame _ _ _ _ _ R3) as (I2 & O2).
  assert (E : mm_f m = f).
  { unfold mmapFile in R3. destruct (andThen_inv _ _ _ _ _ _ _ R3) as (ok & w3 & _ & R5). destruct ok; [|discriminate].
    destruct (size =? 0); [unfold ret in R5; injection R5 as <- _; reflexivity|].
    destruct (andThen_inv _ _ _ _ _ _ _ R5) as (ok & w4 & _ & R6). destruct ok; [|discriminate].
    unfold andThen, new_map, ret in R6. injection R6 as <- _. reflexivity. }
  destruct (sl_len (mm_d m) <? 4 * 4 + 16); [discriminate|].
  destruct (andThen_inv _ _ _ _ _ _ _ R4) as (ok & w5 & R7 & R8). destruct ok; [|discriminate]. unfold ret in R8. injection R8 as <- <-.
  destruct (tame_ask _ _ _ R7) as (I3 & O3). rewrite E. split; [exact (incl_tran I1 (incl_tran I2 I3))|]. intros x X.
  destruct (O3 _ X) as [Y|[Y|[]]]; [|auto]. destruct (O2 _ Y) as [Z|[Z|[]]]; [|right; left; exact (I3 _ Z)].
  destruct (O1 _ Z) as [V|[V|V]]; [auto|right; left; exact (I3 _ (I2 _ V))|auto].
Qed.

(** Beside [B]: temporary files, and the file of the index while it is in use. *)
Definition kept (B : N -> Prop) (cur : mmapData) (w : world) : Prop := forall x, In x (w_open w) ->
  B x \/ In x (w_made w) \/ (x = mm_f cur /\ exists m, sl_map (mm_o cur) = Some m /\ In m (w_maps w)).
Lemma close_kept : forall (B : N -> Prop) mm m c w ok w', mm_o mm = full m c -> c <> 0 -> Destroy mm w = Some (ok, w') -> In m (w_maps w) ->
  (forall x, In x (w_open w) -> B x \/ x = mm_f mm) -> w_made w' = w_made w /\ forall x, In x (w_open w') -> B x.
Proof.
  intros B mm m c w ok w' E C R I K. unfold Destroy in R. destruct (andThen_inv _ _ _ _ _ _ _ R) as (b & w1 & R1 & R2).
  destruct (close_state _ _ _ _ _ _ E C R1) as (Y & _). destruct (Y I) as (-> & ->).
  assert (MD : w_made w' = w_made w).
  { unfold ask in R2. cbn [w_answers] in R2. destruct (w_answers w); injection R2 as _ <-; reflexivity. }
  split; [exact MD|]. intros x X. destruct (ask_next _ _ _ R2) as (_ & O & _). cbn [w_open] in O. rewrite O in X.
  assert (NX : x <> mm_f mm).
  { unfold without in X. apply filter_In in X. destruct X as (_ & X). intro E'. subst x. rewrite N.eqb_refl in X. discriminate. }
  destruct (K _ (in_without _ _ _ X)) as [Z|Z]; [exact Z|congruence].
Qed.
Lemma update_kept : forall B base n there vs size cur w r w', sane w -> state base n cur w -> kept B cur w ->
  updateAndReindex there vs size cur w = Some (r, w') -> kept B (fst r) w'.
Proof.
  intros B base n there vs size cur w r w' W S K R. unfold updateAndReindex in R.
  assert (STAY : forall v cs, leaves cs w v -> incl (w_made w) (w_made v) /\ (forall x, In x (w_open v) -> In x (w_open w) \/ In x (w_made v) \/ In x []) -> kept B cur v).
  { intros v cs (_ & _ & _ & LM) (I1 & O1) x X. destruct (O1 _ X) as [Y|[Y|[]]]; [|auto]. rewrite LM.
    destruct (K _ Y) as [Z|[Z|Z]]; [auto|right; left; exact (I1 _ Z)|auto]. }
  destruct (andThen_inv _ _ _ _ _ _ _ R) as (p & w1 & R1 & R2). pose proof (clean_ask _ _ _ W R1) as X1. pose proof (adds_sane _ _ _ W X1) as W1.
  pose proof (leaves_adds _ _ _ _ (leaves_refl w) X1) as LV1. pose proof (tame_ask _ _ _ R1) as T1.
  destruct p; [|unfold ret in R2; injection R2 as <- <-; exact (STAY _ _ LV1 T1)].
  destruct (andThen_inv _ _ _ _ _ _ _ R2) as (q & w2 & R3 & R4). pose proof (clean_ask _ _ _ W1 R3) as X2. pose proof (adds_sane _ _ _ W1 X2) as W2.
  pose proof (leaves_adds _ _ _ _ LV1 X2) as LV2.
  assert (T2 : incl (w_made w) (w_made w2) /\ forall x, In x (w_open w2) -> In x (w_open w) \/ In x (w_made w2) \/ In x []).
  { destruct T1 as (I1 & O1). destruct (tame_ask _ _ _ R3) as (I2 & O2). split; [exact (incl_tran I1 I2)|]. intros x X.
    destruct (O2 _ X) as [Y|[Y|[]]]; [|auto]. destruct (O1 _ Y) as [Z|[Z|[]]]; [auto|right; left; exact (I2 _ Z)]. }
  destruct q; [|unfold ret in R4; injection R4 as <- <-; exact (STAY _ _ LV2 T2)].
  destruct (andThen_inv _ _ _ _ _ _ _ R4) as (o & w3 & R5 & R6). unfold buildAndOpenIndex in R5.
  destruct (andThen_inv _ _ _ _ _ _ _ R5) as (ok & w5 & R9 & R10).
  assert (B5 : sane w5 /\ exists cs, leaves cs w w5).
  { destruct there.
    - pose proof (read_clean _ _ _ W2 R9) as X5. split; [exact (adds_sane _ _ _ W2 X5)|]. exists []. exact (leaves_adds _ _ _ _ LV2 X5).
    - destruct (build_leaves _ _ _ _ W2 R9) as (W5 & cs & LV5 & G). split; [exact W5|]. exists cs.
      exact (adds_leaves _ _ _ _ (adds_trans _ _ _ _ _ X1 X2) LV5). }
  destruct B5 as (W5 & cs & LV5).
  assert (T5 : incl (w_made w) (w_made w5) /\ forall x, In x (w_open w5) -> In x (w_open w) \/ In x (w_made w5) \/ In x []).
  { assert (T : tame (if there then Read else Build vs)) by (destruct there; [apply read_tame|apply build_tame]).
    destruct T2 as (I1 & O1). destruct (T _ _ _ R9) as (I2 & O2). split; [exact (incl_tran I1 I2)|]. intros x X.
    destruct (O2 _ X) as [Y|[Y|[]]]; [|auto]. destruct (O1 _ Y) as [Z|[Z|[]]]; [auto|right; left; exact (I2 _ Z)]. }
  destruct ok; [|unfold ret in R10; injection R10 as <- <-; unfold ret in R6; injection R6 as <- <-; exact (STAY _ _ LV5 T5)].
  pose proof (STAY _ _ LV5 T5) as K5.
  destruct (andThen_inv _ _ _ _ _ _ _ R10) as (idx & w6 & R11 & R12). unfold ret in R12. injection R12 as <- <-.
  destruct (open_tri _ _ _ _ W5 R11) as (f & m & c & C & Ef & Em & Lf & Lm & FM & O6 & T6 & M6).
  destruct (tri_opens _ _ _ _ R11) as (I6 & K6).
  pose proof (state_leaves _ _ _ _ _ _ S W LV5) as S5. destruct S5 as (m0 & c0 & C0 & E0 & LF0 & LM0 & D0).
  destruct (andThen_inv _ _ _ _ _ _ _ R6) as (ok & w7 & R13 & R14).
  assert (NM : ~ In m (w_maps w5)).
  { destruct W5 as (_ & _ & WM). intro X. pose proof (proj1 (Forall_forall _ _) WM _ X) as Q. cbv beta in Q. lia. }
  destruct D0 as [(D1 & D2 & _)|(D1 & D2 & _)].
  - assert (I0 : In m0 (w_maps w6)) by (rewrite M6, D1; right; left; reflexivity).
    destruct (close_kept (fun x => B x \/ In x (w_made w6) \/ x = f) _ _ _ _ _ _ E0 C0 R13 I0) as (MD7 & K7).
    { intros x X. destruct (K6 _ X) as [Y|[Y|[Y|[]]]]; [|auto|left; right; right; congruence].
      destruct (K5 _ Y) as [Z|[Z|(Z & _)]]; [auto|left; right; left; exact (I6 _ Z)|auto]. }
    destruct (destroy_state _ _ _ _ _ _ E0 C0 R13) as (Y0 & _). destruct (Y0 I0) as (_ & _ & _ & M7).
    assert (I7 : In m (w_maps w7)).
    { rewrite M7, M6. unfold without. apply filter_In. split; [left; reflexivity|]. destruct (N.eqb_spec m0 m) as [E|E]; [lia|reflexivity]. }
    destruct ok.
    + unfold ret in R14. injection R14 as <- <-. cbn [fst]. intros x X. rewrite MD7. destruct (K7 _ X) as [Y|[Y|Y]]; [auto|auto|].
      right. right. split; [congruence|]. exists m. rewrite Em. split; [reflexivity|exact I7].
    + destruct (andThen_inv _ _ _ _ _ _ _ R14) as (k & w8 & R15 & R16). unfold ret in R16. injection R16 as <- <-. cbn [fst].
      destruct (close_kept (fun x => B x \/ In x (w_made w6)) _ _ _ _ _ _ Em C R15 I7) as (MD8 & K8).
      { intros x X. destruct (K7 _ X) as [Y|[Y|Y]]; [auto|auto|right; congruence]. }
      intros x X. rewrite MD8, MD7. destruct (K8 _ X) as [Y|Y]; auto.
  - destruct (destroy_state _ _ _ _ _ _ E0 C0 R13) as (_ & N0). destruct N0 as (-> & ->); [rewrite M6, D1; intros [X|X]; [lia|exact (D2 X)]|].
    destruct (andThen_inv _ _ _ _ _ _ _ R14) as (k & w8 & R15 & R16). unfold ret in R16. injection R16 as <- <-. cbn [fst].
    destruct (close_kept (fun x => B x \/ In x (w_made w6)) _ _ _ _ _ _ Em C R15) as (MD8 & K8); [rewrite M6; left; reflexivity| |].
    + intros x X. destruct (K6 _ X) as [Y|[Y|[Y|[]]]]; [|auto|right; congruence].
      destruct (K5 _ Y) as [Z|[Z|(Z & m' & Z' & Z'')]]; [auto|left; right; exact (I6 _ Z)|].
      exfalso. rewrite E0 in Z'. injection Z' as <-. rewrite D1 in Z''. exact (D2 Z'').
    + intros x X. rewrite MD8. destruct (K8 _ X) as [Y|Y]; auto.
Qed.
Lemma live_kept : forall ds B base n cur w r w', sane w -> state base n cur w -> kept B cur w -> live ds cur w = Some (r, w') -> kept B (fst r) w'.
Proof.
  induction ds as [|[there vs size|k] ds IH]; intros B base n cur w r w' W S K R; cbn [live] in R.
  - unfold ret in R. injection R as <- <-. exact K.
  - destruct (andThen_inv _ _ _ _ _ _ _ R) as (q & w1 & R1 & R2). destruct (update_state _ _ _ _ _ _ _ _ _ W S R1) as (W1 & S1).
    pose proof (update_kept _ _ _ _ _ _ _ _ _ _ W S K R1) as K1.
    destruct (andThen_inv _ _ _ _ _ _ _ R2) as (p & w2 & R3 & R4). unfold ret in R4. injection R4 as <- <-. cbn [fst].
    exact (IH _ _ _ _ _ _ _ W1 S1 K1 R3).
  - destruct (andThen_inv _ _ _ _ _ _ _ R) as (q & w1 & R1 & R2). pose proof (greps_clean _ _ _ _ W R1) as X.
    destruct (greps_tame _ _ _ _ R1) as (I1 & O1).
    apply (IH B base n cur w1 r w' (adds_sane _ _ _ W X)); [|  |exact R2].
    + exact (state_leaves _ _ _ _ _ _ S W (leaves_adds _ _ _ _ (leaves_refl w) X)).
    + destruct X as (_ & _ & _ & _ & XM). intros x Hx. rewrite XM. destruct (O1 _ Hx) as [Y|[Y|[]]]; [|auto].
      destruct (K _ Y) as [Z|[Z|Z]]; [auto|right; left; exact (I1 _ Z)|auto].
Qed.
Lemma first_kept : forall there vs size w idx w', sane w -> buildAndOpenIndex there vs size w = Some (Some idx, w') -> kept (fun x => In x (w_open w)) idx w'.
Proof.
  intros there vs size w idx w' W R. unfold buildAndOpenIndex in R. destruct (andThen_inv _ _ _ _ _ _ _ R) as (ok & w1 & R1 & R2).
  assert (T : tame (if there then Read else Build vs)) by (destruct there; [apply read_tame|apply build_tame]).
  destruct (T _ _ _ R1) as (I1 & O1).
  assert (W1 : sane w1).
  { destruct there; [exact (adds_sane _ _ _ W (read_clean _ _ _ W R1))|exact (proj1 (build_leaves _ _ _ _ W R1))]. }
  destruct ok; [|discriminate]. destruct (andThen_inv _ _ _ _ _ _ _ R2) as (mm & w2 & R3 & R4). unfold ret in R4. injection R4 as <- <-.
  destruct (tri_opens _ _ _ _ R3) as (I2 & O2). destruct (open_tri _ _ _ _ W1 R3) as (f & m & c & C & Ef & Em & _ & _ & _ & _ & _ & M2).
  intros x X. destruct (O2 _ X) as [Y|[Y|[Y|[]]]]; [|auto|].
  - destruct (O1 _ Y) as [Z|[Z|[]]]; [auto|right; left; exact (I2 _ Z)].
  - right. right. split; [congruence|]. exists m. rewrite Em, M2. split; [reflexivity|left; reflexivity].
Qed.
