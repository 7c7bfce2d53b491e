From Verif Require Import Model.Base Model.Grep Model.Client Spec.ClientSpec.
From Coq Require Import Sorted ZArith Lia.
Local Open Scope nat_scope.

Lemma list_set_some : forall {A} (l : list A) i x, i < length l ->
  exists l', list_set l i x = Some l' /\ length l' = length l /\
    forall j, nth_error l' j = if Nat.eqb j i then Some x else nth_error l j.
Proof.
  induction l as [|a l IH]; intros i x L; cbn [length] in L; [lia|].
  destruct i.
  - exists (x :: l). cbn. repeat split. intros [|j]; reflexivity.
  - destruct (IH i x) as (l' & E & EL & NT); [lia|]. exists (a :: l'). cbn. rewrite E. cbn.
    repeat split; [congruence|]. intros [|j]; cbn; [reflexivity|apply NT].
Qed.

Definition window (m : hit) := h_before m ++ [h_line m] ++ h_after m.
Definition marked (ms : list hit) (k : nat) := exists m, In m ms /\ h_no m = k.

(** The current block: consecutive lines of the file, with marks. *)
Record good (file : list str) (ms : list hit) (b : block) (s : nat) : Prop := {
  g_pos : 0 < s;
  g_start : b_start b = Z.of_nat s;
  g_ne : b_lines b <> [];
  g_len : length (b_matches b) = length (b_lines b);
  g_text : forall i l, nth_error (b_lines b) i = Some l -> nth_error file (s - 1 + i) = Some l;
  g_mark : forall i mk, nth_error (b_matches b) i = Some mk -> (mk = true <-> marked ms (s + i));
  g_cover : forall k, s <= k < s + length (b_lines b) <->
              exists m, In m ms /\ first_line m <= k <= last_line m }.

Lemma from_window : forall file m, from_file file m ->
  forall i l, nth_error (window m) i = Some l -> nth_error file (first_line m - 1 + i) = Some l.
Proof.
  intros file m (L & NL & B & A) i l H. unfold window in H.
  assert (i < length (h_before m) \/ i = length (h_before m) \/ length (h_before m) < i) as [C|[C|C]] by lia.
  - rewrite nth_error_app1 in H by lia. auto.
  - rewrite nth_error_app2 in H by lia. subst i. rewrite Nat.sub_diag in H. cbn in H. injection H as <-.
    rewrite <- NL. f_equal. unfold first_line. lia.
  - rewrite nth_error_app2 in H by lia. change ([h_line m] ++ h_after m) with (h_line m :: h_after m) in H.
    destruct (i - length (h_before m)) as [|i'] eqn:E; [lia|]. cbn in H.
    rewrite <- (A _ _ H). f_equal. unfold first_line. lia.
Qed.

Lemma window_len : forall m, length (window m) = length (h_before m) + 1 + length (h_after m).
Proof. intros. unfold window. rewrite !app_length. cbn. lia. Qed.

Lemma nth_repeat : forall {A} (x : A) n i y, nth_error (repeat x n) i = Some y -> y = x /\ i < n.
Proof.
  induction n; intros [|i] y H; cbn in H; try discriminate.
  - injection H as <-. split; [reflexivity|lia].
  - destruct (IHn _ _ H). split; [assumption|lia].
Qed.

Lemma to_block : forall file m, from_file file m ->
  exists b, matchToBlock m = Some b /\ good file [m] b (first_line m).
Proof.
  intros file m F. unfold matchToBlock.
  destruct (list_set_some (repeat false (1 + length (h_before m) + length (h_after m)))
              (length (h_before m)) true) as (v & E & EL & NT); [rewrite repeat_length; lia|].
  rewrite E. cbn [bind]. eexists. split; [reflexivity|].
  pose proof F as (L & NL & _ & _). rewrite repeat_length in EL.
  split; cbn [b_lines b_matches b_start].
  - unfold first_line; lia.
  - unfold first_line, zlen; lia.
  - destruct (h_before m); discriminate.
  - rewrite EL. fold (window m). rewrite window_len. lia.
  - apply (from_window file m F).
  - intros i mk H. rewrite NT in H.
    destruct (Nat.eqb_spec i (length (h_before m))) as [->|NE].
    + injection H as <-. split; [|reflexivity]. intros _. exists m. split; [left; reflexivity|].
      unfold first_line. lia.
    + apply nth_repeat in H. destruct H as [-> _]. split; [discriminate|].
      intros (m' & [<-|[]] & EN). unfold first_line in EN. lia.
  - intros k. fold (window m). rewrite window_len. split.
    + intros K. exists m. split; [left; reflexivity|]. unfold first_line, last_line in *. lia.
    + intros (m' & [<-|[]] & K). unfold first_line, last_line in *. lia.
Qed.

Lemma elements_some : forall {A} (l : list A) from, (0 <= from)%Z ->
  elements_from l from = Some (skipn (Z.to_nat from) l).
Proof.
  intros A l from P. unfold elements_from, zlen.
  destruct (Z.leb_spec (Z.of_nat (length l)) from).
  - rewrite skipn_all2; [reflexivity|lia].
  - destruct (Z.ltb_spec from 0); [lia|reflexivity].
Qed.

Lemma map_false : forall {A} (l : list A), map (fun _ => false) l = repeat false (length l).
Proof. induction l; cbn; congruence. Qed.

Lemma nth_skipn : forall {A} n (l : list A) i, nth_error (skipn n l) i = nth_error l (n + i).
Proof. induction n; intros [|a l] i; cbn; try reflexivity; [destruct i; reflexivity|]. apply IHn. Qed.

(** The combined effect of the three steps. *)
Lemma merge_lines : forall m b s, b_start b = Z.of_nat s -> b_lines b <> [] ->
  length (b_matches b) = length (b_lines b) ->
  length (h_before m) < h_no m -> s <= first_line m -> first_line m < s + length (b_lines b) ->
  exists b', mergeMatchIntoBlock m b = Some b' /\ b_start b' = b_start b /\
    b_lines b' = b_lines b ++ skipn (s + length (b_lines b) - first_line m) (window m) /\
    length (b_matches b') = length (b_lines b') /\
    forall i mk, nth_error (b_matches b') i = Some mk ->
      (i < length (b_lines b) /\ s + i <> h_no m /\ nth_error (b_matches b) i = Some mk) \/
      (s + i = h_no m /\ mk = true) \/
      (length (b_lines b) <= i /\ s + i <> h_no m /\ mk = false).
Proof.
  intros m b s ES NE LM LB S1 S2. unfold mergeMatchIntoBlock.
  set (n := length (b_lines b)) in *. set (off := s + n - first_line m).
  assert (EO : (endOfBlock b - startOfMatch m + 1)%Z = Z.of_nat off).
  { unfold endOfBlock, startOfMatch, zlen. rewrite ES. fold n. unfold off, first_line in *. lia. }
  rewrite EO. clear EO.
  rewrite elements_some by lia. cbn [bind]. rewrite Nat2Z.id.
  assert (OFF : 0 < off <= n) by (unfold off; lia).
  assert (FL : first_line m + length (h_before m) = h_no m) by (unfold first_line; lia).
  set (nb := length (h_before m)) in *.
  unfold zlen. fold n nb.
  destruct (Z.ltb_spec (Z.of_nat off) (Z.of_nat nb + 1)) as [C|C].
  - cbn [bind]. rewrite elements_some by (unfold clampZero; destruct (Z.ltb_spec (Z.of_nat off - Z.of_nat nb - 1) 0); lia).
    assert (EC : Z.to_nat (clampZero (Z.of_nat off - Z.of_nat nb - 1)) = 0).
    { unfold clampZero; destruct (Z.ltb_spec (Z.of_nat off - Z.of_nat nb - 1) 0); lia. }
    rewrite EC. cbn [skipn bind]. eexists. split; [reflexivity|]. cbn [b_start b_lines b_matches].
    split; [reflexivity|].
    assert (EW : skipn off (window m) = skipn off (h_before m) ++ [h_line m] ++ h_after m).
    { unfold window. rewrite skipn_app. fold nb. replace (off - nb) with 0 by lia. reflexivity. }
    split; [rewrite EW, <- !app_assoc; reflexivity|].
    split; [rewrite !app_length, !map_length, LM; reflexivity|].
    intros i mk H. rewrite !map_false in H. rewrite !skipn_length in H. fold nb in H.
    assert (i < n \/ n <= i < n + (nb - off) \/ i = n + (nb - off) \/ n + (nb - off) < i) as [D|[D|[D|D]]] by lia.
    + left. split; [lia|]. split; [unfold off in *; lia|].
      rewrite <- !app_assoc in H. rewrite nth_error_app1 in H by (rewrite LM; exact D). exact H.
    + right; right. split; [lia|]. split; [unfold off in *; lia|].
      rewrite <- !app_assoc in H. rewrite nth_error_app2 in H by lia.
      rewrite nth_error_app1 in H by (rewrite repeat_length; lia). apply nth_repeat in H. tauto.
    + right; left. split; [unfold off in *; lia|].
      rewrite <- !app_assoc in H. rewrite nth_error_app2 in H by lia.
      rewrite nth_error_app2 in H by (rewrite repeat_length; lia).
      rewrite repeat_length in H. replace (i - length (b_matches b) - (nb - off)) with 0 in H by lia.
      cbn in H. congruence.
    + right; right. split; [lia|]. split; [unfold off in *; lia|].
      rewrite nth_error_app2 in H by (rewrite !app_length, repeat_length; cbn [length]; lia).
      apply nth_repeat in H. tauto.
  - assert (EI : (Z.of_nat n - Z.of_nat off + Z.of_nat nb)%Z = Z.of_nat (h_no m - s)) by (unfold off in *; lia).
    rewrite EI. destruct (Z.ltb_spec (Z.of_nat (h_no m - s)) 0) as [D|_]; [lia|]. rewrite Nat2Z.id.
    assert (ES0 : skipn off (h_before m) = []) by (apply skipn_all2; fold nb; lia). rewrite ES0.
    cbn [map]. rewrite !app_nil_r.
    destruct (list_set_some (b_matches b) (h_no m - s) true) as (v & E & EL & NT); [unfold off in *; lia|].
    rewrite E. cbn [bind].
    assert (EC : clampZero (Z.of_nat off - Z.of_nat nb - 1) = Z.of_nat (off - nb - 1)).
    { unfold clampZero; destruct (Z.ltb_spec (Z.of_nat off - Z.of_nat nb - 1) 0); lia. }
    rewrite EC. rewrite elements_some by lia. rewrite Nat2Z.id. cbn [bind].
    eexists. split; [reflexivity|]. cbn [b_start b_lines b_matches].
    split; [reflexivity|].
    assert (EW : skipn off (window m) = skipn (off - nb - 1) (h_after m)).
    { unfold window. rewrite skipn_app. rewrite ES0. fold nb. cbn [app].
      assert (EE : off - nb = Datatypes.S (off - nb - 1)) by lia. rewrite EE at 1. reflexivity. }
    split; [rewrite EW; reflexivity|].
    split; [rewrite !app_length, !map_length, EL, LM; reflexivity|].
    intros i mk H. rewrite map_false in H.
    assert (i < n \/ n <= i) as [D|D] by lia.
    + rewrite nth_error_app1 in H by lia. rewrite NT in H.
      destruct (Nat.eqb_spec i (h_no m - s)) as [->|NE']; [right; left|left].
      * split; [lia|]. congruence.
      * split; [lia|]. split; [lia|exact H].
    + right; right. split; [lia|]. split; [unfold off in *; lia|].
      rewrite nth_error_app2 in H by lia. apply nth_repeat in H. tauto.
Qed.

Lemma merge_good : forall file ms b s m, good file ms b s -> from_file file m ->
  s <= first_line m -> first_line m < s + length (b_lines b) ->
  (forall m', In m' ms -> h_no m' < h_no m) ->
  exists b', mergeMatchIntoBlock m b = Some b' /\ good file (ms ++ [m]) b' s.
Proof.
  intros file ms b s m [G1 G2 G3 G4 G5 G6 G7] F S1 S2 LT.
  pose proof F as (L & NL & _ & _).
  destruct (merge_lines m b s G2 G3 G4 L S1 S2) as (b' & E & ES & EL & LM & MK).
  exists b'. split; [exact E|].
  assert (WL := window_len m).
  assert (LEN : length (b_lines b') = Nat.max (length (b_lines b)) (first_line m - s + length (window m))).
  { rewrite EL, app_length, skipn_length. lia. }
  split.
  - exact G1.
  - congruence.
  - rewrite EL. destruct (b_lines b); [congruence|discriminate].
  - exact LM.
  - intros i l H. rewrite EL in H.
    assert (i < length (b_lines b) \/ length (b_lines b) <= i) as [D|D] by lia.
    + rewrite nth_error_app1 in H by exact D. auto.
    + rewrite nth_error_app2 in H by exact D. rewrite nth_skipn in H.
      rewrite <- (from_window file m F _ _ H). f_equal. lia.
  - intros i mk H. destruct (MK i mk H) as [(D & NEQ & H')|[(EQ & ->)|(D & NEQ & ->)]].
    + rewrite (G6 i mk H'). unfold marked. split.
      * intros (m' & I & EN). exists m'. split; [apply in_or_app; left; exact I|exact EN].
      * intros (m' & I & EN). apply in_app_or in I. destruct I as [I|[<-|[]]]; [eauto|congruence].
    + split; [|reflexivity]. intros _. exists m. split; [apply in_or_app; right; left; reflexivity|lia].
    + split; [discriminate|]. intros (m' & I & EN). apply in_app_or in I. destruct I as [I|[<-|[]]]; [|congruence].
      assert (K : s <= h_no m' < s + length (b_lines b)).
      { apply G7. exists m'. split; [exact I|]. unfold first_line, last_line. lia. }
      lia.
  - intros k. rewrite LEN. split.
    + intros K. destruct (Nat.lt_ge_cases k (s + length (b_lines b))) as [D|D].
      * destruct (proj1 (G7 k)) as (m' & I & R); [lia|]. exists m'. split; [apply in_or_app; left; exact I|exact R].
      * exists m. split; [apply in_or_app; right; left; reflexivity|]. unfold last_line, first_line in *. lia.
    + intros (m' & I & R). apply in_app_or in I. destruct I as [I|[<-|[]]].
      * assert (K : s <= k < s + length (b_lines b)) by (apply G7; eauto). lia.
      * unfold last_line, first_line in *. lia.
Qed.

(** ** Rows *)
Lemma rows_in : forall lines marks n k t mk, length marks = length lines ->
  In (k, t, mk) (rows_from n lines marks) <->
  exists i, k = (n + Z.of_nat i)%Z /\ nth_error lines i = Some t /\ nth_error marks i = Some mk.
Proof.
  induction lines as [|l lines IH]; intros [|b marks] n k t mk L; cbn [length] in L; try discriminate; cbn [rows_from In].
  - split; [contradiction|]. intros ([|i] & _ & H & _); discriminate.
  - injection L as L. rewrite (IH marks (n + 1)%Z k t mk L). split.
    + intros [H|(i & -> & A & B)].
      * exists 0. injection H as -> -> ->. split; [lia|]. split; reflexivity.
      * exists (Datatypes.S i). split; [lia|]. split; assumption.
    + intros ([|i] & -> & A & B).
      * left. cbn in A, B. injection A as ->. injection B as ->. f_equal. f_equal. lia.
      * right. exists i. split; [lia|]. split; assumption.
Qed.

Lemma good_rows : forall file ms b s, good file ms b s ->
  forall k t mk, In (k, t, mk) (rows b) ->
    (Z.of_nat s <= k < Z.of_nat (s + length (b_lines b)))%Z /\ nth_error file (Z.to_nat k - 1) = Some t /\
    (mk = true <-> exists m, In m ms /\ Z.of_nat (h_no m) = k).
Proof.
  intros file ms b s [G1 G2 G3 G4 G5 G6 G7] k t mk I.
  unfold rows in I. apply rows_in in I; [|exact G4]. destruct I as (i & -> & A & B).
  assert (i < length (b_lines b)) by (apply nth_error_Some; congruence).
  rewrite G2. split; [lia|]. split.
  - rewrite <- (G5 _ _ A). f_equal. lia.
  - rewrite (G6 _ _ B). unfold marked. split; intros (m & I & E); exists m; (split; [exact I|lia]).
Qed.

Lemma good_rows_all : forall file ms b s, good file ms b s ->
  forall k, (Z.of_nat s <= k < Z.of_nat (s + length (b_lines b)))%Z -> exists t mk, In (k, t, mk) (rows b).
Proof.
  intros file ms b s [G1 G2 G3 G4 G5 G6 G7] k K.
  set (i := Z.to_nat (k - Z.of_nat s)).
  destruct (nth_error (b_lines b) i) as [t|] eqn:A; [|apply nth_error_None in A; lia].
  destruct (nth_error (b_matches b) i) as [mk|] eqn:B; [|apply nth_error_None in B; lia].
  exists t, mk. unfold rows. apply rows_in; [exact G4|]. exists i. rewrite G2. repeat split; auto. lia.
Qed.

Lemma rows_sorted : forall lines marks n,
  StronglySorted (fun r r' => fst (fst r) < fst (fst r'))%Z (rows_from n lines marks).
Proof.
  induction lines as [|l lines IH]; intros [|b marks] n; cbn [rows_from]; try constructor; [apply IH|].
  assert (X : forall lines marks n, Forall (fun r => n <= fst (fst r))%Z (rows_from n lines marks)).
  { clear. induction lines as [|l lines IH]; intros [|b marks] n; cbn [rows_from]; constructor; [cbn; lia|].
    eapply Forall_impl; [|apply IH]. cbn. intros. lia. }
  eapply Forall_impl; [|apply X]. cbn. intros. lia.
Qed.

Lemma sorted_app : forall {A} (R : A -> A -> Prop) l1 l2, StronglySorted R l1 -> StronglySorted R l2 ->
  (forall x y, In x l1 -> In y l2 -> R x y) -> StronglySorted R (l1 ++ l2).
Proof.
  induction l1 as [|a l1 IH]; intros l2 A1 A2 X; [exact A2|].
  inversion A1 as [|? ? A3 A4]. subst. cbn. constructor.
  - apply IH; [assumption|assumption|]. intros; apply X; [right|]; assumption.
  - rewrite Forall_app. split; [assumption|]. apply Forall_forall. intros y I. apply X; [left; reflexivity|exact I].
Qed.

Lemma sorted_app_inv : forall {A} (R : A -> A -> Prop) l1 l2, StronglySorted R (l1 ++ l2) ->
  StronglySorted R l1 /\ StronglySorted R l2 /\ (forall x y, In x l1 -> In y l2 -> R x y).
Proof.
  induction l1 as [|a l1 IH]; intros l2 X; [cbn in X|].
  - split; [constructor|]. split; [exact X|]. contradiction.
  - cbn in X. inversion X as [|? ? A3 A4]. subst. rewrite Forall_app in A4. destruct A4 as [A4 A5].
    destruct (IH l2 A3) as (B1 & B2 & B3).
    split; [constructor; assumption|]. split; [assumption|].
    intros x y [<-|I] J; [rewrite Forall_forall in A5; auto|auto].
Qed.

(** Blocks already finished. *)
Lemma shows_snoc : forall file ms1 bs ms2 b s, shows file ms1 bs -> good file ms2 b s ->
  (forall m k, In m ms1 -> k <= last_line m -> first_line m <= k -> k < s) ->
  (forall m, In m ms2 -> length (h_before m) < h_no m) ->
  (forall m, In m ms1 -> length (h_before m) < h_no m) ->
  shows file (ms1 ++ ms2) (bs ++ [b]).
Proof.
  intros file ms1 bs ms2 b s (A & B & C & D) G LT LB2 LB1. unfold shows.
  rewrite flat_map_app. cbn [flat_map]. rewrite app_nil_r.
  assert (FRONT : forall k t mk, In (k, t, mk) (flat_map rows bs) -> (k < Z.of_nat s)%Z).
  { intros k t mk I. destruct (proj1 (C k)) as (m & IM & R); [eauto|].
    specialize (LT m (Z.to_nat k) IM). lia. }
  split; [|split; [|split]].
  - rewrite Forall_app. split; [exact A|]. constructor; [|constructor]. destruct G. split; assumption.
  - apply sorted_app; [exact B|apply rows_sorted|].
    intros [[k t] mk] [[k' t'] mk'] I J. cbn [fst]. apply FRONT in I.
    apply (good_rows _ _ _ _ G) in J. lia.
  - intros k. split.
    + intros (t & mk & I). apply in_app_or in I. destruct I as [I|I].
      * destruct (proj1 (C k)) as (m & IM & R); [eauto|]. exists m. split; [apply in_or_app; left|]; assumption.
      * apply (good_rows _ _ _ _ G) in I. destruct I as (K & _).
        destruct (proj1 (g_cover _ _ _ _ G (Z.to_nat k))) as (m & IM & R); [lia|].
        exists m. split; [apply in_or_app; right; exact IM|lia].
    + intros (m & IM & R). apply in_app_or in IM. destruct IM as [IM|IM].
      * destruct (proj2 (C k)) as (t & mk & I); [eauto|]. exists t, mk. apply in_or_app. left. exact I.
      * destruct (good_rows_all _ _ _ _ G k) as (t & mk & I).
        { assert (X := proj2 (g_cover _ _ _ _ G (Z.to_nat k))). 
          assert (s <= Z.to_nat k < s + length (b_lines b)) by (apply X; exists m; split; [exact IM|lia]). lia. }
        exists t, mk. apply in_or_app. right. exact I.
  - intros k t mk I. apply in_app_or in I. destruct I as [I|I].
    + destruct (D k t mk I) as (P & TX & MK). split; [exact P|]. split; [exact TX|].
      rewrite MK. split; intros (m & IM & E).
      * exists m. split; [apply in_or_app; left; exact IM|exact E].
      * apply in_app_or in IM. destruct IM as [IM|IM]; [eauto|].
        assert (X : s <= h_no m < s + length (b_lines b)).
        { apply (g_cover _ _ _ _ G). exists m. split; [exact IM|]. unfold first_line, last_line. lia. }
        apply FRONT in I. lia.
    + destruct (good_rows _ _ _ _ G k t mk I) as (P & TX & MK). destruct G as [G1 _ _ _ _ _ _].
      split; [lia|]. split; [exact TX|].
      rewrite MK. split; intros (m & IM & E).
      * exists m. split; [apply in_or_app; right; exact IM|exact E].
      * apply in_app_or in IM. destruct IM as [IM|IM]; [|eauto].
        specialize (LT m (h_no m) IM). specialize (LB1 m IM). unfold first_line, last_line in *. lia.
Qed.

Lemma shows_nil : forall file, shows file [] [].
Proof.
  intros file. split; [constructor|]. split; [constructor|]. split.
  - intros k. split; [intros (t & mk & [])|intros (m & [] & _)].
  - contradiction.
Qed.

Lemma loop_shows : forall file rest ms1 ms2 bs c s,
  shows file ms1 bs -> good file ms2 c s -> ms2 <> [] ->
  Forall (from_file file) (ms1 ++ ms2 ++ rest) -> in_order (ms1 ++ ms2 ++ rest) ->
  (forall m k, In m ms1 -> k <= last_line m -> first_line m <= k -> k < s) ->
  exists out, coalesce_loop rest bs (Some c) = Some out /\ shows file (ms1 ++ ms2 ++ rest) out.
Proof.
  induction rest as [|m rest IH]; intros ms1 ms2 bs c s SH G NE FF OR LT.
  - cbn [coalesce_loop]. eexists. split; [reflexivity|]. rewrite app_nil_r in *.
    apply (shows_snoc file ms1 bs ms2 c s SH G LT).
    + intros m I. rewrite Forall_forall in FF. apply (FF m). apply in_or_app. right. exact I.
    + intros m I. rewrite Forall_forall in FF. apply (FF m). apply in_or_app. left. exact I.
  - cbn [coalesce_loop].
    assert (FM : from_file file m).
    { rewrite Forall_forall in FF. apply FF. apply in_or_app. right. apply in_or_app. right. left. reflexivity. }
    assert (LM : forall m', In m' ms2 -> h_no m' < h_no m /\ first_line m' <= first_line m).
    { intros m' I. unfold in_order in OR. rewrite app_assoc in OR.
      apply sorted_app_inv in OR. destruct OR as (_ & _ & X). apply (X m' m); [apply in_or_app; right; exact I|left; reflexivity]. }
    assert (SM : s <= first_line m).
    { destruct (proj1 (g_cover _ _ _ _ G s)) as (m' & I & R).
      - destruct G as [_ _ G3 _ _ _ _]. destruct (b_lines c); [congruence|]. cbn [length]. lia.
      - specialize (LM m' I).
        assert (s <= first_line m').
        { assert (LB : length (h_before m') < h_no m').
          { rewrite Forall_forall in FF. apply (FF m'). apply in_or_app. right. apply in_or_app. left. exact I. }
          apply (proj2 (g_cover _ _ _ _ G (first_line m'))). exists m'. split; [exact I|].
          unfold first_line, last_line. lia. }
        lia. }
    assert (EM : matchIsInBlock m c = Nat.ltb (first_line m) (s + length (b_lines c))).
    { unfold matchIsInBlock, endOfBlock, startOfMatch, zlen. rewrite (g_start _ _ _ _ G).
      destruct FM as (L & _). apply Bool.eq_true_iff_eq. rewrite Z.leb_le, Nat.ltb_lt. unfold first_line. lia. }
    rewrite EM. destruct (Nat.ltb_spec (first_line m) (s + length (b_lines c))) as [D|D].
    + destruct (merge_good file ms2 c s m G FM SM D) as (c' & E & G'); [intros; apply LM; assumption|].
      rewrite E. cbn [bind].
      replace (ms1 ++ ms2 ++ m :: rest) with (ms1 ++ (ms2 ++ [m]) ++ rest) in * by (rewrite <- !app_assoc; reflexivity).
      eapply IH; eauto. destruct ms2; discriminate.
    + destruct (to_block file m FM) as (c' & E & G'). rewrite E. cbn [bind].
      replace (ms1 ++ ms2 ++ m :: rest) with ((ms1 ++ ms2) ++ [m] ++ rest) in * by (rewrite <- !app_assoc; reflexivity).
      eapply IH; eauto.
      * apply (shows_snoc file ms1 bs ms2 c s SH G LT).
        -- intros m' I. rewrite Forall_forall in FF. apply (FF m'). apply in_or_app. left. apply in_or_app. right. exact I.
        -- intros m' I. rewrite Forall_forall in FF. apply (FF m'). apply in_or_app. left. apply in_or_app. left. exact I.
      * discriminate.
      * intros m' k I K1 K2. apply in_app_or in I. destruct I as [I|I].
        -- specialize (LT m' k I K1 K2). lia.
        -- assert (s <= k < s + length (b_lines c)) by (apply (g_cover _ _ _ _ G); eauto). lia.
Qed.

Theorem coalesce_shows : forall file ms, Forall (from_file file) ms -> in_order ms ->
  exists bs, coalesceMatches ms = Some bs /\ shows file ms bs.
Proof.
  intros file [|m ms] FF OR; unfold coalesceMatches; cbn [coalesce_loop].
  - exists []. split; [reflexivity|]. apply shows_nil.
  - inversion FF as [|? ? F1 F2]. subst.
    destruct (to_block file m F1) as (c & E & G). rewrite E. cbn [bind].
    destruct (loop_shows file ms [] [m] [] c (first_line m) (shows_nil file) G) as (out & E2 & SH);
      [discriminate|exact FF|exact OR|contradiction|].
    exists out. split; [exact E2|exact SH].
Qed.
