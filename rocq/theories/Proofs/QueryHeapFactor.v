(** The loop that factors out common trigrams in place. *)
From Verif Require Import Model.Base Model.Query Model.QueryHeap Spec.QuerySpec Spec.QueryHeapSpec.
From Verif Require Import Proofs.ListLemmas Proofs.QueryProofs Proofs.QueryHeapBase Proofs.QueryHeapOps.
Local Open Scope nat_scope.

Definition lput (l : list str) (k : nat) (v : str) : list str := firstn k l ++ v :: skipn (S k) l.
Definition rest (l : list str) (i n : nat) : list str := firstn (n - i) (skipn i l).

Lemma skipn_add : forall (l : list str) x y, skipn x (skipn y l) = skipn (y + x) l.
Proof. induction l as [| a l IH]; intros x y; [rewrite !skipn_nil; reflexivity |]. destruct y; [reflexivity | apply IH]. Qed.
Lemma lput_length : forall l k v, k < length l -> length (lput l k v) = length l.
Proof. intros. unfold lput. rewrite app_length, firstn_length. cbn [length]. rewrite skipn_length. lia. Qed.
Lemma lput_firstn : forall l k v, k < length l -> firstn (S k) (lput l k v) = firstn k l ++ [v].
Proof.
  intros. unfold lput. rewrite firstn_app, firstn_length, Nat.min_l by lia.
  rewrite firstn_firstn, Nat.min_r by lia.
  replace (S k - k) with 1 by lia. reflexivity.
Qed.
Lemma lput_skipn : forall l k v m, k < length l -> k < m -> skipn m (lput l k v) = skipn m l.
Proof.
  intros. unfold lput. rewrite skipn_app, firstn_length, Nat.min_l by lia.
  rewrite skipn_all2 by (rewrite firstn_length; lia). cbn [app].
  replace (m - k) with (S (m - S k)) by lia. change (skipn (S (m - S k)) (v :: skipn (S k) l)) with (skipn (m - S k) (skipn (S k) l)).
  rewrite skipn_add. f_equal. lia.
Qed.
Lemma skipn_nth : forall (l : list str) i, i < length l -> skipn i l = nth i l [] :: skipn (S i) l.
Proof.
  induction l as [| x l IH]; intros i L; cbn [length] in L; [lia |].
  destruct i; [reflexivity |]. cbn [skipn nth]. apply IH. lia.
Qed.
Lemma rest_cons : forall l i n, i < n -> n <= length l -> rest l i n = nth i l [] :: rest l (S i) n.
Proof.
  intros. unfold rest. rewrite skipn_nth by lia. replace (n - i) with (S (n - S i)) by lia. reflexivity.
Qed.
Lemma rest_nil : forall l i n, n <= i -> rest l i n = [].
Proof. intros. unfold rest. replace (n - i) with 0 by lia. reflexivity. Qed.
Lemma rest_lput : forall l k v i n, k < length l -> k < i -> rest (lput l k v) i n = rest l i n.
Proof. intros. unfold rest. rewrite lput_skipn by assumption. reflexivity. Qed.

Lemma put_sarr : forall h a k v, sarr (put h a k v) a = lput (sarr h a) k v.
Proof. intros. unfold put. cbn. apply fupd_eq. Qed.
Lemma put_other : forall h a k v x, x <> a -> sarr (put h a k v) x = sarr h x.
Proof. intros. unfold put. cbn. apply fupd_ne. assumption. Qed.
Lemma put_frame : forall h a k v, frame h (put h a k v) [a].
Proof.
  intros. split; [cbn; lia |]. intros x L N. split; [reflexivity | split; [| reflexivity]].
  apply put_other. intros ->. apply N. left. reflexivity.
Qed.

Lemma move_h_spec : forall n h a i wi h' w', wi <= i -> i + n <= length (sarr h a) ->
  move_h n h a i wi = (h', w') ->
  frame h h' [a] /\ node h' = node h /\ parr h' = parr h /\ next h' = next h /\
  w' = wi + n /\ length (sarr h' a) = length (sarr h a) /\
  firstn w' (sarr h' a) = firstn wi (sarr h a) ++ firstn n (skipn i (sarr h a)).
Proof.
  induction n as [| n IH]; intros h a i wi h' w' L1 L2 E; cbn [move_h] in E.
  - injection E as <- <-. split; [apply frame_refl |]. cbn [firstn]. rewrite app_nil_r. auto 10.
  - apply IH in E; [| lia | rewrite put_sarr, lput_length; lia].
    destruct E as [A [B [C [D [F [G K]]]]]]. rewrite put_sarr in G, K.
    rewrite lput_length in G by lia.
    split; [eapply frame_trans; [apply put_frame | exact A |]; intros x [<- | []]; left; left; reflexivity |].
    split; [rewrite B; reflexivity |]. split; [rewrite C; reflexivity |].
    split; [rewrite D; reflexivity |]. split; [lia |]. split; [exact G |].
    rewrite K, lput_firstn, lput_skipn, <- app_assoc by lia. f_equal.
    rewrite (skipn_nth (sarr h a) i) by lia. reflexivity.
Qed.

Section Factor.
Variable grow : nat -> nat -> nat.

Lemma factor_h_spec : forall fuel h a ql b rl i wi j wj c h' i' wi' j' wj' c' cs xs ys,
  a <> b -> s_arr c <> a -> s_arr c <> b -> a < next h -> b < next h -> s_arr c < next h ->
  wi <= i -> i <= ql -> ql <= length (sarr h a) -> wj <= j -> j <= rl -> rl <= length (sarr h b) ->
  s_ok h c -> (ql - i) + (rl - j) <= fuel ->
  factor_h grow fuel h a ql b rl i wi j wj c = (h', (i', wi'), (j', wj'), c') ->
  factor fuel (rest (sarr h a) i ql) (rest (sarr h b) j rl) = (cs, xs, ys) ->
  (frame h h' [a; b; s_arr c] /\ node h' = node h /\ parr h' = parr h /\
   (s_arr c' = s_arr c \/ next h <= s_arr c') /\ s_arr c' < next h' /\ s_ok h' c' /\
   elems_s h' c' = elems_s h c ++ cs) /\
  (wi' <= i' /\ i' <= ql /\ length (sarr h' a) = length (sarr h a) /\
   firstn wi' (sarr h' a) ++ rest (sarr h' a) i' ql = firstn wi (sarr h a) ++ xs) /\
  (wj' <= j' /\ j' <= rl /\ length (sarr h' b) = length (sarr h b) /\
   firstn wj' (sarr h' b) ++ rest (sarr h' b) j' rl = firstn wj (sarr h b) ++ ys).
Proof.
  induction fuel as [| f IH];
    intros h a ql b rl i wi j wj c h' i' wi' j' wj' c' cs xs ys D1 D2 D3 La Lb Lc Wi Iq Qa Wj Jr Rb Ok Fu E Fa.
  - cbn [factor_h] in E. injection E as <- <- <- <- <- <-. cbn [factor] in Fa. injection Fa as <- <- <-.
    split; [split; [apply frame_refl |]; rewrite app_nil_r; auto 10 |].
    split; split; auto.
  - cbn [factor_h] in E.
    destruct (Nat.ltb_spec i ql) as [Li | Li]; destruct (Nat.ltb_spec j rl) as [Lj | Lj]; cbn [andb] in E.
    2-4: injection E as <- <- <- <- <- <-.
    2: rewrite (rest_nil (sarr h b) j rl) in Fa by lia; rewrite rest_cons in Fa by lia.
    3: rewrite (rest_nil (sarr h a) i ql) in Fa by lia; rewrite rest_cons in Fa by lia.
    4: rewrite (rest_nil (sarr h a) i ql), (rest_nil (sarr h b) j rl) in Fa by lia.
    2-4: cbn [factor] in Fa; injection Fa as <- <- <-.
    2-4: split; [split; [apply frame_refl |]; rewrite app_nil_r; auto 10 |].
    2-4: split; (split; [assumption |]; split; [assumption |]; split; [reflexivity |]).
    2: rewrite rest_cons by lia; reflexivity.
    2: rewrite rest_nil by lia; reflexivity.
    2: rewrite rest_nil by lia; reflexivity.
    2: rewrite rest_cons by lia; reflexivity.
    2: rewrite rest_nil by lia; reflexivity.
    2: rewrite rest_nil by lia; reflexivity.
    rewrite (rest_cons (sarr h a)), (rest_cons (sarr h b)) in Fa by lia. cbn [factor] in Fa.
    change (nth i (sarr h a) []) with (get h a i) in Fa.
    change (nth j (sarr h b) []) with (get h b j) in Fa.
    change (get h b j :: rest (sarr h b) (S j) rl) with (nth j (sarr h b) [] :: rest (sarr h b) (S j) rl) in Fa.
    change (get h a i :: rest (sarr h a) (S i) ql) with (nth i (sarr h a) [] :: rest (sarr h a) (S i) ql) in Fa.
    rewrite <- (rest_cons (sarr h b) j rl), <- (rest_cons (sarr h a) i ql) in Fa by lia.
    destruct (str_ltb (get h a i) (get h b j)) eqn:C1; [| destruct (str_ltb (get h b j) (get h a i)) eqn:C2].
    + destruct (factor f (rest (sarr h a) (S i) ql) (rest (sarr h b) j rl)) as [[cs1 xs1] ys1] eqn:Fa1.
      injection Fa as <- <- <-.
      assert (sarr (put h a wi (get h a i)) a = lput (sarr h a) wi (get h a i)) as Pa by apply put_sarr.
      assert (sarr (put h a wi (get h a i)) b = sarr h b) as Pb by (apply put_other; auto).
      apply IH with (cs := cs1) (xs := xs1) (ys := ys1) in E; try assumption; try lia.
      * destruct E as [[E1 [E2 [E3 [E4 [E5 [E6 E7]]]]]] [[E8 [E9 [E10 E11]]] [E12 [E13 [E14 E15]]]]].
        rewrite Pa, ?Pb in *. rewrite lput_length in E10 by lia. rewrite lput_firstn in E11 by lia.
        split; [split; [| split; [| split; [| split; [| split; [| split]]]]] |].
        -- eapply frame_trans; [eapply frame_weaken; [apply (put_frame h a) |] | exact E1 |].
           ++ intros x [<- | []]. left. reflexivity.
           ++ intros x I. left. exact I.
        -- rewrite E2. reflexivity.
        -- rewrite E3. reflexivity.
        -- exact E4.
        -- exact E5.
        -- exact E6.
        -- rewrite E7. unfold elems_s. rewrite put_other by assumption. reflexivity.
        -- split; [split; [exact E8 | split; [exact E9 | split; [exact E10 |]]] | auto].
           rewrite E11, <- app_assoc. reflexivity.
      * rewrite Pa, lput_length; lia.
      * rewrite Pb. assumption.
      * unfold s_ok. rewrite put_other by assumption. exact Ok.
      * rewrite Pa, Pb, rest_lput by lia. exact Fa1.
    + destruct (factor f (rest (sarr h a) i ql) (rest (sarr h b) (S j) rl)) as [[cs1 xs1] ys1] eqn:Fa1.
      injection Fa as <- <- <-.
      assert (sarr (put h b wj (get h b j)) b = lput (sarr h b) wj (get h b j)) as Pb by apply put_sarr.
      assert (sarr (put h b wj (get h b j)) a = sarr h a) as Pa by (apply put_other; auto).
      apply IH with (cs := cs1) (xs := xs1) (ys := ys1) in E; try assumption; try lia.
      * destruct E as [[E1 [E2 [E3 [E4 [E5 [E6 E7]]]]]] [[E8 [E9 [E10 E11]]] [E12 [E13 [E14 E15]]]]].
        rewrite Pb, ?Pa in *. rewrite lput_length in E14 by lia. rewrite lput_firstn in E15 by lia.
        split; [split; [| split; [| split; [| split; [| split; [| split]]]]] |].
        -- eapply frame_trans; [eapply frame_weaken; [apply (put_frame h b) |] | exact E1 |].
           ++ intros x [<- | []]. right. left. reflexivity.
           ++ intros x I. left. exact I.
        -- rewrite E2. reflexivity.
        -- rewrite E3. reflexivity.
        -- exact E4.
        -- exact E5.
        -- exact E6.
        -- rewrite E7. unfold elems_s. rewrite put_other by assumption. reflexivity.
        -- split; [auto | split; [exact E12 | split; [exact E13 | split; [exact E14 |]]]].
           rewrite E15, <- app_assoc. reflexivity.
      * rewrite Pa. assumption.
      * rewrite Pb, lput_length; lia.
      * unfold s_ok. rewrite put_other by assumption. exact Ok.
      * rewrite Pa, Pb, rest_lput by lia. exact Fa1.
    + destruct (factor f (rest (sarr h a) (S i) ql) (rest (sarr h b) (S j) rl)) as [[cs1 xs1] ys1] eqn:Fa1.
      injection Fa as <- <- <-.
      destruct (append_s grow h c [get h a i]) as [h1 c1] eqn:Ea.
      apply append_s_spec in Ea; [| exact Ok]. destruct Ea as [[N1 [N2 [N3 [N4 [N5 N6]]]]] N7].
      assert (sarr h1 a = sarr h a) as Pa.
      { destruct N1 as [_ N1]. apply (N1 a La). intros [I | []]. exact (D2 I). }
      assert (sarr h1 b = sarr h b) as Pb.
      { destruct N1 as [_ N1]. apply (N1 b Lb). intros [I | []]. exact (D3 I). }
      assert (next h <= next h1) as Ln by apply N1.
      apply IH with (cs := cs1) (xs := xs1) (ys := ys1) in E; try assumption; try lia.
      * destruct E as [[E1 [E2 [E3 [E4 [E5 [E6 E7]]]]]] [[E8 [E9 [E10 E11]]] [E12 [E13 [E14 E15]]]]].
        rewrite Pa, Pb in *.
        split; [split; [| split; [| split; [| split; [| split; [| split]]]]] |].
        -- eapply frame_trans; [eapply frame_weaken; [exact N1 |] | exact E1 |].
           ++ intros x [<- | []]. right. right. left. reflexivity.
           ++ intros x [<- | [<- | [<- | []]]].
              ** left. left. reflexivity.
              ** left. right. left. reflexivity.
              ** destruct N4 as [-> | N4]; [left; right; right; left; reflexivity | right; exact N4].
        -- rewrite E2. exact N2.
        -- rewrite E3. exact N3.
        -- destruct E4 as [-> | E4]; [exact N4 | right; lia].
        -- exact E5.
        -- exact E6.
        -- rewrite E7, N7, <- app_assoc. reflexivity.
        -- auto.
      * rewrite Pa. lia.
      * rewrite Pb. lia.
      * apply N6. exact Ok.
      * rewrite Pa, Pb. exact Fa1.
Qed.

End Factor.
