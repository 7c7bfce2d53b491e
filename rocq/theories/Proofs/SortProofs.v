From Verif Require Import Model.Base Model.Posts Proofs.ListLemmas Proofs.Arith.
From Coq Require Import Permutation Sorted ZifyBool ZifyNat ZifyN.
Local Open Scope nat_scope.

Section Pass.
  Variable k : nat.
  Variable r : N -> nat.

  Definition bucket (d : nat) (l : list N) : list N := filter (fun p => Nat.eqb (r p) d) l.

  Lemma bucket_cons : forall d p l,
    bucket d (p :: l) = if Nat.eqb (r p) d then p :: bucket d l else bucket d l.
  Proof. reflexivity. Qed.

  Lemma count_digits_spec : forall post sortN,
    Forall (fun p => r p < length sortN) post ->
    exists cnt, count_digits r sortN post = Some cnt /\ length cnt = length sortN /\
      forall d, d < length sortN -> nth d cnt 0 = nth d sortN 0 + length (bucket d post).
  Proof.
    induction post as [|p post IH]; intros sortN H.
    - exists sortN. cbn. repeat split; auto.
    - inversion H; subst. cbn [count_digits].
      destruct (nth_error sortN (r p)) as [c|] eqn:Ec;
        [|apply nth_error_None in Ec; lia].
      cbn [bind]. destruct (list_set_Some sortN (r p) (S c)) as [s' Es]; [assumption|].
      rewrite Es. cbn [bind]. pose proof (list_set_length _ _ _ _ Es) as Ls.
      destruct (IH s') as (cnt & Hc & Hl & Hn); [rewrite Ls; assumption|].
      exists cnt. split; [assumption|]. split; [congruence|].
      intros d Hd. rewrite Hn by lia. rewrite bucket_cons.
      pose proof (list_set_spec _ _ _ _ Es d) as Sp.
      rewrite Nat.eqb_sym.
      destruct (Nat.eqb d (r p)) eqn:E.
      + apply Nat.eqb_eq in E. subst d. 
        rewrite (nth_error_nth s' (r p) 0 Sp). rewrite (nth_error_nth sortN (r p) 0 Ec).
        cbn. lia.
      + destruct (nth_error sortN d) eqn:En; [|apply nth_error_None in En; lia].
        rewrite (nth_error_nth s' d 0 Sp), (nth_error_nth sortN d 0 En). reflexivity.
  Qed.

  Fixpoint sum (l : list nat) : nat := match l with [] => 0 | x :: t => x + sum t end.

  Lemma running_length : forall l tot, length (running tot l) = length l.
  Proof. induction l; intros; cbn; auto. Qed.

  Lemma running_spec : forall l tot d, d < length l ->
    nth_error (running tot l) d = Some (tot + sum (firstn d l)).
  Proof.
    induction l; intros tot d H; cbn in H; [lia|].
    destruct d; cbn; [f_equal; lia|]. rewrite IHl by lia. f_equal. lia.
  Qed.

  Definition segs (F J : nat -> list N) (ds : list nat) : list N :=
    concat (map (fun d => F d ++ J d) ds).

  Lemma distribute_spec : forall post all_done sortN tmp J,
    length sortN = k ->
    Forall (fun p => r p < k) post ->
    (forall d, d < k -> nth_error sortN d =
       Some (length (segs (fun d => bucket d all_done) J (seq 0 d)) + length (bucket d all_done))) ->
    (forall d, d < k -> length (J d) = length (bucket d post)) ->
    tmp = segs (fun d => bucket d all_done) J (seq 0 k) ->
    exists J', distribute r sortN tmp post =
      Some (segs (fun d => bucket d (all_done ++ post)) J' (seq 0 k)) /\
      (forall d, d < k -> J' d = []).
  Proof.
    induction post as [|p post IH]; intros dn sortN tmp J Hk Hr Hs HJ Ht.
    - exists J. cbn. rewrite app_nil_r, <- Ht. split; [reflexivity|].
      intros d Hd. specialize (HJ d Hd). cbn in HJ. destruct (J d); [reflexivity|discriminate].
    - inversion Hr; subst; clear Hr. cbn [distribute].
      pose proof (Hs (r p) H1) as Ho. rewrite Ho. cbn [bind].
      set (o := length (segs (fun d => bucket d dn) J (seq 0 (r p))) + length (bucket (r p) dn)) in *.
      destruct (list_set_Some sortN (r p) (S o)) as [s' Es].
      { apply nth_error_Some. congruence. }
      rewrite Es. cbn [bind].
      pose proof (HJ (r p) H1) as HJp. rewrite bucket_cons, Nat.eqb_refl in HJp.
      destruct (J (r p)) as [|x j] eqn:EJ; [discriminate|]. cbn in HJp. injection HJp as HJp.
      pose (J2 := fun e => if Nat.eqb e (r p) then j else J e).
      assert (Hbd : forall d, bucket d (dn ++ [p]) =
                 if Nat.eqb (r p) d then bucket d dn ++ [p] else bucket d dn).
      { intros d. unfold bucket. rewrite filter_app. cbn. 
        destruct (Nat.eqb (r p) d); [reflexivity|apply app_nil_r]. }
      assert (Hpre : segs (fun d => bucket d dn) J (seq 0 (r p)) =
                     segs (fun d => bucket d (dn ++ [p])) J2 (seq 0 (r p))).
      { apply concat_map_ext. intros d Hd. apply in_seq in Hd.
        rewrite Hbd. unfold J2.
        replace (Nat.eqb (r p) d) with false by (symmetry; apply Nat.eqb_neq; lia).
        replace (Nat.eqb d (r p)) with false by (symmetry; apply Nat.eqb_neq; lia). reflexivity. }
      assert (Hset : list_set (segs (fun d => bucket d dn) J (seq 0 (length sortN))) o p =
                     Some (segs (fun d => bucket d (dn ++ [p])) J2 (seq 0 (length sortN)))).
      { rewrite (seq_split_at (r p) (length sortN)) by assumption.
        unfold segs. rewrite !map_app, !concat_app. cbn [map concat].
        fold (segs (fun d => bucket d dn) J (seq 0 (r p))).
        fold (segs (fun d => bucket d (dn ++ [p])) J2 (seq 0 (r p))).
        rewrite EJ.
        replace (bucket (r p) (dn ++ [p])) with (bucket (r p) dn ++ [p])
          by (rewrite Hbd, Nat.eqb_refl; reflexivity).
        replace (J2 (r p)) with j by (unfold J2; rewrite Nat.eqb_refl; reflexivity).
        rewrite <- Hpre.
        replace (concat (map (fun d => bucket d (dn ++ [p]) ++ J2 d) (seq (S (r p)) (length sortN - S (r p)))))
          with (concat (map (fun d => bucket d dn ++ J d) (seq (S (r p)) (length sortN - S (r p))))).
        2:{ apply concat_map_ext. intros d Hd. apply in_seq in Hd.
            rewrite Hbd. unfold J2.
            replace (Nat.eqb (r p) d) with false by (symmetry; apply Nat.eqb_neq; lia).
            replace (Nat.eqb d (r p)) with false by (symmetry; apply Nat.eqb_neq; lia). reflexivity. }
        unfold o. rewrite <- app_length.
        match goal with |- list_set (?A ++ (?B ++ x :: j) ++ ?C) _ _ = Some (_ ++ ?D ++ ?E) =>
          replace (A ++ (B ++ x :: j) ++ C) with ((A ++ B) ++ x :: (j ++ C))
            by (rewrite <- !app_assoc; reflexivity);
          replace (A ++ D ++ E) with ((A ++ B) ++ p :: (j ++ E))
            by (rewrite <- !app_assoc; reflexivity) end.
        apply list_set_app. }
      rewrite Hset. cbn [bind].
      destruct (IH (dn ++ [p]) s' (segs (fun d => bucket d (dn ++ [p])) J2 (seq 0 (length sortN))) J2)
        as (J' & HD & HE); auto.
      + eapply list_set_length; eauto.
      + intros d Hd. rewrite (list_set_spec _ _ _ _ Es d), Hbd.
        destruct (Nat.eqb d (r p)) eqn:E.
        * apply Nat.eqb_eq in E. subst d. rewrite Nat.eqb_refl, <- Hpre, app_length. unfold o. cbn.
          f_equal. lia.
        * rewrite Nat.eqb_sym, E. rewrite (Hs d Hd). f_equal. f_equal.
          assert (forall ds, length (segs (fun d0 => bucket d0 dn) J ds) = 
             length (concat (map (fun d0 => bucket d0 dn ++ J d0) ds))) by reflexivity.
          destruct (Nat.lt_ge_cases d (r p)) as [L|L].
          -- f_equal. apply concat_map_ext. intros e He. apply in_seq in He.
             rewrite Hbd. unfold J2.
             replace (Nat.eqb (r p) e) with false by (symmetry; apply Nat.eqb_neq; lia).
             replace (Nat.eqb e (r p)) with false by (symmetry; apply Nat.eqb_neq; lia). reflexivity.
          -- apply Nat.eqb_neq in E. unfold segs.
             clear - EJ Hbd. generalize (seq 0 d) as ds.
             induction ds as [|e ds IHd]; [reflexivity|]. cbn [map concat].
             rewrite !app_length, IHd. f_equal.
             rewrite Hbd. unfold J2. rewrite (Nat.eqb_sym e (r p)).
             destruct (Nat.eqb (r p) e) eqn:Ee; [|reflexivity].
             apply Nat.eqb_eq in Ee. subst e. rewrite EJ, app_length. cbn. lia.
      + intros d Hd. unfold J2. destruct (Nat.eqb d (r p)) eqn:E.
        * apply Nat.eqb_eq in E. subst d. assumption.
        * rewrite (HJ d Hd), bucket_cons, Nat.eqb_sym, E. reflexivity.
      + exists J'. rewrite <- app_assoc in HD. cbn [app] in HD. auto.
  Qed.

  Lemma segs_len_sum : forall (J : nat -> list N) ds,
    length (concat (map J ds)) = sum (map (fun d => length (J d)) ds).
  Proof. induction ds; cbn; [reflexivity|]. rewrite app_length. lia. Qed.

  Lemma buckets_perm : forall post, Forall (fun p => r p < k) post ->
    Permutation (concat (map (fun d => bucket d post) (seq 0 k))) post.
  Proof.
    induction post as [|p post IH]; intros H.
    - cbn. induction (seq 0 k); cbn; auto.
    - inversion H; subst. 
      rewrite (seq_split_at (r p) k) by assumption.
      rewrite map_app, concat_app. cbn [map concat].
      rewrite bucket_cons, Nat.eqb_refl. cbn [app].
      etransitivity; [apply Permutation_sym, Permutation_middle|].
      constructor. etransitivity; [|apply IH; assumption].
      rewrite (seq_split_at (r p) k) by assumption.
      rewrite map_app, concat_app. cbn [map concat].
      erewrite (concat_map_ext _ (fun d => bucket d post) (seq 0 (r p))),
        (concat_map_ext _ (fun d => bucket d post) (seq (S (r p)) (k - S (r p)))); [reflexivity| |].
      + intros d Hd. apply in_seq in Hd. rewrite bucket_cons.
        replace (Nat.eqb (r p) d) with false by (symmetry; apply Nat.eqb_neq; lia). reflexivity.
      + intros d Hd. apply in_seq in Hd. rewrite bucket_cons.
        replace (Nat.eqb (r p) d) with false by (symmetry; apply Nat.eqb_neq; lia). reflexivity.
  Qed.

  (** Cut a list into segments of the given lengths. *)
  Fixpoint cuts (lens : list nat) (l : list N) : list (list N) :=
    match lens with
    | [] => []
    | n :: ns => firstn n l :: cuts ns (skipn n l)
    end.

  Lemma cuts_concat : forall lens l, sum lens = length l -> concat (cuts lens l) = l.
  Proof.
    induction lens; intros l H; cbn in *.
    - destruct l; [reflexivity|discriminate].
    - rewrite IHlens; [apply firstn_skipn|]. rewrite skipn_length. lia.
  Qed.

  Lemma cuts_length : forall lens l, length (cuts lens l) = length lens.
  Proof. induction lens; intros; cbn; auto. Qed.

  Lemma cuts_lens : forall lens l d, sum lens = length l -> d < length lens ->
    length (nth d (cuts lens l) []) = nth d lens 0.
  Proof.
    induction lens; intros l d H Hd; cbn in *; [lia|].
    destruct d; [rewrite firstn_length; lia|].
    apply IHlens; [rewrite skipn_length|]; lia.
  Qed.

  Lemma map_nth_seq : forall {A} (l : list A) (d : A),
    map (fun i => nth i l d) (seq 0 (length l)) = l.
  Proof.
    intros A l d. induction l; cbn; [reflexivity|]. f_equal.
    rewrite <- seq_shift, map_map. assumption.
  Qed.

  Lemma radix_pass_spec : forall post tmp,
    Forall (fun p => r p < k) post -> length tmp = length post ->
    radix_pass k r post tmp = Some (concat (map (fun d => bucket d post) (seq 0 k))).
  Proof.
    intros post tmp Hr Hl. unfold radix_pass.
    destruct (count_digits_spec post (repeat 0 k)) as (cnt & Hc & Hlen & Hn).
    { rewrite repeat_length. assumption. }
    rewrite repeat_length in Hlen, Hn.
    rewrite Hc. cbn [bind].
    assert (Hcnt : cnt = map (fun d => length (bucket d post)) (seq 0 k)).
    { rewrite <- (map_nth_seq cnt 0), Hlen. apply map_ext_in. intros d Hd. apply in_seq in Hd.
      rewrite Hn by lia. rewrite nth_repeat. reflexivity. }
    assert (Hsum : sum cnt = length tmp).
    { rewrite Hl, Hcnt, <- segs_len_sum. apply Permutation_length. apply buckets_perm. assumption. }
    pose (J := fun d => nth d (cuts cnt tmp) []).
    destruct (distribute_spec post [] (running 0 cnt) tmp J) as (J' & HD & HE).
    - rewrite running_length. assumption.
    - assumption.
    - intros d Hd. rewrite running_spec by lia. cbn. f_equal. rewrite Nat.add_0_r.
      unfold segs. cbn [app]. fold J. rewrite segs_len_sum.
      assert (forall d, d <= length cnt -> sum (firstn d cnt) = sum (map (fun d => length (J d)) (seq 0 d))).
      { clear - Hsum. intros d Hd. f_equal. 
        rewrite <- (map_nth_seq (firstn d cnt) 0). rewrite firstn_length, Nat.min_l by lia.
        apply map_ext_in. intros i Hi. apply in_seq in Hi. unfold J.
        rewrite cuts_lens by (auto; lia). 
        rewrite <- (firstn_skipn d cnt) at 2. rewrite app_nth1; [reflexivity|].
        rewrite firstn_length. lia. }
      apply H. lia.
    - intros d Hd. unfold J. rewrite cuts_lens by (auto; lia).
      rewrite Hn by lia. rewrite nth_repeat. reflexivity.
    - unfold segs. cbn [bucket filter app].
      rewrite <- (cuts_concat cnt tmp Hsum) at 1. f_equal.
      rewrite <- (map_nth_seq (cuts cnt tmp) []). rewrite cuts_length, Hlen. reflexivity.
    - cbn [app] in HD. rewrite HD. f_equal. unfold segs. apply concat_map_ext.
      intros d Hd. apply in_seq in Hd. rewrite HE by lia. apply app_nil_r.
  Qed.

  (** Order of the result of a pass: by digit, then by the order before the pass. *)
  Lemma buckets_sorted : forall (R : N -> N -> Prop) post,
    StronglySorted R post ->
    forall ds, StronglySorted lt ds ->
    StronglySorted (fun a b => r a < r b \/ (r a = r b /\ R a b))
      (concat (map (fun d => bucket d post) ds)).
  Proof.
    intros R post HS. induction ds as [|d ds IH]; intros Hds; cbn; [constructor|].
    inversion Hds; subst. apply StronglySorted_app.
    - eapply StronglySorted_weaken; [|apply StronglySorted_filter; exact HS].
      intros x y Hx Hy Hxy. apply filter_In in Hx. apply filter_In in Hy.
      destruct Hx as [_ Hx], Hy as [_ Hy]. apply Nat.eqb_eq in Hx, Hy. right. split; congruence.
    - apply IH; assumption.
    - intros x y Hx Hy. apply filter_In in Hx. destruct Hx as [_ Hx]. apply Nat.eqb_eq in Hx.
      apply in_concat in Hy. destruct Hy as (l & Hl & Hy). apply in_map_iff in Hl.
      destruct Hl as (e & <- & He). apply filter_In in Hy. destruct Hy as [_ Hy].
      apply Nat.eqb_eq in Hy. left. rewrite Forall_forall in H2. specialize (H2 e He). lia.
  Qed.
End Pass.

Lemma seq_sorted : forall n s, StronglySorted lt (seq s n).
Proof.
  induction n; intros; cbn; constructor; auto.
  apply Forall_forall. intros x Hx. apply in_seq in Hx. lia.
Qed.

Local Open Scope N_scope.

Lemma sort_post_spec : forall post,
  Forall (fun p => p < 2^56) post ->
  StronglySorted (fun a b => a mod 2^32 <= b mod 2^32) post ->
  exists out, sort_post post = Some out /\ Permutation out post /\ StronglySorted N.le out.
Proof.
  intros post Hb HS. unfold sort_post.
  assert (Hr : forall k l, Forall (fun p => (N.to_nat ((p / 2^k) mod 4096) < radix)%nat) l).
  { intros k l. apply Forall_forall. intros p _. unfold radix.
    pose proof (N.mod_lt (p / 2^k) 4096). lia. }
  rewrite (radix_pass_spec radix _ post); [|apply Hr|apply repeat_length].
  cbn [bind].
  set (r1 := fun p => N.to_nat ((p / 2^32) mod 4096)).
  set (r2 := fun p => N.to_nat ((p / 2^44) mod 4096)).
  set (mid := concat (map (fun d => bucket r1 d post) (seq 0 radix))).
  assert (P1 : Permutation mid post) by (apply buckets_perm; apply Hr).
  rewrite (radix_pass_spec radix r2 mid); [|apply Hr|symmetry; apply Permutation_length; assumption].
  eexists. split; [reflexivity|].
  assert (P2 : Permutation (concat (map (fun d => bucket r2 d mid) (seq 0 radix))) mid)
    by (apply buckets_perm; apply Hr).
  split; [etransitivity; eassumption|].
  pose proof (buckets_sorted r1 _ post HS _ (seq_sorted radix 0)) as S1. fold mid in S1.
  pose proof (buckets_sorted r2 _ mid S1 _ (seq_sorted radix 0)) as S2.
  eapply StronglySorted_weaken; [|exact S2].
  intros x y Hx Hy Hxy.
  assert (Bx : x < 2^56).
  { rewrite Forall_forall in Hb. apply Hb. eapply Permutation_in; [exact P1|].
    eapply Permutation_in; [exact P2|]. exact Hx. }
  assert (By : y < 2^56).
  { rewrite Forall_forall in Hb. apply Hb. eapply Permutation_in; [exact P1|].
    eapply Permutation_in; [exact P2|]. exact Hy. }
  clear - Hxy Bx By. unfold r1, r2 in Hxy.
  assert (D : forall z, z < 2^56 -> z = ((z / 2^44) mod 4096) * 2^44 + ((z / 2^32) mod 4096) * 2^32 + z mod 2^32
     /\ (z / 2^32) mod 4096 < 4096 /\ z mod 2^32 < 2^32).
  { intros z Hz. change (2^44) with (2^32 * 4096).
    rewrite <- N.div_div by discriminate.
    pose proof (N.div_mod' z (2^32)). pose proof (N.mod_lt z (2^32)).
    pose proof (N.div_mod' (z / 2^32) 4096). pose proof (N.mod_lt (z / 2^32) 4096).
    rewrite (N.mod_small (z / 2^32 / 4096)) by (apply N.div_lt_upper_bound; [lia|];
       apply N.div_lt_upper_bound; [lia|]; exact Hz).
    lia. }
  destruct (D x Bx) as (Ex & ? & ?). destruct (D y By) as (Ey & ? & ?).
  rewrite Ex, Ey. clear Ex Ey D Bx By.
  set (a1 := (x / 2^44) mod 4096) in *. set (a2 := (y / 2^44) mod 4096) in *.
  set (b1 := (x / 2^32) mod 4096) in *. set (b2 := (y / 2^32) mod 4096) in *.
  set (c1 := x mod 2^32) in *. set (c2 := y mod 2^32) in *.
  clearbody a1 a2 b1 b2 c1 c2.
  destruct Hxy as [?|[? [?|[? ?]]]]; lia.
Qed.
