From Verif Require Import Model.Base Model.Posts Proofs.ListLemmas.
From Coq Require Import Permutation Sorted.
Local Open Scope nat_scope.

Lemma swap_spec : forall {A} (l : list A) i j, i < length l -> j < length l -> i <> j ->
  exists l', swap l i j = Some l' /\ length l' = length l /\ Permutation l l' /\
    (forall c, nth_error l' c = if Nat.eqb c j then nth_error l i
                                else if Nat.eqb c i then nth_error l j
                                else nth_error l c).
Proof.
  intros A l i j Hi Hj Hij. unfold swap.
  destruct (nth_error l i) as [a|] eqn:Ea; [|apply nth_error_None in Ea; lia].
  destruct (nth_error l j) as [b|] eqn:Eb; [|apply nth_error_None in Eb; lia].
  cbn [bind].
  destruct (list_set_Some l i b Hi) as [l1 E1]. rewrite E1. cbn [bind].
  pose proof (list_set_length _ _ _ _ E1) as L1.
  destruct (list_set_Some l1 j a) as [l2 E2]; [lia|].
  pose proof (list_set_length _ _ _ _ E2) as L2.
  exists l2. split; [assumption|]. split; [lia|].
  assert (Hn : forall c, nth_error l2 c = if Nat.eqb c j then Some a
                 else if Nat.eqb c i then Some b else nth_error l c).
  { intros c. rewrite (list_set_spec _ _ _ _ E2 c), (list_set_spec _ _ _ _ E1 c). reflexivity. }
  split; [|assumption].
  (* permutation *)
  destruct (list_set_split _ _ _ _ E1) as (p & x & q & Hl & Hp & Hl1).
  assert (x = a).
  { rewrite Hl, <- Hp, nth_error_app2, Nat.sub_diag in Ea by lia. cbn in Ea. congruence. }
  subst x.
  destruct (list_set_split _ _ _ _ E2) as (p' & y & q' & Hl1' & Hp' & Hl2).
  assert (y = b).
  { pose proof (list_set_spec _ _ _ _ E1 j) as H. rewrite Hl1' in H.
    rewrite <- Hp', nth_error_app2, Nat.sub_diag in H by lia. cbn in H.
    destruct (Nat.eqb (length p') i) eqn:E; [apply Nat.eqb_eq in E; congruence|].
    rewrite Hp' in H. congruence. }
  subst y. subst l2. rewrite Hl.
  assert (P : Permutation (b :: p ++ a :: q) (a :: p' ++ b :: q')).
  { rewrite <- Hl1'. rewrite Hl1.
    transitivity (b :: a :: p ++ q); [constructor; apply Permutation_sym, Permutation_middle|].
    transitivity (a :: b :: p ++ q); [constructor|].
    constructor. apply Permutation_middle. }
  apply (Permutation_cons_inv (a := b)).
  transitivity (a :: p' ++ b :: q'); [exact P|].
  transitivity (a :: b :: p' ++ q'); [constructor; apply Permutation_sym, Permutation_middle|].
  transitivity (b :: a :: p' ++ q'); [constructor|].
  constructor. apply Permutation_middle.
Qed.

Definition key (h : heap) (i : nat) : N := fst (nth i h (0%N, [])).
Definition par (j : nat) : nat := Nat.div (j - 1) 2.

Definition heap_ok (h : heap) : Prop :=
  forall c, 1 <= c < length h -> (key h (par c) <= key h c)%N.

Lemma par_lt : forall c, 1 <= c -> par c < c.
Proof. intros. unfold par. apply Nat.div_lt_upper_bound; lia. Qed.

Lemma par_child : forall c i, 1 <= c -> par c = i <-> c = 2*i+1 \/ c = 2*i+2.
Proof.
  intros c i H. unfold par. split.
  - intros E. pose proof (Nat.div_mod (c-1) 2). pose proof (Nat.mod_upper_bound (c-1) 2). lia.
  - intros [->| ->].
    + symmetry. apply (Nat.div_unique (2*i+1-1) 2 i 0); lia.
    + symmetry. apply (Nat.div_unique (2*i+2-1) 2 i 1); lia.
Qed.

Lemma key_nth_error : forall h i c, nth_error h i = Some c -> key h i = fst c.
Proof. intros. unfold key. rewrite (nth_error_nth _ _ _ H). reflexivity. Qed.

Lemma key_swap : forall h h' i j,
  i < length h -> j < length h ->
  (forall c, nth_error h' c = if Nat.eqb c j then nth_error h i
                                else if Nat.eqb c i then nth_error h j
                                else nth_error h c) ->
  forall c, c < length h -> key h' c = if Nat.eqb c j then key h i
                                else if Nat.eqb c i then key h j else key h c.
Proof.
  intros h h' i j Hi Hj H c Hc. specialize (H c).
  assert (Hx : forall d, d < length h -> exists x, nth_error h d = Some x).
  { intros d Hd. destruct (nth_error h d) eqn:E; [eauto|apply nth_error_None in E; lia]. }
  destruct (Hx i Hi) as [xi Ei], (Hx j Hj) as [xj Ej], (Hx c Hc) as [xc Ec].
  rewrite Ei, Ej, Ec in H.
  rewrite (key_nth_error _ _ _ Ei), (key_nth_error _ _ _ Ej), (key_nth_error _ _ _ Ec).
  destruct (Nat.eqb c j); [apply key_nth_error in H; exact H|].
  destruct (Nat.eqb c i); apply key_nth_error in H; exact H.
Qed.

Lemma sift_up_spec : forall fuel h j,
  j < fuel -> j < length h ->
  (forall c, 1 <= c < length h -> c <> j -> (key h (par c) <= key h c)%N) ->
  (forall c, 1 <= c < length h -> par c = j -> 1 <= j -> (key h (par j) <= key h c)%N) ->
  exists h', sift_up fuel h j = Some h' /\ heap_ok h' /\ Permutation h h'.
Proof.
  induction fuel; intros h j Hf Hj H1 H2; [lia|]. cbn [sift_up].
  fold (par j).
  destruct (Nat.eqb (par j) j) eqn:E.
  - apply Nat.eqb_eq in E. exists h. split; [reflexivity|]. split; [|reflexivity].
    intros c Hc. apply H1; [assumption|]. intros ->.
    pose proof (par_lt j). lia.
  - apply Nat.eqb_neq in E.
    assert (Hj1 : 1 <= j). { destruct j; [exfalso; apply E; reflexivity|lia]. }
    pose proof (par_lt j Hj1) as Hp.
    destruct (nth_error h (par j)) as [ci|] eqn:Ei; [|apply nth_error_None in Ei; lia].
    destruct (nth_error h j) as [cj|] eqn:Ej; [|apply nth_error_None in Ej; lia].
    cbn [bind].
    destruct (fst ci <? fst cj)%N eqn:El.
    + apply N.ltb_lt in El. exists h. split; [reflexivity|]. split; [|reflexivity].
      intros c Hc. destruct (Nat.eq_dec c j) as [->|Hne]; [|apply H1; assumption].
      rewrite (key_nth_error _ _ _ Ei), (key_nth_error _ _ _ Ej). lia.
    + apply N.ltb_ge in El.
      destruct (swap_spec h (par j) j) as (h' & Hs & Hl & HP & Hn); [lia..|].
      rewrite Hs. cbn [bind].
      assert (Hk := key_swap h h' (par j) j ltac:(lia) ltac:(lia) Hn).
      assert (Kij : (key h j <= key h (par j))%N)
        by (rewrite (key_nth_error _ _ _ Ei), (key_nth_error _ _ _ Ej); lia).
      destruct (IHfuel h' (par j)) as (h2 & Hh2 & Hok & HP2); try lia.
      * intros c Hc Hne. rewrite Hl in Hc. rewrite !Hk by (try lia; pose proof (par_lt c); lia).
        destruct (Nat.eqb c j) eqn:Ecj.
        -- apply Nat.eqb_eq in Ecj. subst c. rewrite Nat.eqb_refl.
           replace (Nat.eqb (par j) j) with false by (symmetry; apply Nat.eqb_neq; lia). assumption.
        -- apply Nat.eqb_neq in Ecj.
           replace (Nat.eqb c (par j)) with false by (symmetry; apply Nat.eqb_neq; lia).
           destruct (Nat.eqb (par c) j) eqn:Epc.
           ++ apply Nat.eqb_eq in Epc. apply H2; auto.
           ++ destruct (Nat.eqb (par c) (par j)) eqn:Epp.
              ** apply Nat.eqb_eq in Epp. 
                 specialize (H1 c Hc Ecj). rewrite Epp in H1. lia.
              ** apply H1; auto.
      * intros c Hc Hpc Hpj. rewrite Hl in Hc.
        pose proof (par_lt (par j) Hpj). rewrite !Hk by (pose proof (par_lt c); lia).
        replace (Nat.eqb (par (par j)) j) with false by (symmetry; apply Nat.eqb_neq; lia).
        replace (Nat.eqb (par (par j)) (par j)) with false by (symmetry; apply Nat.eqb_neq; lia).
        assert (Kpp : (key h (par (par j)) <= key h (par j))%N) by (apply H1; lia).
        destruct (Nat.eqb c j) eqn:Ecj; [assumption|]. apply Nat.eqb_neq in Ecj.
        replace (Nat.eqb c (par j)) with false
          by (symmetry; apply Nat.eqb_neq; intros ->; pose proof (par_lt (par j)); lia).
        specialize (H1 c Hc Ecj). rewrite Hpc in H1. lia.
      * exists h2. split; [assumption|]. split; [assumption|].
        etransitivity; eassumption.
Qed.

Lemma sift_down_spec : forall fuel h i,
  length h - i < fuel -> i < length h ->
  (forall c, 1 <= c < length h -> par c <> i -> (key h (par c) <= key h c)%N) ->
  (forall c, 1 <= c < length h -> par c = i -> 1 <= i -> (key h (par i) <= key h c)%N) ->
  exists h', sift_down fuel h i = Some h' /\ heap_ok h' /\ Permutation h h'.
Proof.
  induction fuel; intros h i Hf Hi H1 H2; [lia|]. cbn [sift_down].
  destruct (Nat.leb (length h) (2*i+1)) eqn:E1.
  - apply Nat.leb_le in E1. exists h. split; [reflexivity|]. split; [|reflexivity].
    intros c Hc. apply H1; [assumption|]. intros Hp. apply par_child in Hp; lia.
  - apply Nat.leb_gt in E1.
    destruct (nth_error h (2*i+1)) as [c1|] eqn:Ec1; [|apply nth_error_None in Ec1; lia].
    cbn [bind].
    (* the chosen child *)
    assert (Hj : exists j, (if Nat.ltb (S (2*i+1)) (length h) then
                c2 <- nth_error h (S (2*i+1)) ;;
                Some (if (fst c2 <=? fst c1)%N then S (2*i+1) else 2*i+1)
              else Some (2*i+1)) = Some j /\ (j = 2*i+1 \/ j = 2*i+2) /\ j < length h /\
              (forall c, 1 <= c < length h -> par c = i -> (key h j <= key h c)%N)).
    { destruct (Nat.ltb (S (2*i+1)) (length h)) eqn:E2.
      - apply Nat.ltb_lt in E2.
        destruct (nth_error h (S (2*i+1))) as [c2|] eqn:Ec2; [|apply nth_error_None in Ec2; lia].
        cbn [bind]. destruct (fst c2 <=? fst c1)%N eqn:El.
        + apply N.leb_le in El. eexists. split; [reflexivity|]. split; [lia|]. split; [lia|].
          intros c Hc Hp. apply par_child in Hp; [|lia].
          destruct Hp as [-> | ->].
          * rewrite (key_nth_error _ _ _ Ec1), (key_nth_error _ _ _ Ec2). assumption.
          * replace (2*i+2) with (S (2*i+1)) by lia. lia.
        + apply N.leb_gt in El. eexists. split; [reflexivity|]. split; [lia|]. split; [lia|].
          intros c Hc Hp. apply par_child in Hp; [|lia].
          destruct Hp as [-> | ->]; [lia|].
          replace (2*i+2) with (S (2*i+1)) by lia.
          rewrite (key_nth_error _ _ _ Ec1), (key_nth_error _ _ _ Ec2). lia.
      - apply Nat.ltb_ge in E2. eexists. split; [reflexivity|]. split; [lia|]. split; [lia|].
        intros c Hc Hp. apply par_child in Hp; [|lia]. destruct Hp as [-> | ->]; lia. }
    destruct Hj as (j & -> & Hjc & Hjl & Hmin). cbn [bind].
    assert (Hpj : par j = i) by (apply par_child; lia).
    destruct (nth_error h i) as [ci|] eqn:Ei; [|apply nth_error_None in Ei; lia].
    destruct (nth_error h j) as [cj|] eqn:Ej; [|apply nth_error_None in Ej; lia].
    cbn [bind]. destruct (fst ci <? fst cj)%N eqn:El.
    + apply N.ltb_lt in El. exists h. split; [reflexivity|]. split; [|reflexivity].
      intros c Hc. destruct (Nat.eq_dec (par c) i) as [Ep|Hne]; [|apply H1; assumption].
      specialize (Hmin c Hc Ep). rewrite Ep.
      rewrite (key_nth_error _ _ _ Ei). rewrite (key_nth_error _ _ _ Ej) in Hmin. lia.
    + apply N.ltb_ge in El.
      destruct (swap_spec h i j) as (h' & Hs & Hl & HP & Hn); [lia..|].
      rewrite Hs. cbn [bind].
      assert (Hk := key_swap h h' i j ltac:(lia) ltac:(lia) Hn).
      assert (Kij : (key h j <= key h i)%N)
        by (rewrite (key_nth_error _ _ _ Ei), (key_nth_error _ _ _ Ej); lia).
      destruct (IHfuel h' j) as (h2 & Hh2 & Hok & HP2); try lia.
      * intros c Hc Hne. rewrite Hl in Hc. pose proof (par_lt c ltac:(lia)).
        rewrite !Hk by lia.
        replace (Nat.eqb (par c) j) with false by (symmetry; apply Nat.eqb_neq; lia).
        destruct (Nat.eqb c j) eqn:Ecj.
        -- apply Nat.eqb_eq in Ecj. subst c. rewrite Hpj, Nat.eqb_refl. assumption.
        -- apply Nat.eqb_neq in Ecj.
           destruct (Nat.eqb (par c) i) eqn:Epi.
           ++ apply Nat.eqb_eq in Epi.
              replace (Nat.eqb c i) with false by (symmetry; apply Nat.eqb_neq; lia).
              apply Hmin; auto.
           ++ apply Nat.eqb_neq in Epi.
              destruct (Nat.eqb c i) eqn:Eci.
              ** apply Nat.eqb_eq in Eci. subst c. apply H2; auto; lia.
              ** apply H1; auto.
      * intros c Hc Hpc Hj1. rewrite Hl in Hc. pose proof (par_lt c ltac:(lia)).
        rewrite Hpj. rewrite !Hk by lia.
        replace (Nat.eqb i j) with false by (symmetry; apply Nat.eqb_neq; lia).
        rewrite Nat.eqb_refl.
        replace (Nat.eqb c j) with false by (symmetry; apply Nat.eqb_neq; lia).
        replace (Nat.eqb c i) with false by (symmetry; apply Nat.eqb_neq; lia).
        rewrite <- Hpc. apply H1; lia.
      * exists h2. split; [assumption|]. split; [assumption|].
        etransitivity; eassumption.
Qed.

(** All entries of a heap. *)
Definition centries (c : chunk) : list N := fst c :: snd c.
Definition entries (h : heap) : list N := concat (map centries h).
Definition chunk_ok (c : chunk) : Prop := StronglySorted N.le (centries c).
Definition hinv (h : heap) : Prop := heap_ok h /\ Forall chunk_ok h.

Lemma entries_perm : forall h h', Permutation h h' -> Permutation (entries h) (entries h').
Proof.
  intros h h' P. unfold entries. rewrite <- !flat_map_concat_map.
  apply Permutation_flat_map. assumption.
Qed.

Lemma heap_ok_root : forall h, heap_ok h -> forall c, c < length h -> (key h 0 <= key h c)%N.
Proof.
  intros h H c. induction c as [c IH] using lt_wf_ind. intros Hc.
  destruct c; [lia|]. pose proof (par_lt (S c) ltac:(lia)).
  etransitivity; [apply (IH (par (S c))); lia|]. apply H. lia.
Qed.

Lemma hinv_root_min : forall e m h, hinv ((e,m) :: h) ->
  forall x, In x (entries ((e,m)::h)) -> (e <= x)%N.
Proof.
  intros e m h [Hok Hch] x Hx. unfold entries in Hx. apply in_concat in Hx.
  destruct Hx as (l & Hl & Hx). apply in_map_iff in Hl. destruct Hl as (c & <- & Hc).
  destruct (In_nth_error _ _ Hc) as [i Hi].
  assert (Hlen : i < length ((e,m)::h)) by (apply nth_error_Some; intros Hz; pose proof (eq_trans (eq_sym Hi) Hz); discriminate).
  pose proof (heap_ok_root _ Hok i Hlen) as Hr.
  rewrite (key_nth_error _ _ _ Hi) in Hr. cbn in Hr.
  rewrite Forall_forall in Hch. specialize (Hch c Hc). unfold chunk_ok, centries in Hch.
  inversion Hch; subst. destruct Hx as [<-|Hx]; [assumption|].
  rewrite Forall_forall in H2. specialize (H2 x Hx). lia.
Qed.

Lemma push_spec : forall h c, hinv h -> chunk_ok c ->
  exists h', push h c = Some h' /\ hinv h' /\ Permutation (h ++ [c]) h'.
Proof.
  intros h c [Hok Hch] Hc. unfold push.
  assert (Hch' : Forall chunk_ok (h ++ [c])) by (apply Forall_app; auto).
  destruct (Nat.leb 2 (length (h ++ [c]))) eqn:E.
  - destruct (sift_up_spec (S (length (h ++ [c]))) (h ++ [c]) (length h)) as (h' & Hs & Hok' & HP).
    + rewrite app_length. cbn. lia.
    + rewrite app_length. cbn. lia.
    + intros x Hx Hne. rewrite app_length in Hx. cbn in Hx.
      pose proof (par_lt x ltac:(lia)).
      unfold key. rewrite !app_nth1 by lia. apply Hok. lia.
    + intros x Hx Hp Hj. rewrite app_length in Hx. cbn in Hx.
      pose proof (par_lt x ltac:(lia)). lia.
    + exists h'. split; [assumption|]. split; [|assumption]. split; [assumption|].
      eapply Permutation_Forall; eassumption.
  - apply Nat.leb_gt in E. rewrite app_length in E. cbn in E.
    destruct h; [|cbn in E; lia]. cbn. eexists. split; [reflexivity|]. split; [|reflexivity].
    split; [intros x Hx; cbn in Hx; lia|assumption].
Qed.

Lemma heap_add_spec : forall h m, hinv h -> StronglySorted N.le m ->
  exists h', heap_add h m = Some h' /\ hinv h' /\ Permutation (entries h ++ m) (entries h').
Proof.
  intros h [|e m] Hh Hm; cbn [heap_add].
  - exists h. rewrite app_nil_r. auto.
  - destruct (push_spec h (e, m) Hh Hm) as (h' & Hp & Hi & HP).
    exists h'. split; [assumption|]. split; [assumption|].
    rewrite <- (entries_perm _ _ HP). unfold entries. rewrite map_app, concat_app. cbn.
    rewrite app_nil_r. reflexivity.
Qed.

Lemma heap_ok_tail_fix : forall (x : chunk) c t,
  heap_ok (c :: t) ->
  (forall d, 1 <= d < length (x :: t) -> par d <> 0 -> (key (x::t) (par d) <= key (x::t) d)%N).
Proof.
  intros x c t Hok d Hd Hp. specialize (Hok d Hd). unfold key in *.
  destruct d; [lia|]. destruct (par (S d)); [contradiction|]. exact Hok.
Qed.

Lemma last_nth_error : forall {A} (t : list A) c x d,
  nth_error (c :: t) (length t) = Some x -> last (c :: t) d = x.
Proof.
  induction t as [|b t IH]; intros c x d H; [cbn in H; cbn; congruence|].
  cbn [length nth_error] in H. change (last (c :: b :: t) d) with (last (b :: t) d).
  apply IH. exact H.
Qed.

Lemma heap_next_spec : forall e m t, hinv ((e, m) :: t) ->
  exists h', heap_next ((e, m) :: t) = Some (e, h') /\ hinv h' /\
    Permutation (entries ((e, m) :: t)) (e :: entries h').
Proof.
  intros e m t [Hok Hch]. cbn [heap_next].
  inversion Hch as [|? ? Hc0 Hct]; subst.
  destruct m as [|e' m'].
  - (* pop *)
    unfold pop. cbn [length]. replace (S (length t) - 1) with (length t) by lia.
    destruct (nth_error ((e, []) :: t) (length t)) as [lst|] eqn:El;
      [|apply nth_error_None in El; cbn in El; lia].
    cbn [bind list_set].
    destruct t as [|c t].
    + cbn. exists []. split; [reflexivity|]. split; [|reflexivity].
      split; [intros x Hx; cbn in Hx; lia|constructor].
    + cbn [length] in *. cbn [nth_error] in El.
      assert (Hl : c :: t = removelast (c :: t) ++ [lst]).
      { rewrite (app_removelast_last lst) at 1 by discriminate. f_equal.
        rewrite (last_nth_error t c lst lst El). reflexivity. }
      assert (Hfn : firstn (S (length t)) (lst :: c :: t) = lst :: removelast (c :: t)).
      { rewrite removelast_firstn_len. reflexivity. }
      rewrite Hfn.
      assert (HPt : Permutation (lst :: removelast (c :: t)) (c :: t)).
      { rewrite Hl at 2. apply Permutation_cons_append. }
      assert (Hlenr : length (removelast (c :: t)) = length t).
      { pose proof (Permutation_length HPt) as HL. cbn [length] in HL. lia. }
      destruct (Nat.ltb 1 (S (length t))) eqn:E1.
      * destruct (sift_down_spec (S (length (lst :: removelast (c :: t)))) (lst :: removelast (c :: t)) 0)
          as (h' & Hs & Hok' & HP).
        -- lia.
        -- cbn; lia.
        -- intros d Hd Hp. cbn [length] in Hd. rewrite Hlenr in Hd.
           specialize (Hok d ltac:(cbn [length]; lia)). pose proof (par_lt d ltac:(lia)).
           assert (Hkk : forall x, 1 <= x < S (length t) ->
             key (lst :: removelast (c :: t)) x = key ((e, []) :: c :: t) x).
           { intros x Hx. unfold key. destruct x; [lia|]. cbn [nth].
             transitivity (fst (nth x (removelast (c :: t) ++ [lst]) (0%N, []))).
             - rewrite app_nth1 by lia. reflexivity.
             - rewrite <- Hl. reflexivity. }
           rewrite !Hkk by lia. assumption.
        -- intros; lia.
        -- rewrite Hs. cbn [bind]. exists h'. split; [reflexivity|]. split.
           ++ split; [assumption|]. eapply Permutation_Forall; [exact HP|].
              eapply Permutation_Forall; [apply Permutation_sym; exact HPt|]. assumption.
           ++ change (entries ((e, []) :: c :: t)) with (e :: entries (c :: t)). constructor.
              apply entries_perm. rewrite <- HPt. assumption.
      * apply Nat.ltb_ge in E1. assert (t = []) by (destruct t; [reflexivity|cbn in E1; lia]). subst t.
        cbn in El. injection El as <-. cbn [bind removelast].
        exists [c]. split; [reflexivity|]. split; [|reflexivity].
        split; [intros x Hx; cbn in Hx; lia|assumption].
  - cbn [list_set bind].
    destruct (sift_down_spec (S (length ((e', m') :: t))) ((e', m') :: t) 0)
      as (h' & Hs & Hok' & HP); [lia|cbn; lia| |intros; lia|].
    { eapply heap_ok_tail_fix; exact Hok. }
    rewrite Hs. cbn [bind]. exists h'. split; [reflexivity|]. split.
    + split; [assumption|]. eapply Permutation_Forall; [exact HP|].
      constructor; [|assumption]. unfold chunk_ok, centries in *. cbn in *.
      inversion Hc0; assumption.
    + change (entries ((e, e' :: m') :: t)) with (e :: entries ((e', m') :: t)). constructor.
      apply entries_perm. assumption.
Qed.

(** Draining [n] entries. *)
Fixpoint drain (n : nat) (h : heap) : option (list N * heap) :=
  match n with
  | O => Some ([], h)
  | S n' => r <- heap_next h ;; r2 <- drain n' (snd r) ;; Some (fst r :: fst r2, snd r2)
  end.

Fixpoint build_heap (h : heap) (ms : list (list N)) : option heap :=
  match ms with
  | [] => Some h
  | m :: r => h' <- heap_add h m ;; build_heap h' r
  end.

Lemma build_heap_spec : forall ms h, hinv h -> Forall (StronglySorted N.le) ms ->
  exists h', build_heap h ms = Some h' /\ hinv h' /\
    Permutation (entries h ++ concat ms) (entries h').
Proof.
  induction ms as [|m ms IH]; intros h Hh Hm; cbn.
  - exists h. rewrite app_nil_r. auto.
  - inversion Hm; subst. destruct (heap_add_spec h m Hh H1) as (h1 & Ha & Hi & HP).
    rewrite Ha. cbn. destruct (IH h1 Hi H2) as (h2 & Hb & Hi2 & HP2).
    exists h2. split; [assumption|]. split; [assumption|].
    rewrite <- HP2, <- HP, app_assoc. reflexivity.
Qed.

Lemma hinv_nil : hinv [].
Proof. split; [intros x Hx; cbn in Hx; lia|constructor]. Qed.

Lemma drain_spec : forall n h, hinv h -> length (entries h) = n ->
  exists l, drain n h = Some (l, []) /\ Permutation l (entries h) /\ StronglySorted N.le l.
Proof.
  induction n; intros h Hh Hn; cbn [drain].
  - destruct h as [|[e m] t]; [|unfold entries in Hn; cbn in Hn; discriminate].
    exists []. repeat split; constructor.
  - destruct h as [|[e m] t]; [discriminate|].
    destruct (heap_next_spec e m t Hh) as (h' & Hx & Hi & HP).
    rewrite Hx. cbn [bind fst snd].
    destruct (IHn h') as (l & Hd & HPl & Hs); [assumption| |].
    { apply Permutation_length in HP. cbn [length] in HP. lia. }
    rewrite Hd. cbn [bind fst snd]. eexists. split; [reflexivity|]. split.
    + rewrite HP. constructor. assumption.
    + constructor; [assumption|]. apply Forall_forall. intros x Hx2.
      eapply hinv_root_min; [exact Hh|].
      eapply Permutation_in; [apply Permutation_sym; exact HP|].
      right. eapply Permutation_in; eassumption.
Qed.

Lemma merge_all : forall chunks, Forall (StronglySorted N.le) chunks ->
  exists h, build_heap [] chunks = Some h /\
    exists l, drain (length (concat chunks)) h = Some (l, []) /\
      Permutation l (concat chunks) /\ StronglySorted N.le l.
Proof.
  intros chunks Hc. destruct (build_heap_spec chunks [] hinv_nil Hc) as (h & Hb & Hi & HP).
  exists h. split; [assumption|]. cbn in HP.
  destruct (drain_spec (length (concat chunks)) h Hi) as (l & Hd & HPl & Hs).
  { symmetry. apply Permutation_length. assumption. }
  exists l. split; [assumption|]. split; [|assumption].
  eapply Permutation_trans; [exact HPl|]. apply Permutation_sym. assumption.
Qed.
