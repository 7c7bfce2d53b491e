From Verif Require Import Model.Base Model.Query Model.Utf8 Model.Syntax Model.Analyze Proofs.ListLemmas Proofs.StrLemmas.
Local Open Scope nat_scope.

(** The slice is valid and contains [l]. *)
Definition own (h : store) (s : option slice) (l : list str) : Prop :=
  match s with
  | None => l = []
  | Some sl => sl_arr sl < length (st_arr h) /\ sl_len sl <= length (arr h (sl_arr sl)) /\
               firstn (sl_len sl) (arr h (sl_arr sl)) = l
  end.
Definition sid (s : option slice) : list nat := match s with None => [] | Some sl => [sl_arr sl] end.
(** Only the arrays in [A] and new ones differ. *)
Definition moves (A : list nat) (h h' : store) : Prop :=
  length (st_arr h) <= length (st_arr h') /\
  forall a, a < length (st_arr h) -> ~ In a A -> arr h' a = arr h a.
Definition fresh (h : store) (A B : list nat) : Prop :=
  forall a, In a B -> In a A \/ length (st_arr h) <= a.

Lemma own_elems : forall h s l, own h s l -> elems h s = l.
Proof. intros h [sl|] l O; cbn in *; [apply O|congruence]. Qed.

Lemma own_lt : forall h s l a, own h s l -> In a (sid s) -> a < length (st_arr h).
Proof. intros h [sl|] l a O I; cbn in *; [|contradiction]. destruct I as [<-|[]]. apply O. Qed.

Lemma own_move : forall A h h' s l, own h s l -> moves A h h' -> (forall a, In a (sid s) -> ~ In a A) -> own h' s l.
Proof.
  intros A h h' [sl|] l O (L & M) D; cbn in *; [|exact O].
  destruct O as (O1 & O2 & O3). rewrite (M _ O1) by (apply D; left; reflexivity).
  split; [lia|]. split; assumption.
Qed.

Lemma moves_refl : forall A h, moves A h h.
Proof. intros A h. split; [lia|reflexivity]. Qed.

Lemma moves_trans : forall A B h h1 h2, moves A h h1 -> moves B h1 h2 -> fresh h A B -> moves A h h2.
Proof.
  intros A B h h1 h2 (L1 & M1) (L2 & M2) F. split; [lia|]. intros a La Na.
  rewrite M2; [apply M1; assumption|lia|]. intros I. destruct (F a I); [contradiction|lia].
Qed.

Lemma moves_weak : forall A B h h', moves A h h' -> (forall a, In a A -> In a B) -> moves B h h'.
Proof. intros A B h h' (L & M) I. split; [exact L|]. intros a La Na. apply M; [exact La|auto]. Qed.

Lemma fresh_refl : forall h A, fresh h A A.
Proof. intros h A a I. left. exact I. Qed.

Lemma fresh_trans : forall A B C h h1, fresh h A B -> fresh h1 B C -> length (st_arr h) <= length (st_arr h1) -> fresh h A C.
Proof.
  intros A B C h h1 F1 F2 L a I. destruct (F2 a I) as [J|J]; [apply F1, J|right; lia].
Qed.

Lemma fresh_weak : forall h A B C, fresh h A C -> (forall a, In a A -> In a B) -> fresh h B C.
Proof. intros h A B C F I a J. destruct (F a J) as [K|K]; [left; auto|right; exact K]. Qed.

(* arrays *)
Lemma upd_length : forall l a v, length (upd l a v) = length l.
Proof. induction l as [|x l IH]; intros [|a] v; cbn; auto. Qed.
Lemma upd_same : forall l a v d, a < length l -> nth a (upd l a v) d = v.
Proof. induction l as [|x l IH]; intros [|a] v d L; cbn in *; try lia; [reflexivity|apply IH; lia]. Qed.
Lemma upd_other : forall l a b v d, a <> b -> nth b (upd l a v) d = nth b l d.
Proof. induction l as [|x l IH]; intros [|a] [|b] v d N; cbn; try congruence; try reflexivity. apply IH. lia. Qed.

Lemma set_arr_moves : forall h a v, moves [a] h (set_arr h a v).
Proof.
  intros h a v. split; [cbn; rewrite upd_length; lia|].
  intros b L N. unfold arr, set_arr. cbn. apply upd_other. intros ->. apply N. left. reflexivity.
Qed.
Lemma set_arr_same : forall h a v, a < length (st_arr h) -> arr (set_arr h a v) a = v.
Proof. intros. unfold arr, set_arr. cbn. apply upd_same. assumption. Qed.

Definition oks (f : store -> store * option slice) (s : option slice) (h : store) (l : list str) : Prop :=
  let '(h', s') := f h in
  own h' s' l /\ moves (sid s) h h' /\ fresh h (sid s) (sid s') /\ st_shared h' = st_shared h.

Lemma alloc_ok : forall h n l s, oks (fun h => alloc h n l) s h l.
Proof.
  intros h n l s. unfold oks, alloc, own, moves, fresh, sid, arr. cbn.
  rewrite app_length, app_nth2, Nat.sub_diag by lia. cbn.
  split; [|split; [|split]].
  - split; [lia|]. rewrite app_length. split; [lia|]. rewrite firstn_app, firstn_all, Nat.sub_diag. cbn. apply app_nil_r.
  - split; [lia|]. intros a La _. apply app_nth1. exact La.
  - intros a [<-|[]]. right. lia.
  - reflexivity.
Qed.

Lemma alloc_have : forall h n l, have (snd (alloc h n l)) = true.
Proof. reflexivity. Qed.

Section Grow.
Variable grow : nat -> nat -> nat.

Lemma append_ok : forall h s l m, own h s l -> oks (fun h => append grow h s m) s h (l ++ m).
Proof.
  intros h [sl|] l m O.
  - pose proof (own_elems _ _ _ O) as E. unfold oks. cbn [append]. destruct (fits h (Some sl) m) eqn:C.
    + apply Nat.leb_le in C. destruct O as (O1 & O2 & O3).
      cbn [own sid sl_arr sl_len]. rewrite set_arr_same by exact O1.
      split; [|split; [apply set_arr_moves|split; [apply fresh_refl|reflexivity]]].
      split. { cbn. rewrite upd_length. exact O1. }
      rewrite !app_length, firstn_length, skipn_length. split; [lia|].
      rewrite O3. assert (sl_len sl = length l) as EL. { rewrite <- O3, firstn_length. lia. }
      rewrite EL, app_assoc, firstn_app, app_length, Nat.sub_diag. cbn. rewrite app_nil_r.
      apply firstn_all2. rewrite app_length. lia.
    + rewrite E. apply alloc_ok.
  - destruct m as [|x m].
    + unfold oks. cbn in *. subst l. cbn. split; [reflexivity|]. split; [apply moves_refl|]. split; [apply fresh_refl|reflexivity].
    + cbn in O. subst l. apply alloc_ok.
Qed.

Lemma append_have : forall h s m, have s = true -> have (snd (append grow h s m)) = true.
Proof. intros h [sl|] m H; [|discriminate]. cbn [append]. destruct (fits _ _ _); reflexivity. Qed.

Lemma rewrite_ok : forall h s l d, own h s l -> length d <= length l -> oks (fun h => rewrite h s d) s h d.
Proof.
  intros h [sl|] l d O L.
  - destruct O as (O1 & O2 & O3). unfold oks. cbn [rewrite own sid sl_arr sl_len].
    rewrite set_arr_same by exact O1.
    split; [|split; [apply set_arr_moves|split; [apply fresh_refl|reflexivity]]].
    split. { cbn. rewrite upd_length. exact O1. }
    assert (length l <= length (arr h (sl_arr sl))). { rewrite <- O3, firstn_length. lia. }
    rewrite app_length, skipn_length. split; [lia|].
    rewrite firstn_app, firstn_all, Nat.sub_diag. cbn. apply app_nil_r.
  - cbn in O. subst l. destruct d; [|cbn in L; lia]. unfold oks. cbn.
    split; [reflexivity|]. split; [apply moves_refl|]. split; [apply fresh_refl|reflexivity].
Qed.

Lemma rewrite_have : forall h s d, have (snd (rewrite h s d)) = have s.
Proof. intros h [sl|] d; reflexivity. Qed.

(** Sequencing. *)
Lemma oks_bind : forall f g s h l m,
  oks f s h l ->
  (forall h1 s1, f h = (h1, s1) -> own h1 s1 l -> oks (fun h => g h s1) s1 h1 m) ->
  oks (fun h => let '(h1, s1) := f h in g h1 s1) s h m.
Proof.
  intros f g s h l m F G. unfold oks in *. destruct (f h) as [h1 s1] eqn:E1.
  destruct F as (O1 & M1 & R1 & B1). specialize (G h1 s1 eq_refl O1). destruct (g h1 s1) as [h2 s2].
  destruct G as (O2 & M2 & R2 & B2). split; [exact O2|]. split; [|split; [|congruence]].
  - eapply moves_trans; eassumption.
  - eapply fresh_trans; [exact R1|exact R2|]. apply M1.
Qed.

Lemma sort_length : forall less l, length (sort_strs less l) = length l.
Proof. intros. apply Permutation.Permutation_length, sort_perm. Qed.

Lemma s_clean_ok : forall h s l b, own h s l -> oks (fun h => s_clean h s b) s h (clean_list b l).
Proof.
  intros h s l b O. unfold s_clean, oks. rewrite (own_elems _ _ _ O).
  pose proof (oks_bind (fun h => rewrite h s (sort_strs (less_of b) l)) (fun h s => rewrite h s (dedup None (elems h s)))
    s h (sort_strs (less_of b) l) (clean_list b l)) as B. unfold oks in B.
  apply B.
  - apply (rewrite_ok h s l); [exact O|]. rewrite sort_length. lia.
  - intros h1 s1 _ O1. rewrite (own_elems _ _ _ O1). unfold clean_list.
    apply (rewrite_ok h1 s1 _ _ O1). apply dedup_length.
Qed.

Lemma s_clean_have : forall h s b, have (snd (s_clean h s b)) = have s.
Proof. intros h [sl|] b; reflexivity. Qed.

Lemma s_union_ok : forall h s t l m b, own h s l -> own h t m -> oks (fun h => s_union grow h s t b) s h (union_list b l m).
Proof.
  intros h s t l m b O T. unfold s_union, oks. rewrite (own_elems _ _ _ T).
  pose proof (oks_bind (fun h => append grow h s m) (fun h s => s_clean h s b) s h (l ++ m) (union_list b l m)) as B.
  unfold oks in B. apply B; [apply append_ok, O|]. intros h1 s1 _ O1. apply s_clean_ok, O1.
Qed.

Lemma s_union_have : forall h s t b, have s = true -> have (snd (s_union grow h s t b)) = true.
Proof.
  intros h s t b H. unfold s_union. destruct (append grow h s (elems h t)) as [h1 s1] eqn:E.
  rewrite s_clean_have. rewrite <- (append_have h s (elems h t) H), E. reflexivity.
Qed.

Lemma s_add_all_ok : forall m h s l, own h s l -> oks (fun h => s_add_all grow h s m) s h (l ++ m).
Proof.
  induction m as [|x m IH]; intros h s l O; unfold s_add_all.
  - unfold oks. cbn. rewrite app_nil_r. split; [exact O|]. split; [apply moves_refl|]. split; [apply fresh_refl|reflexivity].
  - unfold oks. cbn [fold_left fst snd]. destruct (append grow h s [x]) as [h1 s1] eqn:E.
    pose proof (append_ok h s l [x] O) as A. unfold oks in A. rewrite E in A. destruct A as (O1 & M1 & R1 & B1).
    specialize (IH h1 s1 (l ++ [x]) O1). unfold oks, s_add_all in IH.
    destruct (fold_left _ m (h1, s1)) as [h2 s2]. destruct IH as (O2 & M2 & R2 & B2).
    rewrite <- app_assoc in O2. split; [exact O2|]. split; [|split; [|congruence]].
    + eapply moves_trans; eassumption.
    + eapply fresh_trans; [exact R1|exact R2|]. apply M1.
Qed.

Lemma s_add_all_have : forall m h s, have s = true -> have (snd (s_add_all grow h s m)) = true.
Proof.
  unfold s_add_all. induction m as [|x m IH]; intros h s H; [exact H|]. cbn [fold_left fst snd].
  pose proof (append_have h s [x] H) as A. destruct (append grow h s [x]) as [h1 s1]. apply IH, A.
Qed.

Lemma s_cross_ok : forall h s t l m b u, own h s l -> own h t m -> oks (fun h => s_cross grow h s t b) u h (clean_list b (cross_list l m)).
Proof.
  intros h s t l m b u O T. unfold s_cross. unfold oks. rewrite (own_elems _ _ _ O), (own_elems _ _ _ T).
  pose proof (oks_bind (fun h => literal h []) (fun h p => let '(h, p) := s_add_all grow h p (cross_list l m) in s_clean h p b)
    u h [] (clean_list b (cross_list l m))) as B. unfold oks in B. apply B; [apply alloc_ok|].
  intros h1 s1 _ O1.
  pose proof (oks_bind (fun h => s_add_all grow h s1 (cross_list l m)) (fun h p => s_clean h p b)
    s1 h1 (cross_list l m) (clean_list b (cross_list l m))) as B1. unfold oks in B1. apply B1.
  - apply (s_add_all_ok (cross_list l m) h1 s1 [] O1).
  - intros h2 s2 _ O2. apply s_clean_ok, O2.
Qed.

Lemma s_cross_have : forall h s t b, have (snd (s_cross grow h s t b)) = true.
Proof.
  intros h s t b. unfold s_cross, literal, alloc.
  match goal with |- context [s_add_all grow ?h ?p ?l] => pose proof (s_add_all_have l h p eq_refl) as A; destruct (s_add_all grow h p l) as [h1 p1] end.
  rewrite s_clean_have. exact A.
Qed.

Lemma s_copy_ok : forall h s l u, own h s l -> oks (fun h => s_copy grow h s) u h l.
Proof.
  intros h s l u O. unfold s_copy, oks. rewrite (own_elems _ _ _ O).
  pose proof (oks_bind (fun h => literal h []) (fun h p => append grow h p l) u h [] l) as B. unfold oks in B.
  apply B; [apply alloc_ok|]. intros h1 s1 _ O1. apply (append_ok h1 s1 [] l O1).
Qed.

Definition p_round (b : bool) (n : nat) (l : list str) : list str := clean_list b (dedup None (map (trunc n b) l)).

Lemma round_ok : forall h s l b n, own h s l -> oks (fun h => round h s b n) s h (p_round b n l).
Proof.
  intros h s l b n O. unfold round, oks. rewrite (own_elems _ _ _ O).
  pose proof (oks_bind (fun h => rewrite h s (dedup None (map (trunc n b) l))) (fun h t => s_clean h t b) s h
    (dedup None (map (trunc n b) l)) (p_round b n l)) as B. unfold oks in B. apply B.
  - apply (rewrite_ok h s l _ O). etransitivity; [apply dedup_length|]. rewrite map_length. lia.
  - intros h1 s1 _ O1. apply s_clean_ok, O1.
Qed.

Lemma drop_longer_length : forall b l last, length (drop_longer b last l) <= length l.
Proof.
  induction l as [|x l IH]; intros last; cbn; [lia|]. destruct last as [y|].
  - destruct (has_affix b x y); [specialize (IH (Some y)); lia|]. cbn. specialize (IH (Some x)). lia.
  - cbn. specialize (IH (Some x)). lia.
Qed.
End Grow.
