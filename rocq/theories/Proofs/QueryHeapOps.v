(** The operations on slices and the read-only functions. *)
From Verif Require Import Model.Base Model.Query Model.QueryHeap Spec.QuerySpec Spec.QueryHeapSpec.
From Verif Require Import Proofs.ListLemmas Proofs.QueryProofs Proofs.QueryHeapBase.
Local Open Scope nat_scope.

Lemma fupd_eq : forall A (f : nat -> A) k v, fupd f k v k = v.
Proof. intros. unfold fupd. rewrite Nat.eqb_refl. reflexivity. Qed.
Lemma fupd_ne : forall A (f : nat -> A) k v x, x <> k -> fupd f k v x = f x.
Proof. intros. unfold fupd. destruct (Nat.eqb_spec x k); [contradiction | reflexivity]. Qed.

(** [s'] in [h'] comes from [s] in [h] by writing to the array of [s] or to new ones. *)
Definition s_new (h h' : heap) (s s' : hslice) : Prop :=
  frame h h' [s_arr s] /\ node h' = node h /\ parr h' = parr h /\
  (s_arr s' = s_arr s \/ next h <= s_arr s') /\
  (s_arr s < next h -> s_arr s' < next h') /\ (s_ok h s -> s_ok h' s').
Definition p_new (h h' : heap) (s s' : hslice) : Prop :=
  frame h h' [s_arr s] /\ node h' = node h /\ sarr h' = sarr h /\
  (s_arr s' = s_arr s \/ next h <= s_arr s') /\
  (s_arr s < next h -> s_arr s' < next h') /\ (p_ok h s -> p_ok h' s').

Lemma s_new_refl : forall h s, s_new h h s s.
Proof. intros. unfold s_new. split; [apply frame_refl |]. auto 10. Qed.
Lemma s_new_trans : forall h1 h2 h3 a b c, s_new h1 h2 a b -> s_new h2 h3 b c -> s_new h1 h3 a c.
Proof.
  intros h1 h2 h3 a b c [A1 [A2 [A3 [A4 [A5 A6]]]]] [B1 [B2 [B3 [B4 [B5 B6]]]]].
  assert (next h1 <= next h2) as L by apply A1.
  split; [| split; [| split; [| split; [| split]]]].
  - eapply frame_trans; [exact A1 | exact B1 |]. intros x [<- | []].
    destruct A4 as [-> | A4]; [left; left; reflexivity | right; exact A4].
  - congruence.
  - congruence.
  - destruct B4 as [-> | B4]; [exact A4 | right; lia].
  - auto.
  - auto.
Qed.

Lemma firstn_exact : forall A (l r : list A), firstn (length l) (l ++ r) = l.
Proof. intros. rewrite firstn_app, Nat.sub_diag, firstn_all. cbn [firstn]. apply app_nil_r. Qed.

Section Ops.
Variable grow : nat -> nat -> nat.

Lemma append_s_spec : forall h s l h' s', s_ok h s -> append_s grow h s l = (h', s') ->
  s_new h h' s s' /\ elems_s h' s' = elems_s h s ++ l.
Proof.
  intros h s l h' s' Ok E. unfold append_s in E. destruct l as [| x l].
  { injection E as <- <-. split; [apply s_new_refl | symmetry; apply app_nil_r]. }
  set (w := x :: l) in *. clearbody w. cbv zeta in E.
  destruct (Nat.leb_spec (s_len s + length w) (length (sarr h (s_arr s)))) as [L | L].
  - injection E as <- <-. unfold s_ok in Ok.
    assert (length (firstn (s_len s) (sarr h (s_arr s))) = s_len s) as Lf by (rewrite firstn_length; lia).
    split.
    + split; [| split; [| split; [| split; [| split]]]]; try reflexivity; try (left; reflexivity).
      * split; [cbn; lia |]. intros y Ly Ny. split; [reflexivity | split; [| reflexivity]].
        cbn. apply fupd_ne. intros ->. apply Ny. left. reflexivity.
      * cbn. auto.
      * intros _. unfold s_ok. cbn [s_len s_arr sarr set_sarr]. rewrite fupd_eq, !app_length, Lf. lia.
    + unfold elems_s. cbn [s_len s_arr sarr set_sarr]. rewrite fupd_eq, app_assoc.
      replace (s_len s + length w) with (length (firstn (s_len s) (sarr h (s_arr s)) ++ w)) at 1
        by (rewrite app_length, Lf; reflexivity).
      apply firstn_exact.
  - injection E as <- <-.
    split.
    + split; [| split; [| split; [| split; [| split]]]]; try reflexivity.
      * split; [cbn; lia |]. intros y Ly Ny. split; [reflexivity | split; [| reflexivity]].
        cbn. apply fupd_ne. lia.
      * right. cbn. lia.
      * cbn. lia.
      * intros _. unfold s_ok. cbn [s_len s_arr sarr set_sarr bump]. rewrite fupd_eq.
        rewrite (app_length (elems_s h s ++ w)). lia.
    + unfold elems_s at 1. cbn [s_len s_arr sarr set_sarr bump]. rewrite fupd_eq. apply firstn_exact.
Qed.

Lemma append_p_spec : forall h s l h' s', p_ok h s -> append_p grow h s l = (h', s') ->
  p_new h h' s s' /\ elems_p h' s' = elems_p h s ++ l.
Proof.
  intros h s l h' s' Ok E. unfold append_p in E. destruct l as [| x l].
  { injection E as <- <-. split; [| symmetry; apply app_nil_r].
    split; [apply frame_refl |]. auto 10. }
  set (w := x :: l) in *. clearbody w. cbv zeta in E.
  destruct (Nat.leb_spec (s_len s + length w) (length (parr h (s_arr s)))) as [L | L].
  - injection E as <- <-. unfold p_ok in Ok.
    assert (length (firstn (s_len s) (parr h (s_arr s))) = s_len s) as Lf by (rewrite firstn_length; lia).
    split.
    + split; [| split; [| split; [| split; [| split]]]]; try reflexivity; try (left; reflexivity).
      * split; [cbn; lia |]. intros y Ly Ny. split; [reflexivity | split; [reflexivity |]].
        cbn. apply fupd_ne. intros ->. apply Ny. left. reflexivity.
      * cbn. auto.
      * intros _. unfold p_ok. cbn [s_len s_arr parr set_parr]. rewrite fupd_eq, !app_length, Lf. lia.
    + unfold elems_p. cbn [s_len s_arr parr set_parr]. rewrite fupd_eq, app_assoc.
      replace (s_len s + length w) with (length (firstn (s_len s) (parr h (s_arr s)) ++ w)) at 1
        by (rewrite app_length, Lf; reflexivity).
      apply firstn_exact.
  - injection E as <- <-.
    split.
    + split; [| split; [| split; [| split; [| split]]]]; try reflexivity.
      * split; [cbn; lia |]. intros y Ly Ny. split; [reflexivity | split; [reflexivity |]].
        cbn. apply fupd_ne. lia.
      * right. cbn. lia.
      * cbn. lia.
      * intros _. unfold p_ok. cbn [s_len s_arr parr set_parr bump]. rewrite fupd_eq.
        rewrite (app_length (elems_p h s ++ w)). lia.
    + unfold elems_p at 1. cbn [s_len s_arr parr set_parr bump]. rewrite fupd_eq. apply firstn_exact.
Qed.

Lemma rewrite_s_spec : forall h s d h' s', rewrite_s h s d = (h', s') ->
  s_new h h' s s' /\ elems_s h' s' = d.
Proof.
  intros h s d h' s' E. unfold rewrite_s in E. injection E as <- <-. split.
  - split; [| split; [| split; [| split; [| split]]]]; try reflexivity; try (left; reflexivity).
    + split; [cbn; lia |]. intros y Ly Ny. split; [reflexivity | split; [| reflexivity]].
      cbn. apply fupd_ne. intros ->. apply Ny. left. reflexivity.
    + cbn. auto.
    + intros _. unfold s_ok. cbn. rewrite fupd_eq, app_length. lia.
  - unfold elems_s. cbn [s_len s_arr sarr set_sarr]. rewrite fupd_eq. apply firstn_exact.
Qed.

Lemma clean_s_spec : forall h s h' s', clean_s h s = (h', s') ->
  s_new h h' s s' /\ elems_s h' s' = clean_list false (elems_s h s).
Proof.
  intros h s h' s' E. unfold clean_s in E.
  destruct (rewrite_s h s _) as [h1 s1] eqn:E1. apply rewrite_s_spec in E1. destruct E1 as [A B].
  apply rewrite_s_spec in E. destruct E as [C D]. split; [exact (s_new_trans _ _ _ _ _ _ A C) |].
  rewrite D, B. reflexivity.
Qed.

Lemma union_s_spec : forall h s t h' s', s_ok h s -> union_s grow h s t = (h', s') ->
  s_new h h' s s' /\ elems_s h' s' = union_list false (elems_s h s) (elems_s h t).
Proof.
  intros h s t h' s' Ok E. unfold union_s in E.
  destruct (append_s grow h s _) as [h1 s1] eqn:E1. apply append_s_spec in E1; [| exact Ok]. destruct E1 as [A B].
  apply clean_s_spec in E. destruct E as [C D]. split; [exact (s_new_trans _ _ _ _ _ _ A C) |].
  rewrite D, B. reflexivity.
Qed.

Lemma alloc_s_spec : forall h n l h' s', alloc_s h n l = (h', s') ->
  frame h h' [] /\ node h' = node h /\ parr h' = parr h /\ s_arr s' = next h /\ next h' = S (next h) /\
  s_ok h' s' /\ elems_s h' s' = l.
Proof.
  intros h n l h' s' E. unfold alloc_s in E. injection E as <- <-.
  split; [| split; [| split; [| split; [| split; [| split]]]]]; try reflexivity.
  - split; [cbn; lia |]. intros y Ly Ny. split; [reflexivity | split; [| reflexivity]]. cbn. apply fupd_ne. lia.
  - unfold s_ok. cbn. rewrite fupd_eq, app_length. lia.
  - unfold elems_s. cbn [s_len s_arr sarr set_sarr bump]. rewrite fupd_eq. apply firstn_exact.
Qed.
Lemma alloc_p_spec : forall h n l h' s', alloc_p h n l = (h', s') ->
  frame h h' [] /\ node h' = node h /\ sarr h' = sarr h /\ s_arr s' = next h /\ next h' = S (next h) /\
  p_ok h' s' /\ elems_p h' s' = l.
Proof.
  intros h n l h' s' E. unfold alloc_p in E. injection E as <- <-.
  split; [| split; [| split; [| split; [| split; [| split]]]]]; try reflexivity.
  - split; [cbn; lia |]. intros y Ly Ny. split; [reflexivity | split; [reflexivity |]]. cbn. apply fupd_ne. lia.
  - unfold p_ok. cbn. rewrite fupd_eq, app_length. lia.
  - unfold elems_p. cbn [s_len s_arr parr set_parr bump]. rewrite fupd_eq. apply firstn_exact.
Qed.
Lemma alloc_n_spec : forall h n h' p, alloc_n h n = (h', p) ->
  frame h h' [] /\ sarr h' = sarr h /\ parr h' = parr h /\ p = next h /\ next h' = S (next h) /\ node h' p = n.
Proof.
  intros h n h' p E. unfold alloc_n in E. injection E as <- <-.
  split; [| split; [| split; [| split; [| split]]]]; try reflexivity.
  - split; [cbn; lia |]. intros y Ly Ny. split; [| split; reflexivity]. cbn. apply fupd_ne. lia.
  - cbn. apply fupd_eq.
Qed.

Lemma set_node_frame : forall h p n, frame h (set_node h p n) [p].
Proof.
  intros. split; [cbn; lia |]. intros y Ly Ny. split; [| split; reflexivity].
  cbn. apply fupd_ne. intros ->. apply Ny. left. reflexivity.
Qed.

(** trigramsImply *)
Lemma trigrams_imply_both : forall h, glob h ->
  (forall p q F, rep h p q F -> exists n, forall fuel, n <= fuel -> forall t,
     trigrams_imply_h fuel h t p = Some (trigrams_imply t q)) /\
  (forall ps qs F, reps h ps qs F -> exists n, forall fuel, n <= fuel -> forall t,
     any_h (trigrams_imply_h fuel h t) ps = Some (existsb (trigrams_imply t) qs) /\
     all_h (trigrams_imply_h fuel h t) ps = Some (forallb (trigrams_imply t) qs)).
Proof.
  intros h [_ [A [_ [_ [B _]]]]].
  apply (rep_both h
    (fun p q F _ => exists n, forall fuel, n <= fuel -> forall t,
       trigrams_imply_h fuel h t p = Some (trigrams_imply t q))
    (fun ps qs F _ => exists n, forall fuel, n <= fuel -> forall t,
       any_h (trigrams_imply_h fuel h t) ps = Some (existsb (trigrams_imply t) qs) /\
       all_h (trigrams_imply_h fuel h t) ps = Some (forallb (trigrams_imply t) qs))).
  - exists 1. intros fuel L t. destruct fuel; [lia |]. cbn [trigrams_imply_h]. rewrite A. reflexivity.
  - exists 1. intros fuel L t. destruct fuel; [lia |]. cbn [trigrams_imply_h]. rewrite B. reflexivity.
  - intros p subs F So Po R [n IH]. exists (S n). intros fuel L t. destruct fuel; [lia |].
    cbn [trigrams_imply_h]. destruct (IH fuel ltac:(lia) t) as [I1 I2].
    destruct (n_op (node h p)); try reflexivity.
    + rewrite I2. reflexivity.
    + rewrite I1. reflexivity.
  - exists 0. intros. split; reflexivity.
  - intros p q F ps qs G R [n IH] Rs [m IHs]. exists (n + m). intros fuel L t.
    destruct (IHs fuel ltac:(lia) t) as [I1 I2]. cbn [any_h all_h existsb forallb].
    rewrite (IH fuel ltac:(lia) t). cbn [bind].
    split; destruct (trigrams_imply t q); try reflexivity; assumption.
Qed.

Lemma is_op_rep : forall h p q F o, glob h -> rep h p q F -> is_op_h h p o = is_op q o.
Proof. intros h p q F o G R. destruct (rep_read _ _ _ _ G R) as [A _]. unfold is_op_h, is_op. rewrite A. reflexivity. Qed.
Lemma atom_rep : forall h p q F, glob h -> rep h p q F -> atom_h h p = q_atom q.
Proof. intros h p q F G R. destruct (rep_read _ _ _ _ G R) as [_ [_ [A B]]]. unfold atom_h, q_atom. rewrite A, B. reflexivity. Qed.

Lemma implies_rep : forall h p q F p' q' F', glob h -> rep h p q F -> rep h p' q' F' ->
  exists n, forall fuel, n <= fuel -> implies_h fuel h p p' = Some (implies q q').
Proof.
  intros h p q F p' q' F' G R R'.
  destruct (proj1 (trigrams_imply_both h G) _ _ _ R') as [n K]. exists n. intros fuel L.
  unfold implies_h, implies.
  rewrite !(is_op_rep _ _ _ _ _ G R), !(is_op_rep _ _ _ _ _ G R'), (atom_rep _ _ _ _ G R).
  destruct (rep_read _ _ _ _ G R) as [A1 [A2 [A3 A4]]].
  destruct (rep_read _ _ _ _ G R') as [B1 [B2 [B3 B4]]].
  rewrite A2, A3, A4, B2.
  destruct (is_op q QNone || is_op q' QAll); [reflexivity |].
  destruct (is_op q QAll || is_op q' QNone); [reflexivity |].
  destruct (is_op q QAnd || is_op q QOr && q_atom q); [apply K; exact L | reflexivity].
Qed.

Lemma unwrap_rep : forall h p q F, glob h -> rep h p q F ->
  exists pre G, F = pre ++ G /\ rep h (unwrap_h h p) (unwrap q) G.
Proof.
  intros h p q F G R. unfold unwrap_h.
  destruct (rep_read _ _ _ _ G R) as [A1 [A2 [A3 A4]]]. rewrite A3, A4.
  destruct (rep_subs _ _ _ _ G R) as [K [pre [E Rs]]].
  destruct q as [o tri sub]. cbn [q_tri q_sub] in *.
  destruct tri as [| x tri]; [| exists [], F; split; [reflexivity | exact R]].
  destruct sub as [| s sub]; [exists [], F; split; [reflexivity | exact R] |].
  destruct sub as [| s2 sub]; [| exists [], F; split; [reflexivity | exact R]].
  cbn [length Nat.eqb andb unwrap]. inversion Rs as [| p1 q1 F1 ps qs G1 R1 Rs1 E1 E2 E3]. subst.
  inversion Rs1; subst. cbn [nth]. exists pre, F1. split; [rewrite app_nil_r; reflexivity | exact R1].
Qed.

End Ops.
