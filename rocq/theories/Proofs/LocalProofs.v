(** The revision of a local directory. *)
From Verif Require Import Model.Base Model.GoStr Model.Config Model.LocalVcs Spec.LocalSpec
  Proofs.StrLemmas Proofs.GoStrProofs Proofs.ConfigProofs.
From Coq Require Import Lia Permutation Sorted.
Local Open Scope N_scope.

Lemma insert_perm : forall x l, Permutation (insert_str x l) (x :: l).
Proof.
  intros x l. induction l as [|y r IH]; cbn [insert_str]; [apply Permutation_refl|].
  destruct (str_ltb y x); [|apply Permutation_refl].
  eapply Permutation_trans; [apply perm_skip, IH|apply perm_swap].
Qed.
Lemma sort_perm : forall l, Permutation (sort_strings l) l.
Proof.
  induction l as [|x l IH]; [apply Permutation_refl|]. cbn [sort_strings fold_right].
  eapply Permutation_trans; [apply insert_perm|]. apply perm_skip, IH.
Qed.
Definition slt (a b : str) : Prop := str_ltb a b = true.
Lemma insert_sorted : forall x l, ~ In x l -> StronglySorted slt l -> StronglySorted slt (insert_str x l).
Proof.
  intros x l NI S. induction S as [|y r S IH F]; cbn [insert_str].
  - apply SSorted_cons; [apply SSorted_nil|apply Forall_nil].
  - destruct (str_ltb y x) eqn:L.
    + apply SSorted_cons; [apply IH; intros I; apply NI; right; exact I|].
      apply Forall_forall. intros z I. apply (Permutation_in z (insert_perm x r)) in I.
      destruct I as [<-|I]; [exact L|]. rewrite Forall_forall in F. exact (F z I).
    + assert (L' : str_ltb x y = true).
      { destruct (str_ltb x y) eqn:X; [reflexivity|]. destruct NI. left. exact (str_ltb_total _ _ L X). }
      apply SSorted_cons; [apply SSorted_cons; assumption|].
      apply Forall_cons; [exact L'|]. eapply Forall_impl; [|exact F]. intros z Z. exact (str_ltb_trans _ _ _ L' Z).
Qed.
Lemma sort_sorted : forall l, NoDup l -> StronglySorted slt (sort_strings l).
Proof.
  intros l N. induction N as [|x l NI N IH]; [apply SSorted_nil|]. cbn [sort_strings fold_right].
  apply insert_sorted; [|exact IH]. intros I. apply NI. exact (Permutation_in x (sort_perm l) I).
Qed.
Lemma sorted_unique : forall l l', StronglySorted slt l -> StronglySorted slt l' -> (forall x, In x l <-> In x l') -> l = l'.
Proof.
  induction l as [|x l IH]; intros [|y l'] S S' E.
  - reflexivity.
  - destruct (proj2 (E y) (or_introl eq_refl)).
  - destruct (proj1 (E x) (or_introl eq_refl)).
  - inversion S as [|? ? S1 F]. inversion S' as [|? ? S1' F']. subst. rewrite Forall_forall in F, F'.
    assert (X : x = y).
    { destruct (proj1 (E x) (or_introl eq_refl)) as [->|I]; [reflexivity|].
      destruct (proj2 (E y) (or_introl eq_refl)) as [->|I']; [reflexivity|].
      exfalso. pose proof (str_ltb_trans _ _ _ (F y I') (F' x I)) as T. rewrite str_ltb_irrefl in T. discriminate. }
    subst y. f_equal. apply IH; [assumption|assumption|]. intros z. split; intros I.
    + destruct (proj1 (E z) (or_intror I)) as [<-|I2]; [|exact I2].
      pose proof (F x I) as T. unfold slt in T. rewrite str_ltb_irrefl in T. discriminate.
    + destruct (proj2 (E z) (or_intror I)) as [<-|I2]; [|exact I2].
      pose proof (F' x I) as T. unfold slt in T. rewrite str_ltb_irrefl in T. discriminate.
Qed.

(** Hexadecimal *)
Lemma hex_digit_inj : forall x y, x < 16 -> y < 16 -> hex_digit x = hex_digit y -> x = y.
Proof.
  intros x y X Y. unfold hex_digit. destruct (N.ltb_spec x 10), (N.ltb_spec y 10); lia.
Qed.
Lemma hex_len : forall s, length (hex s) = (2 * length s)%nat.
Proof. induction s as [|c s IH]; [reflexivity|]. unfold hex in *. cbn [flat_map app length]. lia. Qed.
Lemma hex_inj : forall s s', Forall is_byte s -> Forall is_byte s' -> hex s = hex s' -> s = s'.
Proof.
  induction s as [|c s IH]; intros [|c' s'] B B' E; try discriminate; [reflexivity|].
  unfold hex in E. cbn [flat_map app] in E. fold (hex s) in E. fold (hex s') in E.
  assert (E1 : hex_digit (c / 16) = hex_digit (c' / 16)) by congruence.
  assert (E2 : hex_digit (c mod 16) = hex_digit (c' mod 16)) by congruence.
  assert (E3 : hex s = hex s') by congruence.
  pose proof (Forall_inv B) as L. pose proof (Forall_inv B') as L'. unfold is_byte in L, L'.
  apply hex_digit_inj in E1; [|apply N.div_lt_upper_bound; lia|apply N.div_lt_upper_bound; lia].
  apply hex_digit_inj in E2; [|apply N.mod_lt; lia|apply N.mod_lt; lia].
  f_equal; [|exact (IH s' (Forall_inv_tail B) (Forall_inv_tail B') E3)].
  rewrite (N.div_mod c 16), (N.div_mod c' 16) by lia. congruence.
Qed.

Lemma app_same_length : forall {A} (a a' b b' : list A), length a = length a' -> a ++ b = a' ++ b' -> a = a' /\ b = b'.
Proof.
  induction a as [|x a IH]; intros [|x' a'] b b' L E; try discriminate; cbn in *.
  - split; [reflexivity|exact E].
  - destruct (IH a' b b') as [-> ->]; [lia|congruence|]. assert (x = x') by congruence. subst. split; reflexivity.
Qed.
Lemma until_newline : forall (f f' a a' : str), ~ In 10 f -> ~ In 10 f' -> f ++ 10 :: a = f' ++ 10 :: a' -> f = f' /\ a = a'.
Proof.
  induction f as [|x f IH]; intros [|x' f'] a a' N N' E; cbn [app] in E.
  - split; [reflexivity|congruence].
  - destruct N'. left. congruence.
  - destruct N. left. congruence.
  - assert (x = x') by congruence. subst.
    destruct (IH f' a a') as [-> ->]; [intros I; apply N; right; exact I|intros I; apply N'; right; exact I|congruence|].
    split; reflexivity.
Qed.

Section Hash.
  Variables (sha1 : bytes -> bytes) (width : nat).
  Hypothesis SHA : forall x, length (sha1 x) = width /\ Forall is_byte (sha1 x).

  Lemma hash_lines_total : forall files open, (forall f, In f files -> ~ In 10 f /\ open f <> None) ->
    exists t, hash_lines sha1 files open = Some t.
  Proof.
    induction files as [|f files IH]; intros open H; [exists []; reflexivity|]. cbn [hash_lines].
    destruct (H f (or_introl eq_refl)) as [NN O].
    assert (X : existsb (N.eqb 10) f = false).
    { destruct (existsb (N.eqb 10) f) eqn:X; [|reflexivity]. apply existsb_exists in X. destruct X as (y & I & Y).
      apply N.eqb_eq in Y. subst y. contradiction. }
    rewrite X. destruct (open f); [|congruence].
    destruct (IH open) as (t & ->); [intros g I; apply H; right; exact I|]. eexists. reflexivity.
  Qed.

  Lemma hash_lines_inj : forall inputs files files' open open' t,
    collision_free sha1 inputs ->
    (forall f c, In f files -> open f = Some c -> In c inputs) ->
    (forall f c, In f files' -> open' f = Some c -> In c inputs) ->
    hash_lines sha1 files open = Some t -> hash_lines sha1 files' open' = Some t ->
    files = files' /\ forall f, In f files -> open f = open' f.
  Proof.
    intros inputs. induction files as [|f files IH]; intros files' open open' t CF A A' E E'.
    - cbn [hash_lines] in E. injection E as <-. destruct files' as [|f' files']; [split; [reflexivity|intros f []]|].
      exfalso. cbn [hash_lines] in E'. destruct (existsb (N.eqb 10) f'); [discriminate|].
      destruct (open' f'); [|discriminate]. destruct (hash_lines sha1 files' open'); [|discriminate].
      injection E' as X. apply app_eq_nil in X. destruct X as [_ X]. discriminate.
    - cbn [hash_lines] in E. destruct (existsb (N.eqb 10) f) eqn:NF; [discriminate|].
      destruct (open f) as [c|] eqn:O; [|discriminate].
      destruct (hash_lines sha1 files open) as [u|] eqn:HL; [|discriminate]. injection E as E.
      destruct files' as [|f' files'].
      { exfalso. cbn [hash_lines] in E'. injection E' as <-. apply app_eq_nil in E. destruct E as [_ X]. discriminate. }
      cbn [hash_lines] in E'. destruct (existsb (N.eqb 10) f') eqn:NF'; [discriminate|].
      destruct (open' f') as [c'|] eqn:O'; [|discriminate].
      destruct (hash_lines sha1 files' open') as [u'|] eqn:HL'; [|discriminate]. injection E' as E'.
      rewrite <- E' in E.
      apply app_same_length in E; [|rewrite !hex_len, (proj1 (SHA c)), (proj1 (SHA c')); reflexivity].
      destruct E as [EH E]. apply hex_inj in EH; [|apply SHA|apply SHA].
      assert (EC : c = c').
      { apply CF; [exact (A f c (or_introl eq_refl) O)|exact (A' f' c' (or_introl eq_refl) O')|exact EH]. }
      cbn [app] in E.
      assert (NN : forall g, existsb (N.eqb 10) g = false -> ~ In 10 g).
      { intros g X I. assert (existsb (N.eqb 10) g = true) by (apply existsb_exists; exists 10; split; [exact I|reflexivity]). congruence. }
      assert (E2 : f' ++ 10 :: u' = f ++ 10 :: u) by congruence.
      destruct (until_newline f' f u' u (NN f' NF') (NN f NF) E2) as [-> ->].
      destruct (IH files' open open' u CF) as [-> G].
      + intros g d I. apply A. right. exact I.
      + intros g d I. apply A'. right. exact I.
      + exact HL.
      + exact HL'.
      + split; [reflexivity|]. intros g [<-|I]; [congruence|exact (G g I)].
  Qed.

  Lemma hash_lines_ext : forall files open open', (forall f, In f files -> open f = open' f) ->
    hash_lines sha1 files open = hash_lines sha1 files open'.
  Proof.
    induction files as [|f files IH]; intros open open' H; [reflexivity|]. cbn [hash_lines].
    rewrite (H f (or_introl eq_refl)), (IH open open'); [reflexivity|]. intros g I. apply H. right. exact I.
  Qed.

  Lemma get_nodup : forall {A} (t : list (str * A)) k v, NoDup (map fst t) -> (get t k = Some v <-> In (k, v) t).
  Proof.
    intros A t k v. induction t as [|[k' v'] t IH]; intros N; cbn [get].
    - split; [discriminate|intros []].
    - cbn [map fst] in N. inversion N as [|? ? NI N']. subst. destruct (str_eqb k k') eqn:K.
      + apply str_eqb_eq in K. subst k'. split; [intros E; left; congruence|].
        intros [E|I]; [congruence|]. destruct NI. exact (in_map fst _ _ I).
      + split; [intros G; right; apply IH; assumption|].
        intros [E|I]; [|apply IH; assumption]. exfalso. assert (k = k') by congruence. subst.
        assert (str_eqb k' k' = true) by (apply str_eqb_eq; reflexivity). congruence.
  Qed.

  Lemma open_iff : forall t name c, readable t -> (open_in t name = Some c <-> In (name, Some c) t).
  Proof.
    intros t name c [N R]. unfold open_in. rewrite <- (get_nodup t name (Some c) N).
    destruct (get t name) as [[d|]|]; split; congruence.
  Qed.

  Theorem revision_iff : forall inputs t t', readable t -> readable t' -> collision_free sha1 inputs ->
    (forall name c, In (name, Some c) (t ++ t') -> In c inputs) ->
    (forall u, hash_lines sha1 (sort_strings (map fst t)) (open_in t) = Some u -> In u inputs) ->
    (forall u, hash_lines sha1 (sort_strings (map fst t')) (open_in t') = Some u -> In u inputs) ->
    exists r r', hash_dir sha1 (Some t) = Some r /\ hash_dir sha1 (Some t') = Some r' /\ (r = r' <-> same_files t t').
  Proof.
    intros inputs t t' R R' CF IN U U'.
    assert (TOT : forall t, readable t -> exists u, hash_lines sha1 (sort_strings (map fst t)) (open_in t) = Some u).
    { clear - SHA. intros t R. apply hash_lines_total. intros f I. apply (Permutation_in f (sort_perm _)) in I.
      apply in_map_iff in I. destruct I as ([f' c] & E & I). cbn [fst] in E. subst f'.
      destruct (proj2 R f c I) as [NN NC]. split; [exact NN|]. destruct c as [c|]; [|congruence].
      rewrite (proj2 (open_iff t f c R) I). discriminate. }
    destruct (TOT t R) as (u & HU). destruct (TOT t' R') as (u' & HU').
    exists (hex (sha1 u)), (hex (sha1 u')). unfold hash_dir, myHash. rewrite HU, HU'.
    split; [reflexivity|]. split; [reflexivity|]. split.
    - intros E. apply hex_inj in E; [|apply SHA|apply SHA].
      apply CF in E; [|exact (U u HU)|exact (U' u' HU')]. subst u'.
      assert (NM : forall (t : tree) f, In f (sort_strings (map fst t)) <-> In f (map fst t)).
      { intros s f. split; intros I; [exact (Permutation_in f (sort_perm _) I)|].
        exact (Permutation_in f (Permutation_sym (sort_perm _)) I). }
      destruct (hash_lines_inj inputs (sort_strings (map fst t)) (sort_strings (map fst t')) (open_in t) (open_in t') u CF)
        as [EF EO]; [| |exact HU|exact HU'|].
      + intros f c _ O. apply (IN f c). apply in_or_app. left. exact (proj1 (open_iff t f c R) O).
      + intros f c _ O. apply (IN f c). apply in_or_app. right. exact (proj1 (open_iff t' f c R') O).
      + assert (SUB : forall a b, readable a -> readable b ->
          sort_strings (map fst a) = sort_strings (map fst b) ->
          (forall f, In f (sort_strings (map fst a)) -> open_in a f = open_in b f) ->
          forall name c, In (name, c) a -> In (name, c) b).
        { intros a b RA RB EAB OAB name c I. destruct c as [c|]; [|destruct (proj2 (proj2 RA name None I)); reflexivity].
          apply (open_iff b name c RB). rewrite <- OAB; [apply (open_iff a name c RA); exact I|].
          apply NM. exact (in_map fst _ _ I). }
        intros name c. split.
        * exact (SUB t t' R R' EF EO name c).
        * apply (SUB t' t R' R (eq_sym EF)). intros f I. symmetry. apply EO. rewrite EF. exact I.
    - intros S.
      assert (NS : forall x, In x (map fst t) <-> In x (map fst t')).
      { intros x. split; intros I; apply in_map_iff in I; destruct I as ([y c] & E & I); cbn [fst] in E; subst y;
          apply (in_map fst _ (x, c)); apply S; exact I. }
      assert (ES : sort_strings (map fst t) = sort_strings (map fst t')).
      { apply sorted_unique; [apply sort_sorted, R|apply sort_sorted, R'|]. intros x. split; intros I.
        - apply (Permutation_in x (Permutation_sym (sort_perm _))). apply NS. exact (Permutation_in x (sort_perm _) I).
        - apply (Permutation_in x (Permutation_sym (sort_perm _))). apply NS. exact (Permutation_in x (sort_perm _) I). }
      rewrite <- ES in HU'. rewrite (hash_lines_ext _ (open_in t') (open_in t)) in HU'; [congruence|].
      intros f _. destruct (open_in t' f) as [c|] eqn:O.
      + symmetry. apply (open_iff t f c R). apply S. apply (open_iff t' f c R'). exact O.
      + destruct (open_in t f) as [c|] eqn:O2; [|reflexivity]. exfalso.
        assert (X : open_in t' f = Some c) by (apply (open_iff t' f c R'); apply S; apply (open_iff t f c R); exact O2). congruence.
  Qed.
End Hash.

Lemma hash_lines_none : forall sha1 files open f, In f files -> In 10 f \/ open f = None -> hash_lines sha1 files open = None.
Proof.
  induction files as [|g files IH]; intros open f I H; [destruct I|]. cbn [hash_lines].
  destruct I as [->|I].
  - destruct H as [H|H].
    + assert (X : existsb (N.eqb 10) f = true) by (apply existsb_exists; exists 10; split; [exact H|reflexivity]). rewrite X. reflexivity.
    + rewrite H. destruct (existsb (N.eqb 10) f); reflexivity.
  - rewrite (IH open f I H). destruct (existsb (N.eqb 10) g); [reflexivity|]. destruct (open g); reflexivity.
Qed.

Theorem unreadable_none : forall sha1 g fs dir t name c, WatchChanges g = true -> fs dir = Some t -> NoDup (map fst t) ->
  In (name, c) t -> c = None \/ In 10 name -> HeadRev sha1 g fs dir = None.
Proof.
  intros sha1 g fs dir t name c W E N I H. unfold HeadRev. rewrite W, E. cbn [negb]. unfold hash_dir, myHash.
  rewrite (hash_lines_none sha1 _ (open_in t) name); [reflexivity| |].
  - apply (Permutation_in name (Permutation_sym (sort_perm _))). exact (in_map fst _ _ I).
  - destruct H as [->|H]; [right|left; exact H]. unfold open_in. rewrite (proj2 (get_nodup t name None N) I). reflexivity.
Qed.

Theorem clone_links : forall sha1 g link fs dir url,
  (forall src, url = file_scheme ++ src -> link = true -> Clone sha1 g link fs dir url = (Some src, HeadRev sha1 g fs dir)) /\
  (link = false \/ (forall src, url <> file_scheme ++ src) -> Clone sha1 g link fs dir url = (None, None)).
Proof.
  intros sha1 g link fs dir url. split.
  - intros src -> ->. assert (P : has_prefix (file_scheme ++ src) file_scheme = true) by (apply has_prefix_iff; exists src; reflexivity).
    unfold Clone, trim_prefix. rewrite P. reflexivity.
  - intros [->|H]; [unfold Clone; destruct (has_prefix url file_scheme); reflexivity|].
    unfold Clone. destruct (has_prefix url file_scheme) eqn:P; [|reflexivity].
    apply has_prefix_iff in P. destruct P as (x & X). destruct (H x X).
Qed.
