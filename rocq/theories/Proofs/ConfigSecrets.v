(** The repository listing does not depend on the contents of vcs-config texts. *)
From Verif Require Import Model.Base Model.Config Spec.ConfigSpec Proofs.StrLemmas Proofs.ConfigProofs.
Local Open Scope Z_scope.

Definition pub (r1 r2 : repo) : Prop := same_but_conf r1 r2 /\ present (r_vcsconf r1) = present (r_vcsconf r2).
Definition pub_entry (a b : str * option repo) : Prop := fst a = fst b /\
  match snd a, snd b with
  | None, None => True
  | Some r1, Some r2 => pub r1 r2
  | _, _ => False
  end.

Lemma pub_init : forall r1 r2, pub r1 r2 -> pub (init_repo r1) (init_repo r2).
Proof.
  intros r1 r2 [(B1 & B2 & B3 & B4 & B5 & B6 & B7 & B8 & B9) P]. split.
  - unfold same_but_conf, init_repo. cbn [r_url r_display r_ms r_vcs r_vcsconf r_pattern r_exdot r_poll r_push r_auto].
    rewrite B3, B4, B5. repeat (split; [assumption || reflexivity|]). assumption.
  - exact P.
Qed.

Lemma pub_marshal : forall quote number r1 r2, pub r1 r2 -> marshal_repo quote number r1 = marshal_repo quote number r2.
Proof.
  intros quote number r1 r2 [(B1 & B2 & B3 & B4 & B5 & B6 & B7 & B8 & B9) P]. unfold marshal_repo.
  rewrite B1, B2, B3, B4, B5, B6, B7, B8, B9.
  destruct (r_vcsconf r1), (r_vcsconf r2); try discriminate; reflexivity.
Qed.

Lemma insert_key_rel : forall {A} (R : A -> A -> Prop) k v v' l l', R v v' ->
  Forall2 (fun a b : str * A => fst a = fst b /\ R (snd a) (snd b)) l l' ->
  Forall2 (fun a b : str * A => fst a = fst b /\ R (snd a) (snd b)) (insert_key k v l) (insert_key k v' l').
Proof.
  intros A R k v v' l l' H F. induction F as [|[a x] [b y] l l' [E1 E2] F IH]; cbn [insert_key].
  - constructor; [auto|constructor].
  - cbn in E1, E2. subst b. destruct (str_ltb a k); constructor; auto. 
Qed.

Lemma by_key_rel : forall {A} (R : A -> A -> Prop) l l',
  Forall2 (fun a b : str * A => fst a = fst b /\ R (snd a) (snd b)) l l' ->
  Forall2 (fun a b : str * A => fst a = fst b /\ R (snd a) (snd b)) (by_key l) (by_key l').
Proof.
  intros A R l l' F. induction F as [|[a x] [b y] l l' [E1 E2] F IH]; cbn [by_key]; [constructor|].
  cbn in E1, E2. subst b. apply insert_key_rel; assumption.
Qed.

Lemma pub_listing : forall quote number l1 l2, Forall2 pub_entry l1 l2 ->
  repos_json quote number l1 = repos_json quote number l2.
Proof.
  intros quote number l1 l2 F. unfold repos_json. do 2 f_equal.
  apply (by_key_rel (fun a b => match a, b with None, None => True | Some r1, Some r2 => pub r1 r2 | _, _ => False end)) in F.
  induction F as [|[a x] [b y] l l' [E1 E2] F IH]; [reflexivity|]. cbn [map]. cbn [fst snd] in E1, E2. subst b. f_equal; [|exact IH].
  f_equal. destruct x, y; try contradiction; [|reflexivity]. cbn [marshal_opt]. apply pub_marshal. exact E2.
Qed.

Lemma keys_of_rel : forall {A B} (P : A -> B -> Prop) (l : list (str * A)) (l' : list (str * B)),
  Forall2 (fun a b => fst a = fst b /\ P (snd a) (snd b)) l l' -> keys l = keys l'.
Proof. intros A B P l l' F. induction F as [|x y l l' [E _] F IH]; [reflexivity|]. unfold keys in *. cbn [map]. f_equal; assumption. Qed.

Lemma get_dom : forall {A B} (l : list (str * A)) (l' : list (str * B)), keys l = keys l' ->
  forall k, get l k = None <-> get l' k = None.
Proof. intros A B l l' E k. rewrite !get_none, E. reflexivity. Qed.

Section Json.
  Variable un : bytes -> option (option (list (str * json))).
  Variable ma : option (list (str * json)) -> bytes.
  Variable abs : str -> option str.

  Lemma merge_repo_pub : forall g1 g2 r1 r2 r1' r2', (forall k, get g1 k = None <-> get g2 k = None) -> pub r1 r2 ->
    merge_repo un ma g1 r1 = Some (Some r1') -> merge_repo un ma g2 r2 = Some (Some r2') -> pub r1' r2'.
  Proof.
    intros g1 g2 r1 r2 r1' r2' D [S P] H1 H2. unfold merge_repo in H1, H2.
    assert (V : r_vcs r1 = r_vcs r2) by apply S. specialize (D (r_vcs r1)). rewrite <- V in H2.
    destruct (get g1 (r_vcs r1)) as [v1|] eqn:G1, (get g2 (r_vcs r1)) as [v2|] eqn:G2.
    - destruct (match VcsConfig r1 with [] => Some (Some []) | b => un b end) as [w1|]; [|discriminate].
      destruct (match VcsConfig r2 with [] => Some (Some []) | b => un b end) as [w2|]; [|discriminate].
      destruct (fill_missing w1 _) as [u1|]; [|discriminate]. destruct (fill_missing w2 _) as [u2|]; [|discriminate].
      cbn [bind] in H1, H2. injection H1 as <-. injection H2 as <-. split; [exact S|reflexivity].
    - exfalso. pose proof (proj2 D eq_refl). discriminate.
    - exfalso. pose proof (proj1 D eq_refl). discriminate.
    - injection H1 as <-. injection H2 as <-. split; assumption.
  Qed.

  Lemma each_pub : forall f1 f2 l1 l2 l1' l2', Forall2 pub_entry l1 l2 ->
    (forall r1 r2 r1' r2', pub r1 r2 -> f1 r1 = Some (Some r1') -> f2 r2 = Some (Some r2') -> pub r1' r2') ->
    each_repo f1 l1 = Some (Some l1') -> each_repo f2 l2 = Some (Some l2') -> Forall2 pub_entry l1' l2'.
  Proof.
    intros f1 f2 l1 l2 l1' l2' F H E1 E2. apply each_repo_inv in E1, E2. revert l1' l2' E1 E2.
    induction F as [|[a x] [b y] l1 l2 [P1 P2] F IH]; intros l1' l2' E1 E2; inversion E1; inversion E2; subst; constructor.
    - destruct y0 as [n1 s1], y1 as [n2 s2]. unfold pub_entry. cbn [fst snd] in *.
      match goal with A : a = n1 /\ _, B : b = n2 /\ _ |- _ => destruct A as [<- A2]; destruct B as [<- B2] end.
      split; [exact P1|]. destruct x as [x|], y as [y|], s1 as [s1|], s2 as [s2|]; try contradiction.
      eapply H; eassumption.
    - eapply IH; eassumption.
  Qed.

  Lemma listing_secret : forall quote number c1 c2 c1' c2', same_but_secrets c1 c2 ->
    finish_load un ma abs c1 = Some (Some c1') -> finish_load un ma abs c2 = Some (Some c2') ->
    ToJsonString quote number c1' = ToJsonString quote number c2'.
  Proof.
    intros quote number c1 c2 c1' c2' (_ & _ & _ & _ & _ & V & R) H1 H2.
    destruct (load_inv un ma abs c1 c1' H1) as (db1 & rs1 & _ & IR1 & M1).
    destruct (load_inv un ma abs c2 c2' H2) as (db2 & rs2 & _ & IR2 & M2).
    assert (F : Forall2 pub_entry rs1 rs2).
    { eapply (each_pub _ _ (c_repos c1) (c_repos c2)); [exact R| |exact IR1|exact IR2].
      intros r1 r2 r1' r2' P E1 E2. injection E1 as <-. injection E2 as <-. apply pub_init. exact P. }
    unfold ToJsonString. apply pub_listing.
    destruct (merge_inv un ma _ _ M1) as (_ & _ & _ & _ & _ & _ & D1).
    destruct (merge_inv un ma _ _ M2) as (_ & _ & _ & _ & _ & _ & D2).
    cbn [c_vcs c_repos prepared] in D1, D2.
    assert (K : keys (c_vcs c1) = keys (c_vcs c2))
      by (apply (keys_of_rel (fun a b => present a = present b)); exact V).
    destruct D1 as [[V1 ->]|[V1 (g1 & GV1 & E1)]], D2 as [[V2 ->]|[V2 (g2 & GV2 & E2)]].
    - exact F.
    - rewrite V1 in K. destruct (c_vcs c2); [contradiction|discriminate].
    - rewrite V2 in K. destruct (c_vcs c1); [contradiction|discriminate].
    - eapply (each_pub _ _ rs1 rs2); [exact F| |exact E1|exact E2].
      intros r1 r2 r1' r2' P X1 X2. eapply merge_repo_pub; [|exact P|exact X1|exact X2].
      destruct (global_vals_dom un _ _ GV1) as (K1 & _). destruct (global_vals_dom un _ _ GV2) as (K2 & _).
      apply get_dom. congruence.
  Qed.
End Json.
