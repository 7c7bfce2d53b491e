(** The repositories a search on the page is about. *)
From Verif Require Import Model.Base Model.GoStr Model.Utf8 Model.Config Model.Api Model.PageState Model.PageSelect Spec.ApiSpec Spec.Names
  Proofs.StrLemmas Proofs.GoStrProofs Proofs.ApiProofs Proofs.PageLoad.
From Coq Require Import Lia.
Local Open Scope N_scope.

Lemma truthy_in : forall own k, truthy own k = true <-> In k own \/ In k inherited.
Proof.
  intros own k. unfold truthy. rewrite existsb_exists. split.
  - intros (x & I & E). apply str_eqb_eq in E. subst x. apply in_app_or. exact I.
  - intros I. exists k. split; [apply in_or_app; exact I|apply str_eqb_refl].
Qed.
Lemma valid_in : forall all repos seen, Forall (fun r => ~ In r inherited) repos ->
  NoDup (valid_loop all seen repos) /\ forall r, In r (valid_loop all seen repos) <-> In r repos /\ In r all /\ ~ In r seen.
Proof.
  intros all repos. induction repos as [|r repos IH]; intros seen F; cbn [valid_loop].
  - split; [constructor|]. cbn [In]. tauto.
  - pose proof (Forall_inv F) as NR. cbv beta in NR. destruct (IH (r :: seen) (Forall_inv_tail F)) as (ND & IN).
    destruct (truthy all r && negb (truthy seen r)) eqn:V.
    + apply Bool.andb_true_iff in V. destruct V as (V1 & V2). apply truthy_in in V1. destruct V1 as [V1|V1]; [|contradiction].
      assert (NS : ~ In r seen) by (intros I; rewrite (proj2 (truthy_in seen r) (or_introl I)) in V2; discriminate).
      split; [constructor; [rewrite IN; cbn [In]; tauto|exact ND]|]. intros x. cbn [In]. rewrite IN. cbn [In]. split.
      * intros [<-|X]; tauto.
      * intros ([<-|I] & A & B); [tauto|]. destruct (list_eq_dec N.eq_dec r x); [tauto|]. right. tauto.
    + split; [exact ND|]. intros x. rewrite IN. cbn [In]. split; [tauto|]. intros ([<-|I] & A & B).
      * exfalso. rewrite (proj2 (truthy_in all r) (or_introl A)) in V. cbn [andb] in V. apply Bool.negb_false_iff in V. apply truthy_in in V. tauto.
      * split; [exact I|]. split; [exact A|]. intros [<-|X]; [|contradiction].
        rewrite (proj2 (truthy_in all r) (or_introl A)) in V. cbn [andb] in V. apply Bool.negb_false_iff in V. apply truthy_in in V. tauto.
Qed.

(** Joined names. *)
Definition fine (r : str) : Prop := r <> [] /\ r <> [42] /\ trimmed r r /\ ~ In 44 r.
Lemma join_elements : forall l r, Forall fine l -> l <> [] -> (element (join l) r <-> In r l).
Proof.
  intros l r F NE. induction F as [|x l FX F IH]; [congruence|]. clear NE. destruct FX as (_ & _ & _ & NC).
  destruct l as [|y l].
  - cbn [join In]. split.
    + intros (N1 & a & b & E & A & B). left. destruct A as [->|(a' & ->)]; [|exfalso; apply NC; rewrite E; apply in_or_app; left; apply in_elt].
      destruct B as [->|(b' & ->)]; [|exfalso; apply NC; rewrite E; apply in_or_app; right; apply in_elt]. rewrite app_nil_r in E. exact E.
    + intros [->|[]]. split; [exact NC|]. exists [], []. rewrite app_nil_r. auto.
  - assert (NE : y :: l <> []) by discriminate. specialize (IH NE). change (join (x :: y :: l)) with (x ++ 44 :: join (y :: l)).
    change (In r (x :: y :: l)) with (x = r \/ In r (y :: l)). rewrite <- IH. clear IH NE. set (s := join (y :: l)).
    unfold element. split.
    + intros (N1 & a & b & E & A & B).
      assert (CUT : forall x r b, x ++ 44 :: s = r ++ b -> ~ In 44 x -> ~ In 44 r -> (b = [] \/ exists b', b = 44 :: b') -> x = r).
      { clear. induction x as [|c x IH]; intros [|d r] b E NX NR B; cbn [app] in E.
        - reflexivity.
        - exfalso. apply NR. left. congruence.
        - exfalso. destruct B as [->|(b' & ->)]; [discriminate|]. apply NX. left. congruence.
        - f_equal; [congruence|]. apply (IH r b); [congruence| | |exact B]; intros I; [apply NX|apply NR]; right; exact I. }
      destruct A as [->|(a' & ->)].
      * left. exact (CUT x r b E NC N1 B).
      * right. split; [exact N1|].
        assert (X : exists a'', a' ++ [44] = x ++ 44 :: a'' /\ s = a'' ++ r ++ b).
        { clear - E NC. revert a' E. induction x as [|c x IH]; intros a' E.
          - destruct a' as [|d a']; cbn [app] in E.
            + exists []. split; [reflexivity|]. cbn [app] in *. congruence.
            + exists (a' ++ [44]). split; [cbn [app]; f_equal; congruence|]. cbn [app] in E. congruence.
          - destruct a' as [|d a']; cbn [app] in E.
            + exfalso. apply NC. left. congruence.
            + destruct (IH (fun I => NC (or_intror I)) a') as (a'' & P & Q); [congruence|]. exists a''. split; [|exact Q]. cbn [app]. rewrite P. f_equal. congruence. }
        destruct X as (a'' & P & Q). exists a'', b. split; [exact Q|]. split; [|exact B].
        destruct a'' as [|z a''] using rev_ind; [left; reflexivity|]. right. exists a''. f_equal.
        assert (Y : rev (a' ++ [44]) = rev (x ++ 44 :: a'' ++ [z])) by (rewrite P; reflexivity). rewrite rev_app_distr in Y.
        change (x ++ 44 :: a'' ++ [z]) with (x ++ (44 :: a'') ++ [z]) in Y. rewrite !rev_app_distr in Y. cbn [rev app] in Y. congruence.
    + intros [->|(N1 & a & b & E & A & B)].
      * split; [exact NC|]. exists [], (44 :: s). split; [reflexivity|]. split; [left; reflexivity|right; eauto].
      * split; [exact N1|]. exists (x ++ 44 :: a), b. rewrite E. split; [rewrite <- app_assoc; reflexivity|]. split; [|exact B].
        right. destruct A as [->|(a' & ->)]; [exists x; reflexivity|]. exists (x ++ 44 :: a'). rewrite <- app_assoc. reflexivity.
Qed.
Lemma spaces_no_comma : forall r, In r space_runes -> ~ In 44 (encode_rune r) /\ encode_rune r <> [].
Proof.
  intros r I. unfold space_runes in I. cbn [In] in I. repeat (destruct I as [<-|I]; [split; [intros X; vm_compute in X; intuition discriminate|discriminate]|]). destruct I.
Qed.
Lemma head_space : forall e x s y, ~ In 44 e -> x ++ 44 :: s = e ++ y -> exists z, x = e ++ z.
Proof.
  induction e as [|c e IH]; intros x s y N1 E; [exists x; reflexivity|]. destruct x as [|d x]; cbn [app] in E.
  - exfalso. apply N1. left. congruence.
  - destruct (IH x s y) as (z & ->); [intros I; apply N1; right; exact I|congruence|]. exists z. cbn [app]. f_equal. congruence.
Qed.
Lemma tail_space : forall e s x y, ~ In 44 e -> x ++ 44 :: s = y ++ e -> exists z, s = z ++ e.
Proof.
  intros e s x y N1 E. apply (f_equal (@rev N)) in E. rewrite !rev_app_distr in E. cbn [rev] in E. rewrite <- app_assoc in E. cbn [app] in E.
  destruct (head_space (rev e) (rev s) (rev x) (rev y)) as (z & Z); [rewrite <- in_rev; exact N1|exact E|].
  exists (rev z). apply (f_equal (@rev N)) in Z. rewrite rev_involutive, rev_app_distr, rev_involutive in Z. exact Z.
Qed.
Lemma join_trimmed : forall l, Forall fine l -> l <> [] -> trimmed (join l) (join l).
Proof.
  intros l F NE. split; [exists [], []; rewrite app_nil_r; split; [reflexivity|]; split; (exists []; split; [constructor|reflexivity])|].
  induction F as [|x l FX F IH]; [congruence|]. destruct FX as (_ & _ & (_ & TX) & _). destruct l as [|y l]; [exact TX|].
  specialize (IH ltac:(discriminate)). change (join (x :: y :: l)) with (x ++ 44 :: join (y :: l)). intros r z I.
  destruct (spaces_no_comma r I) as (NC & _). split; intros E.
  - destruct (head_space _ _ _ _ NC E) as (w & W). exact (proj1 (TX r w I) W).
  - destruct (tail_space _ _ _ _ NC E) as (w & W). exact (proj2 (IH r w I) W).
Qed.
Lemma join_nonempty : forall l, Forall fine l -> l <> [] -> join l <> [].
Proof.
  intros l F NE. destruct F as [|x l (NX & _) F]; [congruence|]. destruct l as [|y l]; [exact NX|]. cbn [join]. intros E. apply app_eq_nil in E. destruct E. discriminate.
Qed.
Lemma join_star : forall l, Forall fine l -> l <> [] -> join l <> [42].
Proof.
  intros l F NE. destruct F as [|x l (NX & NS & _) F]; [congruence|]. destruct l as [|y l]; [exact NS|]. change (join (x :: y :: l)) with (x ++ 44 :: join (y :: l)). intros E.
  destruct x as [|c x]; [congruence|]. cbn [app] in E. assert (X : x ++ 44 :: join (y :: l) = []) by congruence. apply app_eq_nil in X. destruct X. discriminate.
Qed.

(** What the server searches. *)
Theorem select_searched : forall idx sel p, NoDup (map fst idx) -> Forall fine (map fst idx) -> Forall (fun r => ~ In r inherited) (map fst idx) ->
  incl sel (map fst idx) -> get_param p n_repos = Some (selected_repos (map fst idx) sel) ->
  exists v, get_param (search_params p) n_repos = Some v /\
  forall r, In r (parseAsRepoList v idx) <-> In r (map fst idx) /\ (In r sel \/ sel = []).
Proof.
  intros idx sel p ND FN FI INC G. set (all := map fst idx) in *.
  assert (FS : Forall (fun r => ~ In r inherited) sel) by (apply Forall_forall; intros r I; rewrite Forall_forall in FI; apply FI, INC, I).
  destruct (valid_in all sel [] FS) as (NV & IV). fold (ValidRepos all sel) in NV, IV. rewrite search_repos, G. unfold selected_repos.
  assert (FV : Forall fine (ValidRepos all sel)) by (apply Forall_forall; intros r I; apply IV in I; rewrite Forall_forall in FN; apply FN; tauto).
  assert (STAR : forall r, In r (parseAsRepoList star idx) <-> In r all).
  { intros r. rewrite (repo_list star idx star r (trim_space_ok star)). fold all. split; [tauto|]. intros I. split; [exact I|left; reflexivity]. }
  destruct (Nat.eqb (length (ValidRepos all sel)) (RepoCount all)) eqn:L.
  - exists star. split; [reflexivity|]. intros r. rewrite STAR. split; [|tauto]. intros I. split; [exact I|]. left.
    apply Nat.eqb_eq in L. unfold RepoCount in L.
    assert (X : incl all (ValidRepos all sel)) by (apply NoDup_length_incl; [exact NV|lia|intros x J; apply IV in J; tauto]).
    apply X, IV in I. tauto.
  - destruct (ValidRepos all sel) as [|x l] eqn:EV.
    + exists star. split; [reflexivity|]. intros r. rewrite STAR. split; [|tauto]. intros I. split; [exact I|]. right.
      destruct sel as [|y sel]; [reflexivity|]. exfalso. apply (proj2 (IV y)). split; [left; reflexivity|]. split; [apply INC; left; reflexivity|intros []].
    + rewrite <- EV in *. assert (NE : ValidRepos all sel <> []) by congruence.
      pose proof (join_nonempty _ FV NE) as JN. exists (join (ValidRepos all sel)). split; [destruct (join (ValidRepos all sel)); [congruence|reflexivity]|].
      intros r. rewrite (repo_list _ idx _ r (join_trimmed _ FV NE)). fold all. rewrite (join_elements _ r FV NE), IV.
      pose proof (join_star _ FV NE) as JS. split; [intros (A & [B|B]); [contradiction|tauto]|]. intros (A & [B| ->]).
      * split; [exact A|]. right. split; [exact B|]. split; [exact A|intros []].
      * exfalso. apply NE. reflexivity.
Qed.
