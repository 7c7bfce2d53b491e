From Verif Require Import Model.Base Model.GoStr Model.Config Model.Client Proofs.GoStrProofs.
From Coq Require Import Lia.
Local Open Scope nat_scope.

Lemma last_index_app : forall s c r, ~ In c r -> last_index_byte (s ++ c :: r) c = Some (length s).
Proof.
  induction s as [|x s IH]; intros c r NI; cbn [app last_index_byte length].
  - rewrite (proj2 (last_index_none r c) NI). rewrite N.eqb_refl. reflexivity.
  - rewrite IH by exact NI. reflexivity.
Qed.

Theorem url_name_none : forall uri, repoNameFromUrl uri = None <->
  exists rest, uri = 47%N :: rest /\ ~ In 47%N rest.
Proof.
  intros uri. unfold repoNameFromUrl.
  destruct (last_index_byte uri 47%N) as [ax|] eqn:E.
  - destruct (last_index_some _ _ _ E) as (EQ & NI & L). destruct (Nat.eqb_spec ax 0) as [->|NZ].
    + split; [|reflexivity]. intros _. exists (skipn 1 uri). split; [exact EQ|exact NI].
    + split.
      * destruct (last_index_byte (firstn (ax - 1) uri) 47%N) as [bx|] eqn:E2; [|discriminate].
        destruct (last_index_some _ _ _ E2) as (_ & _ & L2). rewrite firstn_length in L2.
        unfold slice. replace (Nat.leb (bx + 1) ax) with true by (symmetry; apply Nat.leb_le; lia).
        replace (Nat.leb ax (length uri)) with true by (symmetry; apply Nat.leb_le; lia). discriminate.
      * intros (rest & -> & NR). change (47%N :: rest) with ([] ++ 47%N :: rest) in E.
        rewrite last_index_app in E by exact NR. cbn in E. congruence.
  - apply last_index_none in E. split; [discriminate|]. intros (rest & -> & _). exfalso. apply E. left. reflexivity.
Qed.

Theorem url_name : forall uri, ~ (exists rest, uri = 47%N :: rest /\ ~ In 47%N rest) ->
  exists name, repoNameFromUrl uri = Some name.
Proof.
  intros uri H. destruct (repoNameFromUrl uri) as [n|] eqn:E; [eauto|]. apply url_name_none in E. contradiction.
Qed.

Theorem repo_name : forall repos name,
  (forall r, get repos name = Some (Some r) -> r_display r = [] ->
     ~ (exists rest, r_url r = 47%N :: rest /\ ~ In 47%N rest)) ->
  name <> [] -> exists n, repoNameFor repos name = Some n /\ n <> [].
Proof.
  intros repos name H NE. unfold repoNameFor.
  destruct (get repos name) as [[r|]|] eqn:G; [|eauto|eauto].
  destruct (r_display r) as [|c d] eqn:D.
  - destruct (url_name (r_url r)) as (n & E); [apply H; auto|]. rewrite E. cbn [bind].
    destruct n; eexists; (split; [reflexivity|]); [exact NE|discriminate].
  - eexists. split; [reflexivity|discriminate].
Qed.

Lemma skipn_len : forall {A} (a b : list A) n, n = length a -> skipn n (a ++ b) = b.
Proof. intros A a b n ->. rewrite skipn_app, skipn_all, Nat.sub_diag. reflexivity. Qed.
Lemma firstn_len : forall {A} (a b : list A) n, n = length a -> firstn n (a ++ b) = a.
Proof. intros A a b n ->. rewrite firstn_app, firstn_all, Nat.sub_diag. cbn. apply app_nil_r. Qed.

Lemma last_two_raw : forall host owner name, owner <> [] -> ~ In 47%N owner -> ~ In 47%N name ->
  repoNameFromUrl (host ++ 47%N :: owner ++ 47%N :: name) =
    Some (owner ++ 47%N :: if has_suffix name dot_git then firstn (length name - 4) name else name).
Proof.
  intros host owner name NE NO NN. unfold repoNameFromUrl.
  set (pre := host ++ 47%N :: owner).
  replace (host ++ 47%N :: owner ++ 47%N :: name) with (pre ++ 47%N :: name)
    by (unfold pre; rewrite <- app_assoc; reflexivity).
  rewrite last_index_app by exact NN.
  assert (LP : length pre = length host + 1 + length owner) by (unfold pre; rewrite app_length; cbn [length]; lia).
  assert (LO : 0 < length owner) by (destruct owner; [congruence|cbn; lia]).
  destruct (Nat.eqb_spec (length pre) 0) as [X|_]; [lia|].
  assert (EN : skipn (length pre + 1) (pre ++ 47%N :: name) = name).
  { replace (pre ++ 47%N :: name) with ((pre ++ [47%N]) ++ name) by (rewrite <- app_assoc; reflexivity).
    apply skipn_len. rewrite app_length. reflexivity. }
  rewrite EN.
  assert (EF : firstn (length pre - 1) (pre ++ 47%N :: name) = host ++ 47%N :: removelast owner).
  { destruct (@exists_last _ owner NE) as (o & z & EO). unfold pre in *. rewrite EO in *. rewrite removelast_last.
    replace ((host ++ 47%N :: o ++ [z]) ++ 47%N :: name) with ((host ++ 47%N :: o) ++ (z :: 47%N :: name))
      by (rewrite <- !app_assoc; cbn [app]; rewrite <- !app_assoc; reflexivity).
    apply firstn_len. rewrite LP, !app_length. cbn [length]. lia. }
  rewrite EF. rewrite last_index_app.
  2:{ intros I. apply NO. rewrite (app_removelast_last 0%N NE). apply in_or_app. left. exact I. }
  unfold slice.
  replace (Nat.leb (length host + 1) (length pre)) with true by (symmetry; apply Nat.leb_le; lia).
  replace (Nat.leb (length pre) (length (pre ++ 47%N :: name))) with true
    by (symmetry; apply Nat.leb_le; rewrite app_length; lia).
  cbn [andb bind]. f_equal. f_equal. unfold pre.
  replace ((host ++ 47%N :: owner) ++ 47%N :: name) with ((host ++ [47%N]) ++ owner ++ 47%N :: name)
    by (rewrite <- !app_assoc; reflexivity).
  rewrite skipn_len by (rewrite app_length; reflexivity). fold pre. apply firstn_len. lia.
Qed.

Theorem last_two : forall host owner name,
  owner <> [] -> ~ In 47%N owner -> ~ In 47%N name -> has_suffix name dot_git = false ->
  repoNameFromUrl (host ++ 47%N :: owner ++ 47%N :: name) = Some (owner ++ 47%N :: name) /\
  repoNameFromUrl (host ++ 47%N :: owner ++ 47%N :: name ++ dot_git) = Some (owner ++ 47%N :: name).
Proof.
  intros host owner name NE NO NN HS. split.
  - rewrite last_two_raw by assumption. rewrite HS. reflexivity.
  - rewrite last_two_raw; try assumption.
    + assert (X : has_suffix (name ++ dot_git) dot_git = true) by (apply has_suffix_iff; eauto).
      rewrite X. rewrite firstn_len; [reflexivity|]. rewrite app_length. cbn [dot_git length]. lia.
    + intros I. apply in_app_or in I. destruct I as [I|I]; [contradiction|]. cbn in I. intuition discriminate.
Qed.
