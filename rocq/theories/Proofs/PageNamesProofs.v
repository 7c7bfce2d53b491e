(** Names and numbers on the page. *)
From Verif Require Import Model.Base Model.GoStr Model.GoFmt Model.Config Model.Client Model.PageSelect Model.PageLinks Model.PageNames
  Spec.ApiSpec Spec.Names Spec.LinkSpec Proofs.GoStrProofs Proofs.FmtProofs Proofs.NameProofs Proofs.LinkProofs.
From Coq Require Import Lia.
Local Open Scope nat_scope.

Lemma substring_rest : forall a b n, n = length (a ++ b) -> substring (a ++ b) (length a) n = b.
Proof.
  intros a b n ->. unfold substring. rewrite app_length. rewrite (Nat.min_l (length a)), (Nat.min_id (length a + length b)), Nat.max_r, Nat.min_l by lia.
  rewrite skipn_len by reflexivity. apply firstn_all2. lia.
Qed.
Lemma substring_mid : forall a b c, substring (a ++ b ++ c) (length a) (length (a ++ b)) = b.
Proof.
  intros a b c. unfold substring. rewrite !app_length. rewrite (Nat.min_l (length a)), (Nat.min_l (length a + length b)), Nat.max_r, Nat.min_l by lia.
  rewrite skipn_len by reflexivity. apply firstn_len. lia.
Qed.
(** The name without .git. *)
Inductive bare : str -> str -> Prop :=
| bare_git : forall n, bare (n ++ text ".git") n
| bare_not : forall n, ~ ends (text ".git") n -> bare n n.
Lemma bare_ok : forall raw n, bare raw n -> without_end [46; 103; 105; 116]%N raw = n.
Proof. intros raw n B. destruct B as [n|n NE]; [apply without_end_app; discriminate|apply without_end_none; [discriminate|exact NE]]. Qed.
Lemma bare_client : forall raw n, bare raw n -> (if has_suffix raw dot_git then firstn (length raw - 4) raw else raw) = n.
Proof.
  intros raw n B. destruct B as [n|n NE].
  - assert (X : has_suffix (n ++ dot_git) dot_git = true) by (apply has_suffix_iff; eauto). change (text ".git") with dot_git. rewrite X.
    apply firstn_len. rewrite app_length. cbn [dot_git length]. lia.
  - destruct (has_suffix n dot_git) eqn:E; [|reflexivity]. exfalso. apply NE. apply has_suffix_iff in E. destruct E as (a & ->). exists a. reflexivity.
Qed.

Section Repo.
  Variables (repos : list (str * option repo)) (name : str) (r : repo).
  Hypothesis known_repo : get repos name = Some (Some r).
  Theorem name_display : r_display r <> [] -> NameForRepo repos name = r_display r /\ repoNameFor repos name = Some (r_display r).
  Proof. intros D. unfold NameForRepo, repoNameFor. rewrite known_repo. destruct (r_display r); [congruence|]. split; reflexivity. Qed.
  Hypothesis no_display : r_display r = [].
  Theorem name_none : ~ In 47%N (r_url r) -> NameForRepo repos name = name /\ repoNameFor repos name = Some name.
  Proof.
    intros NI. unfold NameForRepo, repoNameFor, repoNameFromUrl. rewrite known_repo, no_display. rewrite (proj2 (last_index_none _ _) NI). split; reflexivity.
  Qed.
  Theorem name_two : forall host owner raw n, r_url r = host ++ 47%N :: owner ++ 47%N :: raw -> ~ In 47%N owner -> ~ In 47%N raw -> bare raw n ->
    NameForRepo repos name = owner ++ text " / " ++ n /\
    (owner <> [] -> repoNameFor repos name = Some (owner ++ text "/" ++ n)).
  Proof.
    intros host owner raw n EU NO NR B. split.
    - unfold NameForRepo. rewrite known_repo, no_display, EU.
      set (pre := host ++ 47%N :: owner).
      assert (EP : host ++ 47%N :: owner ++ 47%N :: raw = pre ++ 47%N :: raw) by (unfold pre; rewrite <- app_assoc; reflexivity).
      rewrite EP. rewrite last_index_app by exact NR.
      assert (EN : substring (pre ++ 47%N :: raw) (length pre + 1) (length (pre ++ 47%N :: raw)) = raw).
      { replace (pre ++ 47%N :: raw) with ((pre ++ [47%N]) ++ raw) by (rewrite <- app_assoc; reflexivity).
        replace (length pre + 1) with (length (pre ++ [47%N])) by (rewrite app_length; reflexivity). apply substring_rest. reflexivity. }
      rewrite EN, (bare_ok _ _ B).
      assert (LP : length pre = length host + 1 + length owner) by (unfold pre; rewrite app_length; cbn [length]; lia).
      unfold last_slash_upto. replace (S (Z.to_nat (Z.max 0 (Z.of_nat (length pre) - 1)))) with (length pre) by lia.
      rewrite firstn_len by reflexivity. unfold pre at 1. rewrite last_index_app by exact NO.
      assert (EO : substring (pre ++ 47%N :: raw) (length host + 1) (length pre) = owner).
      { unfold pre. replace ((host ++ 47%N :: owner) ++ 47%N :: raw) with ((host ++ [47%N]) ++ owner ++ 47%N :: raw) by (rewrite <- !app_assoc; reflexivity).
        replace (length host + 1) with (length (host ++ [47%N])) by (rewrite app_length; reflexivity).
        replace (length (host ++ 47%N :: owner)) with (length ((host ++ [47%N]) ++ owner)) by (rewrite <- app_assoc; reflexivity). apply substring_mid. }
      rewrite EO. reflexivity.
    - intros NE. unfold repoNameFor. rewrite known_repo, no_display, EU, last_two_raw by assumption. cbn [bind]. rewrite (bare_client _ _ B).
      destruct owner; [congruence|reflexivity].
  Qed.
  Theorem name_one : forall host raw n, r_url r = host ++ 47%N :: raw -> host <> [] -> ~ In 47%N host -> ~ In 47%N raw -> bare raw n ->
    NameForRepo repos name = n /\ (n <> [] -> repoNameFor repos name = Some n).
  Proof.
    intros host raw n EU NE NH NR B.
    assert (LH : 0 < length host) by (destruct host; [congruence|cbn [length]; lia]). split.
    - unfold NameForRepo. rewrite known_repo, no_display, EU. rewrite last_index_app by exact NR.
      assert (EN : substring (host ++ 47%N :: raw) (length host + 1) (length (host ++ 47%N :: raw)) = raw).
      { replace (host ++ 47%N :: raw) with ((host ++ [47%N]) ++ raw) by (rewrite <- app_assoc; reflexivity).
        replace (length host + 1) with (length (host ++ [47%N])) by (rewrite app_length; reflexivity). apply substring_rest. reflexivity. }
      rewrite EN, (bare_ok _ _ B). unfold last_slash_upto. replace (S (Z.to_nat (Z.max 0 (Z.of_nat (length host) - 1)))) with (length host) by lia.
      rewrite firstn_len by reflexivity. rewrite (proj2 (last_index_none _ _) NH). reflexivity.
    - intros NN. unfold repoNameFor. rewrite known_repo, no_display, EU. unfold repoNameFromUrl. rewrite last_index_app by exact NR.
      destruct (Nat.eqb_spec (length host) 0) as [Z0|_]; [lia|].
      assert (EN : skipn (length host + 1) (host ++ 47%N :: raw) = raw).
      { replace (host ++ 47%N :: raw) with ((host ++ [47%N]) ++ raw) by (rewrite <- app_assoc; reflexivity). apply skipn_len. rewrite app_length. reflexivity. }
      rewrite EN, (bare_client _ _ B).
      assert (EF : last_index_byte (firstn (length host - 1) (host ++ 47%N :: raw)) 47%N = None).
      { apply last_index_none. intros I. apply NH. rewrite firstn_app in I. replace (length host - 1 - length host) with 0 in I by lia. cbn [firstn] in I.
        rewrite app_nil_r in I. rewrite <- (firstn_skipn (length host - 1) host). apply in_or_app. left. exact I. }
      rewrite EF. cbn [bind]. destruct n; [congruence|reflexivity].
  Qed.
End Repo.

(** Numbers in groups of three. *)
Inductive grouped : str -> str -> Prop :=
| group_first : forall d, 1 <= length d <= 3 -> grouped d d
| group_more : forall s d g, grouped s d -> length g = 3 -> grouped (s ++ 44%N :: g) (d ++ g).
Lemma join_snoc : forall l g, l <> [] -> join (l ++ [g]) = join l ++ 44%N :: g.
Proof.
  induction l as [|x l IH]; intros g NE; [congruence|]. destruct l as [|y l]; [reflexivity|].
  change (join ((x :: y :: l) ++ [g])) with (x ++ 44%N :: join ((y :: l) ++ [g])). rewrite IH by discriminate.
  change (join (x :: y :: l)) with (x ++ 44%N :: join (y :: l)). rewrite <- app_assoc. reflexivity.
Qed.
Lemma format_ok : forall fuel s acc, length s < fuel ->
  exists l, format_loop fuel s acc = Some (l ++ acc) /\ (s = [] -> l = []) /\ (s <> [] -> l <> [] /\ grouped (join l) s).
Proof.
  induction fuel as [|fuel IH]; intros s acc L; [lia|]. cbn [format_loop]. destruct s as [|c s'].
  - exists []. split; [reflexivity|]. split; [reflexivity|congruence].
  - remember (c :: s') as s eqn:ES. assert (LS : 1 <= length s) by (subst s; cbn [length]; lia).
    assert (E1 : substring s 0 (length s - 3) = firstn (length s - 3) s).
    { unfold substring. rewrite !Nat.min_0_l, Nat.max_0_l. rewrite (Nat.min_l (length s - 3)) by lia. rewrite Nat.sub_0_r. reflexivity. }
    assert (E2 : substring s (length s - 3) (length s) = skipn (length s - 3) s).
    { unfold substring. rewrite (Nat.min_l (length s - 3)), Nat.min_id by lia. rewrite (Nat.max_r (length s - 3)), Nat.min_l by lia.
      apply firstn_all2. rewrite skipn_length. lia. }
    rewrite E1, E2. destruct (IH (firstn (length s - 3) s) (skipn (length s - 3) s :: acc)) as (l & EL & Z0 & NZ); [rewrite firstn_length; lia|].
    exists (l ++ [skipn (length s - 3) s]). split; [rewrite EL, <- app_assoc; reflexivity|]. split; [intros ->; cbn [length] in LS; lia|]. intros _.
    split; [destruct l; discriminate|]. destruct (Nat.le_gt_cases (length s) 3) as [LE|GT].
    + rewrite Z0 by (replace (length s - 3) with 0 by lia; reflexivity). cbn [app join]. replace (length s - 3) with 0 by lia. cbn [skipn].
      constructor. lia.
    + destruct NZ as (NL & G). { intros X. apply (f_equal (@length N)) in X. rewrite firstn_length in X. cbn [length] in X. lia. }
      rewrite join_snoc by exact NL. rewrite <- (firstn_skipn (length s - 3) s) at 3. constructor; [exact G|]. rewrite skipn_length. lia.
Qed.
Theorem format_number : forall t, (0 <= t < 2 ^ 31)%Z ->
  exists s d, FormatNumber t = Some s /\ grouped s d /\ decimal d (Z.to_N t) /\ (forall r, d = 48%N :: r -> r = []).
Proof.
  intros t R. unfold FormatNumber. assert (E : int32 t = t) by (unfold int32; rewrite Z.mod_small by lia; lia). rewrite E.
  rewrite fmt_d_pos by lia. destruct (fmt_uint_ok (Z.to_N t)) as (D & C).
  destruct (format_ok (S (length (fmt_uint (Z.to_N t)))) (fmt_uint (Z.to_N t)) []) as (l & EL & _ & G); [lia|].
  rewrite EL, app_nil_r. cbn [option_map]. exists (join l), (fmt_uint (Z.to_N t)). split; [reflexivity|]. split; [apply G, D|]. split; assumption.
Qed.
