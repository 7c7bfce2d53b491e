(** Printing the answer of a server; reading a printed row. *)
From Verif Require Import Model.Base Model.Config Model.Grep Model.Matcher Model.Client Model.Present
  Spec.ApiSpec Spec.MatchSpec Spec.GrepSpec Spec.ClientSpec Spec.PresentSpec
  Proofs.SplitProofs Proofs.MatchTop Proofs.GrepTop Proofs.ClientServer Proofs.PresentProofs.
From Coq Require Import Lia.
Local Open Scope nat_scope.

Theorem server_printed : forall en find ctx repos names src results,
  (forall t, positions 0 (length t) (find t)) ->
  Forall (fun r => repoNameFor repos (fst r) = Some (names (fst r))) results ->
  Forall (fun r => Forall (fun f => exists fuel p nctx m m' text, wf_prog p /\ depth_ok fuel p /\ used fuel p m /\
    grep_text fuel nctx m text = Some (m', snd f) /\ splits text (src (fst r) (fst f))) (snd r)) results ->
  exists plain, answer_text ctx src names results plain /\
    exists out, Present en find (fun _ _ => false) ctx repos results = (out, Done) /\ coloured plain (concat out).
Proof.
  intros en find ctx repos names src results P N S.
  destruct (present_writes en find P ctx repos names src results N) as (pieces & (plain & A & C) & W).
  - unfold sound_results. eapply Forall_impl; [|exact S]. intros r F. eapply Forall_impl; [|exact F].
    intros f (fuel & p & nctx & m & m' & text & WF & D & U & E & SP).
    exact (server_in_order _ _ _ _ _ _ _ _ WF D U E SP).
  - exists plain. split; [exact A|]. specialize (W (fun _ _ => false)).
    destruct (Present en find (fun _ _ => false) ctx repos results) as [out s].
    destruct W as [[-> ->]|[_ (next & rest & _ & X)]]; [|discriminate].
    exists pieces. split; [reflexivity|exact C].
Qed.

Lemma digits_first : forall d d' x x' a a', Forall digit d -> Forall digit d' -> ~ digit x -> ~ digit x' ->
  d ++ x :: a = d' ++ x' :: a' -> d = d' /\ x = x' /\ a = a'.
Proof.
  induction d as [|c d IH]; intros [|c' d'] x x' a a' D D' X X' E; cbn [app] in E.
  - injection E as -> ->. repeat split.
  - assert (x = c') by congruence. subst. destruct X. exact (Forall_inv D').
  - assert (c = x') by congruence. subst. destruct X'. exact (Forall_inv D).
  - assert (c = c') by congruence. subst.
    destruct (IH d' x x' a a') as (-> & -> & ->); [exact (Forall_inv_tail D)|exact (Forall_inv_tail D')|exact X|exact X'|congruence|].
    repeat split.
Qed.

Theorem row_text_inj : forall r r' s, (0 < row_no r)%Z -> (0 < row_no r')%Z -> row_text r s -> row_text r' s -> r = r'.
Proof.
  intros [[k t] mk] [[k' t'] mk'] s. unfold row_no. cbn [fst]. intros P P' (d & (_ & D & V) & _ & E) (d' & (_ & D' & V') & _ & E').
  rewrite E' in E. cbn [app] in E.
  assert (M : forall b : bool, ~ digit (if b then 58%N else 45%N)) by (intros []; unfold digit; lia).
  destruct (digits_first _ _ _ _ _ _ D' D (M mk') (M mk) E) as (E1 & E2 & E3).
  subst d'. apply app_inv_head in E3. apply app_inv_tail in E3. subst t'.
  assert (mk = mk') by (destruct mk, mk'; congruence). subst mk'.
  assert (k = k') by lia. subst k'. reflexivity.
Qed.
