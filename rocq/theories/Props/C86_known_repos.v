(** C86: a browser that opens the start page of a server that is ready knows the repositories
    that can be searched, as they are configured, and /api/v1/repos tells it the same
    (C64, C71, C72 together). *)
From Coq Require Import Permutation.
From Verif Require Import Model.Base Model.Json Model.Config Model.Offer Model.Pages Model.Mux
  Spec.Names Spec.Utf8Spec Spec.JsonGrammar Spec.OfferSpec Spec.HtmlReader Spec.PageSpec Proofs.StrLemmas Proofs.OfferProofs Proofs.PageProofs.
Local Open Scope N_scope.

(** [errs]: the repositories that failed; [idx]: the searchers. *)
Theorem C86_known : forall short title host repos idx errs js health files query,
  health <> text "/" -> NoDup (map fst repos) -> searchers_of repos idx errs ->
  Forall is_byte title -> Forall is_byte host -> whole_script js ->
  Forall (fun p : str * option repo => valid_utf8 (fst p) /\ Forall is_byte (fst p) /\ forall r, snd p = Some r -> repo_bytes r) repos ->
  ServeHTTP health true files (mkReq false false (text "/") query) = Some (Template Index) /\
  exists address model known l,
    read_html (start_page short title host (keep_good repos errs) js) = Some (start_tokens (shown title) address model js) /\
    json_string known model /\ decode_json known = Some (VObj l, []) /\ api_repos short idx = known ++ [10] /\
    Permutation (map fst l) (map fst idx) /\
    forall name v, In (name, v) l -> exists r, In (name, r) idx /\ In (name, Some r) repos /\ repo_read r v.
Proof.
  intros short title host repos idx errs js health files query HE ND S BT BH W F. split.
  { unfold ServeHTTP. cbn [q_path]. destruct (str_eqb (text "/") health) eqn:E; [apply str_eqb_eq in E; congruence|]. reflexivity. }
  assert (NI : NoDup (map fst idx)).
  { destruct S as (N & _). clear -N. revert N. generalize (map fst idx). induction l as [|x l IH]; intros N; [constructor|].
    inversion N as [|y r NI N']. subst. constructor; [|exact (IH N')]. intros I. apply NI. apply in_or_app. auto. }
  assert (FI : Forall (fun p : str * repo => valid_utf8 (fst p) /\ Forall is_byte (fst p) /\ repo_bytes (snd p)) idx).
  { apply Forall_forall. intros (n & r) I. destruct S as (_ & _ & C). specialize (C n r I). rewrite Forall_forall in F.
    destruct (F _ C) as (U & B & R). cbn [fst snd] in *. auto. }
  assert (FK : Forall (fun p : str * option repo => Forall is_byte (fst p) /\ forall r, snd p = Some r -> repo_bytes r) (keep_good repos errs)).
  { apply Forall_forall. intros x I. assert (IR : In x repos).
    { clear -I. unfold keep_good in I. revert repos I. induction errs as [|e errs IH]; intros repos I; [exact I|].
      cbn [fold_left] in I. apply IH in I. unfold delete in I. apply filter_In in I. tauto. }
    rewrite Forall_forall in F. destruct (F x IR) as (_ & B & R). auto. }
  destruct (start_shown short title host (keep_good repos errs) js BT BH FK W) as (address & model & RH & _ & _ & JS).
  destruct (repos_read short idx [] NI FI) as (l & DJ & PM & RD).
  pose proof (same_text short repos idx errs ND S) as SM.
  assert (EQ : page_repos short (list_repos idx) = page_repos short (keep_good repos errs)) by (apply app_inv_tail with (l := [10]); exact SM).
  exists address, model, (page_repos short (keep_good repos errs)), l. split; [exact RH|]. split; [exact JS|].
  split; [rewrite <- EQ, <- (app_nil_r (page_repos _ _)); exact DJ|]. split; [exact SM|]. split; [exact PM|].
  intros name v I. destruct (RD name v I) as (r & IR & RR). exists r. split; [exact IR|]. split; [|exact RR].
  destruct S as (_ & _ & C). exact (C name r IR).
Qed.
Print Assumptions C86_known.

Definition ex_r : repo := mkRepo (text "https://h/<a>") [] 30000 (text "git") None None true None None None.
Definition ex_repos : list (str * option repo) := [(text "bad", Some ex_r); (text "</script>", Some ex_r)].
Example C86_example : text "/healthz" <> text "/" /\ NoDup (map fst ex_repos) /\ searchers_of ex_repos [(text "</script>", ex_r)] [text "bad"] /\
  whole_script (text "1") /\
  exists model, read_html (start_page true (text "t") (text "h") (keep_good ex_repos [text "bad"]) (text "1")) =
    Some (start_tokens (text "t") (text "h") model (text "1")) /\ firstn 31 model = text """{\""\\u003c/script\\u003e\"":{\""".
Proof.
  split; [discriminate|]. split; [repeat (apply NoDup_cons; [cbn; intuition discriminate|]); apply NoDup_nil|].
  split.
  { split; [repeat (apply NoDup_cons; [cbn; intuition discriminate|]); apply NoDup_nil|]. split.
    - intros name. cbn [ex_repos map fst app In]. tauto.
    - intros name r [E|[]]. injection E as <- <-. cbn [ex_repos In]. tauto. }
  split. { split; [vm_compute; intuition discriminate|]. intros a b E. destruct a as [|x a]; [discriminate E|destruct a; discriminate E]. }
  exists (jsValEscaper true (page_repos true [(text "</script>", Some ex_r)])). split; [vm_compute; reflexivity|vm_compute; reflexivity].
Qed.
