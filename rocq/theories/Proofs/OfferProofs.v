(** What clients are told about the repositories. *)
From Coq Require Import Permutation.
From Verif Require Import Model.Base Model.GoFmt Model.JsonText Model.Json Model.Config Model.Offer
  Spec.Names Spec.ApiSpec Spec.Utf8Spec Spec.JsonSpec Spec.JsonValueSpec Spec.ConfigSpec Spec.OfferSpec
  Proofs.StrLemmas Proofs.FmtProofs Proofs.Utf8Proofs Proofs.JsonProofs Proofs.JsonValueProofs Proofs.WireProofs Proofs.ConfigProofs Proofs.ConfigExample.
Local Open Scope N_scope.

Definition enc_opt {A} (f : A -> jv) (x : option A) : jv := match x with None => VNull | Some a => f a end.
Definition enc_pattern (p : url_pattern) : jv :=
  VObj [(text "base-url", VStr (up_base p)); (text "anchor", VStr (up_anchor p))].
Definition enc_repo (r : repo) : jv :=
  VObj [(text "url", VStr (r_url r)); (text "display-name", VStr (r_display r)); (text "ms-between-poll", VNum (fmt_d (r_ms r)));
        (text "vcs", VStr (r_vcs r)); (text "vcs-config", enc_opt (fun _ => VObj []) (r_vcsconf r));
        (text "url-pattern", enc_opt enc_pattern (r_pattern r)); (text "exclude-dot-files", VBool (r_exdot r));
        (text "enable-poll-updates", enc_opt VBool (r_poll r)); (text "enable-push-updates", enc_opt VBool (r_push r));
        (text "auto-generated-files", enc_opt (fun l => VArr (map VStr l)) (r_auto r))].
Definition enc_repos (rs : list (str * option repo)) : jv := VObj (map (fun p => (fst p, enc_opt enc_repo (snd p))) rs).

Lemma joined_commas : forall l, joined l = commas l.
Proof.
  intros [|x l]; [reflexivity|]. cbn [joined]. revert x. induction l as [|y l IH]; intros x.
  - apply app_nil_r.
  - rewrite commas_cons, <- IH. reflexivity.
Qed.
Lemma marshal_bool_print : forall short b, marshal_bool b = print short (VBool b).
Proof. intros short []; reflexivity. Qed.
Lemma marshal_opt_print : forall short {A} (f : A -> bytes) (g : A -> jv) x, (forall a, f a = print short (g a)) ->
  marshal_opt f x = print short (enc_opt g x).
Proof. intros short A f g [a|] E; [apply E|reflexivity]. Qed.
Lemma marshal_pattern_print : forall short p, marshal_pattern (json_literal short) p = print short (enc_pattern p).
Proof. intros short p. unfold marshal_pattern. rewrite joined_commas. reflexivity. Qed.
Lemma marshal_list_print : forall short l, brackets (joined (map (json_literal short) l)) = print short (VArr (map VStr l)).
Proof. intros short l. rewrite joined_commas. cbn [print]. rewrite map_map. reflexivity. Qed.
Lemma marshal_repo_print : forall short r, marshal_repo (json_literal short) fmt_d r = print short (enc_repo r).
Proof.
  intros short r. unfold marshal_repo. rewrite joined_commas. rewrite !(marshal_bool_print short).
  rewrite (marshal_opt_print short secret_MarshalJSON (fun _ => VObj [])) by reflexivity.
  rewrite (marshal_opt_print short _ enc_pattern) by (apply marshal_pattern_print).
  rewrite (marshal_opt_print short marshal_bool VBool) by (apply marshal_bool_print).
  rewrite (marshal_opt_print short marshal_bool VBool) by (apply marshal_bool_print).
  rewrite (marshal_opt_print short _ (fun l => VArr (map VStr l))) by (apply marshal_list_print).
  reflexivity.
Qed.
Lemma repos_json_print : forall short rs, repos_json (json_literal short) fmt_d rs = print short (enc_repos (by_key rs)).
Proof.
  intros short rs. unfold repos_json. rewrite joined_commas. unfold enc_repos. cbn [print]. rewrite map_map.
  unfold braces. do 3 f_equal. apply map_ext. intros [k r]. unfold field. cbn [fst snd].
  rewrite (marshal_opt_print short _ enc_repo) by (apply marshal_repo_print). reflexivity.
Qed.

(** It can be written, and is read. *)
Ltac wk := split; [apply ascii_bytes; cbn [fst]; ascii|cbn [snd]].
Lemma enc_opt_writable : forall {A} (f : A -> jv) x, (forall a, x = Some a -> writable (f a)) -> writable (enc_opt f x).
Proof. intros A f [a|] W; [apply W; reflexivity|constructor]. Qed.
Lemma repo_writable : forall r, repo_bytes r -> writable (enc_repo r).
Proof.
  intros r (B1 & B2 & B3 & B4 & B5). constructor.
  apply Forall_cons; [wk; constructor; exact B1|].
  apply Forall_cons; [wk; constructor; exact B2|].
  apply Forall_cons; [wk; constructor; apply fmt_d_number|].
  apply Forall_cons; [wk; constructor; exact B3|].
  apply Forall_cons; [wk; apply enc_opt_writable; intros; constructor; constructor|].
  apply Forall_cons; [wk; apply enc_opt_writable|].
  { intros p E. destruct (B4 p E) as [P1 P2]. constructor.
    apply Forall_cons; [wk; constructor; exact P1|]. apply Forall_cons; [wk; constructor; exact P2|constructor]. }
  apply Forall_cons; [wk; constructor|].
  apply Forall_cons; [wk; apply enc_opt_writable; intros; constructor|].
  apply Forall_cons; [wk; apply enc_opt_writable; intros; constructor|].
  apply Forall_cons; [wk; apply enc_opt_writable|constructor].
  intros l E. constructor. apply strs_writable. exact (B5 l E).
Qed.

Lemma text_arrived : forall s v, vreplaced (VStr s) v -> text_read s v.
Proof. intros s v R. destruct (str_arrived _ _ R) as (s' & -> & Q). exists s'. auto. Qed.
Lemma int_arrived : forall z v, vreplaced (VNum (fmt_d z)) v -> int_read z v.
Proof. intros z v R. apply num_arrived in R. subst v. exists (fmt_d z). split; [apply fmt_d_signed|reflexivity]. Qed.
Lemma opt_arrived : forall {A} (f : A -> jv) (rd : A -> jv -> Prop) x v, (forall a v, vreplaced (f a) v -> rd a v) ->
  vreplaced (enc_opt f x) v -> opt_read rd x v.
Proof. intros A f rd [a|] v D R; [apply D; exact R|]. inversion R. reflexivity. Qed.
Lemma pattern_arrived : forall p v, vreplaced (enc_pattern p) v -> pattern_read p v.
Proof.
  intros p v R. destruct (obj_arrived _ _ R) as (l & -> & M); [keys|]. members M.
  exists v, v0. split; [reflexivity|]. split; apply text_arrived; assumption.
Qed.
Lemma texts_arrived : forall l v, vreplaced (VArr (map VStr l)) v -> list_read text_read l v.
Proof.
  intros l v R. destruct (arr_arrived _ _ R) as (vs & -> & F). exists vs. split; [reflexivity|]. clear R.
  revert vs F. induction l as [|s l IH]; intros vs F; inversion F; subst; constructor; [apply text_arrived; assumption|apply IH; assumption].
Qed.
Lemma repo_arrived : forall r v, vreplaced (enc_repo r) v -> repo_read r v.
Proof.
  intros r v R. destruct (obj_arrived _ _ R) as (l & -> & M); [keys|]. clear R. members M.
  exists v, v0, v1, v2, v3, v4, v5, v6, v7, v8. split; [reflexivity|].
  split; [apply text_arrived; assumption|]. split; [apply text_arrived; assumption|]. split; [apply int_arrived; assumption|].
  split; [apply text_arrived; assumption|].
  split. { eapply opt_arrived; [|eassumption]. intros a w R. destruct (obj_arrived _ _ R) as (l & -> & M); [constructor|]. inversion M. reflexivity. }
  split. { eapply opt_arrived; [|eassumption]. exact pattern_arrived. }
  split. { apply bool_arrived. assumption. }
  split. { eapply opt_arrived; [|eassumption]. exact bool_arrived. }
  split. { eapply opt_arrived; [|eassumption]. exact bool_arrived. }
  eapply opt_arrived; [|eassumption]. exact texts_arrived.
Qed.

(** The maps. *)
Lemma get_in : forall {A} (m : list (str * A)) k v, get m k = Some v -> In (k, v) m.
Proof.
  intros A. induction m as [|[k' v'] m IH]; intros k v E; cbn [get] in E; [discriminate|].
  destruct (str_eqb k k') eqn:X; [apply str_eqb_eq in X; subst; left; congruence|right; auto].
Qed.
Lemma in_get : forall {A} (m : list (str * A)) k v, NoDup (map fst m) -> In (k, v) m -> get m k = Some v.
Proof.
  intros A. induction m as [|[k' v'] m IH]; intros k v ND I; [destruct I|]. cbn [map fst] in ND. apply NoDup_cons_iff in ND. destruct ND as [NI ND].
  cbn [get]. destruct I as [E|I].
  - replace k' with k by congruence. rewrite str_eqb_refl. congruence.
  - destruct (str_eqb k k') eqn:X; [|apply IH; assumption]. apply str_eqb_eq in X. subst k'. exfalso. apply NI. apply (in_map fst) in I. exact I.
Qed.
Lemma delete_get : forall {A} (m : list (str * A)) k x, get (delete m k) x = if str_eqb k x then None else get m x.
Proof.
  intros A m k x. induction m as [|[k' v] m IH]; cbn [delete filter fst get]; [destruct (str_eqb k x); reflexivity|].
  fold (delete m k). destruct (str_eqb k k') eqn:E; cbn [negb].
  - rewrite IH. apply str_eqb_eq in E. subst k'. destruct (str_eqb k x) eqn:F; [reflexivity|].
    destruct (str_eqb x k) eqn:G; [|reflexivity]. apply str_eqb_eq in G. subst x. rewrite str_eqb_refl in F. discriminate.
  - cbn [get]. rewrite IH. destruct (str_eqb x k') eqn:F; [|reflexivity]. apply str_eqb_eq in F. subst x. rewrite E. reflexivity.
Qed.
Lemma delete_sub : forall {A} (m : list (str * A)) k p, In p (delete m k) -> In p m.
Proof. intros A m k p I. apply filter_In in I. tauto. Qed.
Lemma delete_nodup : forall {A} (m : list (str * A)) k, NoDup (map fst m) -> NoDup (map fst (delete m k)).
Proof.
  intros A m k. induction m as [|[k' v] m IH]; intros ND; cbn [delete filter fst]; [constructor|]. fold (delete m k).
  cbn [map fst] in ND. apply NoDup_cons_iff in ND. destruct ND as [NI ND]. destruct (negb (str_eqb k k')); [|apply IH; exact ND].
  cbn [map fst]. constructor; [|apply IH; exact ND]. intros I. apply NI. apply in_map_iff in I. destruct I as ([a b] & E & I).
  cbn [fst] in E. subst a. apply delete_sub in I. apply (in_map fst) in I. exact I.
Qed.
Lemma keep_good_ok : forall errs repos, NoDup (map fst repos) -> NoDup (map fst (keep_good repos errs)) /\
  (forall x, In x errs -> get (keep_good repos errs) x = None) /\ (forall x, ~ In x errs -> get (keep_good repos errs) x = get repos x).
Proof.
  induction errs as [|e errs IH]; intros repos ND; [split; [exact ND|]; split; [intros x []|reflexivity]|].
  destruct (IH (delete repos e) (delete_nodup _ _ ND)) as (N & G1 & G2). change (keep_good repos (e :: errs)) with (keep_good (delete repos e) errs).
  split; [exact N|]. split.
  - intros x I. destruct (in_dec (list_eq_dec N.eq_dec) x errs) as [J|J]; [apply G1; exact J|]. rewrite G2 by exact J.
    destruct I as [->|I]; [|contradiction]. rewrite delete_get, str_eqb_refl. reflexivity.
  - intros x NI. rewrite G2 by (intros J; apply NI; right; exact J). rewrite delete_get.
    destruct (str_eqb e x) eqn:E; [|reflexivity]. apply str_eqb_eq in E. exfalso. apply NI. left. exact E.
Qed.
Lemma list_repos_ok : forall idx, NoDup (map fst idx) -> list_repos idx = map (fun p => (fst p, Some (snd p))) idx.
Proof.
  intros idx. unfold list_repos.
  assert (G : forall idx m, NoDup (map fst m ++ map fst idx) ->
    fold_left (fun (res : list (str * option repo)) p => put res (fst p) (Some (snd p))) idx m = m ++ map (fun p => (fst p, Some (snd p))) idx).
  { clear idx. induction idx as [|[k r] idx IH]; intros m ND; cbn [fold_left map fst snd]; [rewrite app_nil_r; reflexivity|].
    rewrite put_new.
    2:{ cbn [map fst] in ND. apply NoDup_remove_2 in ND. intros I. apply ND. apply in_or_app. left. exact I. }
    rewrite IH; [rewrite <- app_assoc; reflexivity|]. rewrite map_app. cbn [map fst]. rewrite <- app_assoc. exact ND. }
  intros ND. rewrite G by exact ND. reflexivity.
Qed.

Lemma same_list : forall repos idx errs, NoDup (map fst repos) -> searchers_of repos idx errs ->
  by_key (keep_good repos errs) = by_key (list_repos idx).
Proof.
  intros repos idx errs ND (N & K & R). assert (NI : NoDup (map fst idx)).
  { clear - N. induction idx as [|p idx IH]; [constructor|]. cbn [map app] in N. apply NoDup_cons_iff in N. destruct N as [X N].
    constructor; [intros I; apply X, in_or_app; left; exact I|apply IH; exact N]. }
  destruct (keep_good_ok errs repos ND) as (N1 & G1 & G2). rewrite list_repos_ok by exact NI.
  assert (N2 : NoDup (keys (map (fun p : str * repo => (fst p, Some (snd p))) idx))).
  { unfold keys. rewrite map_map. cbn [fst]. exact NI. }
  destruct (by_key_ok _ N1) as [S1 H1]. destruct (by_key_ok _ N2) as [S2 H2].
  apply ksorted_eq; [exact S1|exact S2|]. intros x. rewrite H1, H2.
  destruct (in_dec (list_eq_dec N.eq_dec) x (map fst idx)) as [I|I].
  - assert (NE : ~ In x errs).
    { intros J. clear - N I J. induction idx as [|p idx IH]; [destruct I|]. cbn [map app] in N. apply NoDup_cons_iff in N. destruct N as [X N].
      destruct I as [<-|I]; [apply X, in_or_app; right; exact J|apply IH; assumption]. }
    rewrite G2 by exact NE. apply in_map_iff in I. destruct I as ([a r] & <- & I). cbn [fst].
    rewrite (in_get repos a (Some r) ND (R a r I)). symmetry. apply in_get; [exact N2|].
    apply in_map_iff. exists (a, r). split; [reflexivity|exact I].
  - assert (E2 : get (map (fun p : str * repo => (fst p, Some (snd p))) idx) x = None).
    { apply get_none. unfold keys. rewrite map_map. exact I. }
    rewrite E2. destruct (in_dec (list_eq_dec N.eq_dec) x errs) as [J|J]; [apply G1; exact J|]. rewrite G2 by exact J.
    apply get_none. intros X. apply K in X. apply in_app_or in X. tauto.
Qed.

(** Both texts are the same, and say the searchable repositories. *)
Theorem same_text : forall short repos idx errs, NoDup (map fst repos) -> searchers_of repos idx errs ->
  api_repos short idx = page_repos short (keep_good repos errs) ++ [10].
Proof.
  intros short repos idx errs ND S. unfold api_repos, page_repos. rewrite !repos_json_print, (same_list repos idx errs ND S). reflexivity.
Qed.

Lemma insert_key_perm : forall {A} k (v : A) l, Permutation (insert_key k v l) ((k, v) :: l).
Proof.
  intros A k v. induction l as [|[k' v'] l IH]; cbn [insert_key]; [apply Permutation_refl|].
  destruct (str_ltb k' k); [|apply Permutation_refl]. eapply perm_trans; [apply perm_skip, IH|apply perm_swap].
Qed.
Lemma by_key_perm : forall {A} (l : list (str * A)), Permutation (by_key l) l.
Proof.
  intros A. induction l as [|[k v] l IH]; cbn [by_key]; [constructor|].
  eapply perm_trans; [apply insert_key_perm|apply perm_skip, IH].
Qed.

Theorem repos_read : forall short idx rest, NoDup (map fst idx) ->
  Forall (fun p : str * repo => valid_utf8 (fst p) /\ Forall is_byte (fst p) /\ repo_bytes (snd p)) idx ->
  exists l, decode_json (page_repos short (list_repos idx) ++ rest) = Some (VObj l, rest) /\
    Permutation (map fst l) (map fst idx) /\
    forall name v, In (name, v) l -> exists r, In (name, r) idx /\ repo_read r v.
Proof.
  intros short idx rest ND F. unfold page_repos. rewrite repos_json_print, list_repos_ok by exact ND.
  set (m := map (fun p : str * repo => (fst p, Some (snd p))) idx).
  assert (F' : Forall (fun p : str * option repo => exists r, snd p = Some r /\ In (fst p, r) idx /\ valid_utf8 (fst p) /\ Forall is_byte (fst p) /\ repo_bytes r) (by_key m)).
  { eapply Permutation_Forall; [apply Permutation_sym, by_key_perm|]. apply Forall_map. apply Forall_forall. intros [k r] I.
    exists r. split; [reflexivity|]. split; [exact I|]. exact (proj1 (Forall_forall _ _) F _ I). }
  assert (P : Permutation (map fst (by_key m)) (map fst idx)).
  { eapply perm_trans; [apply Permutation_map, by_key_perm|]. unfold m. rewrite map_map. apply Permutation_refl. }
  generalize dependent (by_key m). clear m. intros b F' P.
  assert (W : writable (enc_repos b)).
  { constructor. apply Forall_map. eapply Forall_impl; [|exact F']. intros [k o] (r & E & _ & _ & B & R). cbn [fst snd] in *. subst o.
    split; [exact B|]. apply repo_writable. exact R. }
  destruct (round_trip short _ rest W ltac:(discriminate)) as (v' & E & R). rewrite E.
  destruct (obj_arrived _ _ R) as (l & -> & M).
  { apply Forall_map. eapply Forall_impl; [|exact F']. intros [k o] (r & _ & _ & V & _). exact V. }
  exists l. split; [reflexivity|]. clear E R W F.
  assert (G : map fst l = map fst b /\ forall name v, In (name, v) l -> exists r, In (name, r) idx /\ repo_read r v).
  { clear P ND. revert l M. induction b as [|[k o] b IH]; intros l M; cbn [map] in M; inversion M as [|? [k' v] ? l' [K V] M']; subst.
    - split; [reflexivity|]. intros ? ? [].
    - destruct (Forall_inv F') as (r & E & I & _). cbn [fst snd] in *. subst o k'. destruct (IH (Forall_inv_tail F') l' M') as [G1 G2].
      split; [cbn [map fst]; rewrite G1; reflexivity|]. intros name w [X|X]; [|apply G2; exact X].
      injection X as <- <-. exists r. split; [exact I|]. apply repo_arrived. exact V. }
  destruct G as [G1 G2]. rewrite G1. auto.
Qed.
