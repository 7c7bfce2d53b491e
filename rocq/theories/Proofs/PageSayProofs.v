(** What the page says about a search. *)
From Verif Require Import Model.Base Model.Search Model.PageState Model.PageAddress Model.PageSay Proofs.StrLemmas.
From Coq Require Import Lia Permutation.

Lemma insert_perm : forall locale x l, Permutation (insert locale x l) (x :: l).
Proof.
  induction l as [|y l IH]; [reflexivity|]. cbn [insert]. destruct (_ <? _)%Z; [|reflexivity].
  rewrite IH. apply perm_swap.
Qed.
Lemma sort_perm : forall locale l, Permutation (sort_results locale l) l.
Proof.
  induction l as [|x l IH]; [reflexivity|]. cbn [sort_results fold_right]. rewrite insert_perm. constructor. exact IH.
Qed.
Lemma nth_seq : forall {A} (a b : list A), map (nth_error (a ++ b)) (seq (length a) (length b)) = map Some b.
Proof.
  intros A a b. revert a. induction b as [|x b IH]; intros a; [reflexivity|]. cbn [length seq map].
  rewrite nth_error_app2, Nat.sub_diag by lia. cbn [nth_error]. f_equal.
  specialize (IH (a ++ [x])). rewrite <- app_assoc, app_length in IH. cbn [app length] in IH. rewrite Nat.add_1_r in IH. exact IH.
Qed.

Section Say.
Variable locale : str -> str -> Z.
Variable trim escape : str -> str.
Variable rx : Type.
Variable RegExp : str -> bool -> option rx.
Notation step := (say_step locale trim escape rx RegExp).

(** The expression of a request. *)
Definition sought (m : params) (r : rx) : Prop := exists q i l,
  get_param m n_q = Some q /\ get_param m n_i = Some i /\ get_param m n_literal = Some l /\
  RegExp (if ParamValueToBool l then escape q else q) (ParamValueToBool i) = Some r.
(** Something is searched for: with the button, or by an address that has no blanks around
    the expression. *)
Definition asks (s : sstate rx) (ev : say_event) : Prop :=
  match ev with
  | Submitted rest => True
  | Opened p => exists q, get_param p n_q = Some q /\ trim q = q
  | _ => False
  end.

Lemma get_app : forall p d k v, get_param p k = Some v -> get_param (p ++ d) k = Some v.
Proof.
  induction p as [|[k' v'] p IH]; intros d k v G; [discriminate|]. cbn [app get_param] in *. destruct (str_eqb k' k); [exact G|]. apply IH. exact G.
Qed.
Lemma get_search : forall p k v, k <> n_repos -> get_param p k = Some v -> get_param (search_params p) k = Some v.
Proof.
  intros p k v K G. unfold search_params. pose proof (get_app p [(n_stats, fosho); (n_repos, star); (n_rng, first_page)] k v G) as A.
  unfold merge in *. destruct (get_param (p ++ _) n_repos) as [[|x y]|]; try exact A. cbn [app get_param].
  destruct (str_eqb n_repos k) eqn:E; [|exact A]. apply str_eqb_eq in E. congruence.
Qed.
Lemma box_bool : forall b, ParamValueToBool (box b) = b.
Proof. intros []; reflexivity. Qed.

(** What a search leaves. *)
Lemma ask_eq : forall f p (s s' : sstate rx), ask rx f p s = Some s' ->
  exists q, get_param p n_q = Some q /\ q <> [] /\
  s' = mkSay f (mkPage (search_params p) (pg_objs (sy_page s)) (pg_results (sy_page s)) (pg_by (sy_page s))
                       (pg_pending (sy_page s) ++ [PSearch (search_params p)]) None (v_error (sy_page s))) (Some q) (sy_regexp s)
  \/ get_param p n_q = None.
Proof.
  intros f p s s' A. unfold ask, do_search in A. destruct (get_param p n_q) as [q|] eqn:G; [|exists []; right; reflexivity].
  exists q. left. rewrite (get_search p n_q q) in A by (discriminate || exact G). split; [reflexivity|].
  destruct q as [|c q]; [discriminate|]. split; [discriminate|]. cbn [bind] in A. injection A as <-. reflexivity.
Qed.

Definition right_mark (f : form) (p : params) : Prop := exists q i l,
  get_param p n_q = Some q /\ get_param p n_i = Some i /\ get_param p n_literal = Some l /\
  trim (fm_q f) = q /\ fm_icase f = ParamValueToBool i /\ fm_literal f = ParamValueToBool l.
Lemma asks_ask : forall s ev s', asks s ev -> step s ev s' ->
  exists f p, right_mark f p /\ ask rx f p s = Some s'.
Proof.
  intros s ev s' A ST. destruct ev as [f|rest|p|repo|a rep]; try destruct A.
  - inversion ST as [|rest' s2 K| | |]. subst. exists (sy_form s), (getParams trim (sy_form s) rest). split; [|exact K].
    exists (trim (fm_q (sy_form s))), (box (fm_icase (sy_form s))), (box (fm_literal (sy_form s))). rewrite !box_bool. repeat split.
  - inversion ST as [| |p' f s2 F K| |]. subst. exists f, p. split; [|exact K].
    destruct H as (Q & T). unfold setParams in F. rewrite Q in F. cbn [bind] in F.
    destruct (get_param p n_i) as [i|] eqn:I; [|discriminate]. destruct (get_param p n_literal) as [l|] eqn:L; [|discriminate].
    cbn [bind] in F. injection F as <-. exists x, i, l. auto 10.
Qed.

Theorem searching : forall s ev s', asks s ev -> step s ev s' -> (forall m, says s <> SaysError m) -> v_error (sy_page s) <> Some [] -> says s' = SaysSearching.
Proof.
  intros s ev s' A ST N0 N1. destruct (asks_ask _ _ _ A ST) as (f & p & (q & i & l & Q & _) & K).
  destruct (ask_eq _ _ _ _ K) as (q' & [(Q' & NE & ->)|N]); [|congruence]. unfold says in *. cbn [sy_page v_error v_results sy_query] in *.
  destruct (v_error (sy_page s)) as [[|c e]|]; [congruence|destruct (N0 (c :: e) eq_refl)|]. destruct q'; [congruence|reflexivity].
Qed.

Theorem answered : forall s ev s1 m rep s2, pg_pending (sy_page s) = [] -> asks s ev -> step s ev s1 -> step s1 (Answered (PSearch m) rep) s2 ->
  match rep with
  | Error msg => says s2 = SaysError msg
  | Broke => says s2 = SaysError broke_down
  | Results rs _ => forall r, sought m r ->
      match rs with
      | [] => says s2 = SaysNothing
      | _ => exists ids, says s2 = Shows ids (Some r) /\
          Permutation (map (fun i => option_map r_repo (nth_error (pg_objs (sy_page s2)) i)) ids) (map Some (map fst rs))
      end
  end.
Proof.
  intros s ev s1 m rep s2 P A ST AN. destruct (asks_ask _ _ _ A ST) as (f & p & (q & i & l & Q & I & L & T & FI & FL) & K).
  destruct (ask_eq _ _ _ _ K) as (q' & [(Q' & NE & ->)|N]); [|congruence]. assert (q' = q) by congruence. subst q'.
  inversion AN as [| | | |a rep' pg PS]. subst. inversion PS as [| |before after a' rep' pg' PE AR]. subst.
  cbn [sy_page pg_pending] in PE. rewrite P in PE. cbn [app] in PE.
  assert (EM : before = [] /\ after = [] /\ m = search_params p).
  { destruct before as [|x [|y b]]; [injection PE as <- <-; auto|discriminate|discriminate]. }
  destruct EM as (-> & -> & ->). cbn [sy_page pg_params pg_objs pg_results pg_by v_results v_error app] in AR.
  destruct rep as [rs st|msg|]; cbn [search_answer told] in *.
  - intros r (q' & i' & l' & Q1 & I1 & L1 & R). rewrite (get_search p n_q _ ltac:(discriminate) Q) in Q1.
    rewrite (get_search p n_i _ ltac:(discriminate) I) in I1. rewrite (get_search p n_literal _ ltac:(discriminate) L) in L1.
    assert (G : getRegExp trim escape rx RegExp f = Some r) by (unfold getRegExp; injection Q1 as <-; injection I1 as <-; injection L1 as <-; rewrite FI, FL; exact R).
    cbn [sy_form]. rewrite G. destruct st; [|discriminate]. injection AR as <-.
    set (new := sort_results locale _) in *. unfold says. cbn [sy_page v_error v_results pg_objs sy_regexp].
    assert (PM : Permutation (map r_repo new) (map fst rs)).
    { unfold new. rewrite sort_perm, map_map. erewrite map_ext; [reflexivity|]. intros (k & v). reflexivity. }
    assert (LN : length new = length rs) by (apply Permutation_length in PM; rewrite !map_length in PM; exact PM).
    destruct rs as [|x rs].
    + destruct new; [reflexivity|discriminate LN].
    + exists (seq (length (pg_objs (sy_page s))) (length new)). split.
      * rewrite LN. cbn [length seq]. reflexivity.
      * rewrite <- (map_map (nth_error _) (option_map r_repo)), nth_seq, map_map.
        rewrite <- (map_map r_repo Some). apply Permutation_map. exact PM.
  - destruct msg as [|c e]; [discriminate|]. injection AR as <-. reflexivity.
  - injection AR as <-. reflexivity.
Qed.

(** Whatever happens. *)
Inductive visits : sstate rx -> Prop :=
| vi_start : visits say0
| vi_step : forall s ev s', visits s -> step s ev s' -> visits s'.
Theorem not_stuck : (forall t i, RegExp t i <> None) -> forall s, visits s -> says s = SaysSearching -> pg_pending (sy_page s) <> [].
Proof.
  intros TOT s V. assert (INV : match v_error (sy_page s) with Some [] => False | Some _ => True | None =>
    match v_results (sy_page s) with Some _ => True | None => match sy_query s with Some (_ :: _) => pg_pending (sy_page s) <> [] | _ => True end end end).
  { induction V as [|s ev s' V IH ST]; [exact I|]. inversion ST as [f|rest s2 K|p f s2 F K|repo pg PS|a rep pg PS]; subst.
    - exact IH.
    - destruct (ask_eq _ _ _ _ K) as (q & [(Q & NE & ->)|N]); [|discriminate]. cbn [sy_page v_error v_results sy_query pg_pending].
      destruct (v_error (sy_page s)) as [[|]|]; auto. destruct q; [exact I|]. destruct (pg_pending (sy_page s)); discriminate.
    - destruct (ask_eq _ _ _ _ K) as (q & [(Q & NE & ->)|N]).
      + cbn [sy_page v_error v_results sy_query pg_pending].
        destruct (v_error (sy_page s)) as [[|]|]; auto. destruct q; [exact I|]. destruct (pg_pending (sy_page s)); discriminate.
      + unfold setParams in F. rewrite N in F. discriminate.
    - inversion PS as [|repo' pg' L|]. subst. unfold do_load in L. destruct (by_repo _ repo) as [o|]; [|discriminate]. cbn [bind] in L.
      destruct (nth_error _ o) as [res|]; [|discriminate]. cbn [bind] in L. injection L as <-.
      cbn [sy_page v_error v_results sy_query pg_pending]. destruct (v_error (sy_page s)) as [[|]|]; auto. destruct (v_results (sy_page s)); auto.
      destruct (sy_query s) as [[|]|]; auto. destruct (pg_pending (sy_page s)); discriminate.
    - inversion PS as [| |before after a' rep' pg' PE AR]. subst. destruct rep as [rs st|msg|].
      + cbn [told]. destruct (getRegExp _ _ _ _ _) as [r|] eqn:G; [|unfold getRegExp in G; destruct (TOT _ _ G)].
        cbn [sy_page]. destruct a as [m|o repo m]; cbn [search_answer load_answer] in AR.
        * destruct st; [|discriminate]. injection AR as <-. exact I.
        * destruct (find_result rs repo); [|discriminate]. cbn [bind] in AR. destruct (nth_error _ o); [|discriminate]. cbn [bind] in AR.
          destruct (list_set _ o _); [|discriminate]. cbn [bind] in AR. injection AR as <-. exact I.
      + destruct a as [m|o repo m]; cbn [search_answer load_answer] in AR; (destruct msg; [discriminate|]); injection AR as <-; exact I.
      + destruct a as [m|o repo m]; cbn [search_answer load_answer] in AR; injection AR as <-; exact I. }
  unfold says. destruct (v_error (sy_page s)) as [[|]|]; [destruct INV|discriminate|].
  destruct (v_results (sy_page s)) as [[|]|]; try discriminate. destruct (sy_query s) as [[|]|]; try discriminate. intros _. exact INV.
Qed.
Lemma no_empty_error : forall s, visits s -> v_error (sy_page s) <> Some [].
Proof.
  intros s V. induction V as [|s ev s' V IH ST]; [discriminate|]. inversion ST as [f|rest s2 K|p f s2 F K|repo pg PS|a rep pg PS]; subst.
  - exact IH.
  - destruct (ask_eq _ _ _ _ K) as (q & [(Q & NE & ->)|N]); [exact IH|discriminate].
  - destruct (ask_eq _ _ _ _ K) as (q & [(Q & NE & ->)|N]); [exact IH|]. unfold setParams in F. rewrite N in F. discriminate.
  - inversion PS as [|repo' pg' L|]. subst. unfold do_load in L. destruct (by_repo _ repo) as [o|]; [|discriminate]. cbn [bind] in L.
    destruct (nth_error _ o) as [res|]; [|discriminate]. cbn [bind] in L. injection L as <-. exact IH.
  - inversion PS as [| |before after a' rep' pg' PE AR]. subst. destruct rep as [rs st|msg|].
    + cbn [told]. destruct (getRegExp _ _ _ _ _) as [r|] eqn:G; [|exact IH].
      destruct a as [m|o repo m]; cbn [search_answer load_answer] in AR.
      * destruct st; [|discriminate]. injection AR as <-. discriminate.
      * destruct (find_result rs repo); [|discriminate]. cbn [bind] in AR. destruct (nth_error _ o); [|discriminate]. cbn [bind] in AR.
        destruct (list_set _ o _); [|discriminate]. cbn [bind] in AR. injection AR as <-. discriminate.
    + destruct a as [m|o repo m]; cbn [search_answer load_answer] in AR; (destruct msg; [discriminate|]); injection AR as <-; discriminate.
    + destruct a as [m|o repo m]; cbn [search_answer load_answer] in AR; injection AR as <-; discriminate.
Qed.
Theorem searching_visit : forall s ev s', visits s -> asks s ev -> step s ev s' -> (forall m, says s <> SaysError m) -> says s' = SaysSearching.
Proof. intros s ev s' V A ST N. exact (searching s ev s' A ST N (no_empty_error s V)). Qed.
End Say.
