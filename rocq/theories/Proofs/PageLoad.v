(** More results, page by page. *)
From Verif Require Import Model.Base Model.GoFmt Model.Search Model.PageState Spec.ApiSpec Spec.SearchSpec Spec.Names Spec.LoadSpec
  Proofs.StrLemmas Proofs.FmtProofs Proofs.GoStrProofs Proofs.ApiProofs.
From Coq Require Import Permutation Lia.
Local Open Scope nat_scope.

Lemma get_merge : forall a b k, get_param (merge a b) k = match get_param b k with Some v => Some v | None => get_param a k end.
Proof.
  intros a b k. unfold merge. induction b as [|(k' & v) b IH]; [reflexivity|]. cbn [app get_param]. destruct (str_eqb k' k); [reflexivity|exact IH].
Qed.

(** Sorting. *)
Section Sort.
Variable locale : str -> str -> Z.
Lemma insert_perm : forall x l, Permutation (insert locale x l) (x :: l).
Proof.
  induction l as [|y l IH]; [reflexivity|]. cbn [insert]. destruct (_ <? _)%Z; [|reflexivity]. rewrite IH. constructor.
Qed.
Lemma sort_perm : forall l, Permutation (sort_results locale l) l.
Proof. induction l as [|x l IH]; [constructor|]. cbn [sort_results fold_right]. fold (sort_results locale l). rewrite insert_perm. constructor. exact IH. Qed.
End Sort.

(** Places. *)
Lemma list_set_some : forall {A} (l : list A) i x y, nth_error l i = Some x -> exists l', list_set l i y = Some l' /\ length l' = length l /\
  nth_error l' i = Some y /\ forall j, j <> i -> nth_error l' j = nth_error l j.
Proof.
  induction l as [|a l IH]; intros [|i] x y H; try discriminate; cbn [list_set].
  - exists (y :: l). repeat split. intros [|j] NE; [congruence|reflexivity].
  - destruct (IH i x y H) as (l' & -> & L & E & O). exists (a :: l'). split; [reflexivity|]. split; [cbn [length]; congruence|]. split; [exact E|].
    intros [|j] NE; [reflexivity|apply O; congruence].
Qed.

(** Objects by number. *)
Definition at_ (objs : list result) (id : nat) (x : result) : Prop := nth_error objs id = Some x.
Lemma at_new : forall new old, Forall2 (at_ (old ++ new)) (seq (length old) (length new)) new.
Proof.
  intros new old. assert (X : forall pre l, Forall2 (at_ (old ++ pre ++ l)) (seq (length old + length pre) (length l)) l).
  { intros pre l. revert pre. induction l as [|x l IH]; intros pre; cbn [length seq]; constructor.
    - unfold at_. rewrite nth_error_app2 by lia. rewrite nth_error_app2 by lia. replace (length old + length pre - length old - length pre) with 0 by lia. reflexivity.
    - replace (pre ++ x :: l) with ((pre ++ [x]) ++ l) by (rewrite <- app_assoc; reflexivity).
      replace (S (length old + length pre)) with (length old + length (pre ++ [x])) by (rewrite app_length; cbn [length]; lia). apply IH. }
  specialize (X [] new). cbn [app length] in X. rewrite Nat.add_0_r in X. exact X.
Qed.
Lemma at_find : forall objs ids rs r, Forall2 (at_ objs) ids rs -> In r (map r_repo rs) ->
  exists id x, by_repo (combine (map r_repo rs) ids) r = Some id /\ at_ objs id x /\ r_repo x = r /\ In (id, x) (combine ids rs).
Proof.
  intros objs ids rs r F. induction F as [|id x ids rs A F IH]; intros I; [destruct I|]. cbn [map combine by_repo].
  destruct (str_eqb (r_repo x) r) eqn:E.
  - apply str_eqb_eq in E. exists id, x. split; [reflexivity|]. split; [exact A|]. split; [exact E|]. left; reflexivity.
  - destruct I as [I|I]; [apply str_eqb_neq in E; congruence|]. destruct (IH I) as (id' & x' & B & C & D & J). exists id', x'. split; [exact B|]. split; [exact C|]. split; [exact D|]. right; exact J.
Qed.
Lemma combine_in : forall {A B} (P : A -> B -> Prop) l1 l2 a b, Forall2 P l1 l2 -> In (a, b) (combine l1 l2) -> P a b /\ In a l1 /\ In b l2.
Proof.
  intros A B P l1 l2 a b F. induction F as [|x y l1 l2 H F IH]; [intros []|]. cbn [combine]. intros [E|I]; [injection E as <- <-; split; [exact H|split; left; reflexivity]|].
  destruct (IH I) as (U & V & W). split; [exact U|]. split; right; assumption.
Qed.
(** One object replaced. *)
Lemma at_set : forall objs objs' ids rs id x y, Forall2 (at_ objs) ids rs -> NoDup ids -> In (id, x) (combine ids rs) ->
  nth_error objs' id = Some y -> (forall j, j <> id -> nth_error objs' j = nth_error objs j) ->
  exists a b, rs = a ++ x :: b /\ Forall2 (at_ objs') ids (a ++ y :: b) /\
    forall j z, In (j, z) (combine ids rs) -> j <> id -> In (j, z) (combine ids (a ++ y :: b)).
Proof.
  intros objs objs' ids rs id x y F ND I E O. revert ND I. induction F as [|i z ids rs A F IH]; intros ND I; [destruct I|]. inversion ND as [|? ? NI ND']; subst.
  cbn [combine] in I. destruct I as [I|I].
  - injection I as -> ->. exists [], rs. split; [reflexivity|]. cbn [app]. split.
    + constructor; [exact E|]. clear - F NI O. induction F as [|i' z' ids rs A F IH]; constructor.
      * unfold at_ in *. rewrite O; [exact A|]. intros ->. apply NI. left; reflexivity.
      * apply IH. intros X. apply NI. right; exact X.
    + intros j w [J|J] NE; [congruence|]. right; exact J.
  - destruct (IH ND' I) as (a & b & -> & F' & K). exists (z :: a), b. split; [reflexivity|]. cbn [app]. split.
    + constructor; [|exact F']. unfold at_ in *. rewrite O; [exact A|]. intros ->. apply NI. destruct (combine_in _ _ _ _ _ F I) as (_ & X & _). exact X.
    + intros j w [J|J] NE; [left; exact J|right; apply K; assumption].
Qed.

Definition n_limit : str := text "limit".
Definition form (p : params) : Prop := get_param p n_rng = None /\ get_param p n_stats = None /\ get_param p n_q <> Some [] /\ get_param p n_limit = None.
Definition load_repo (a : pend) : str := match a with PSearch _ => [] | PMore _ r _ => r end.

Lemma search_get : forall p k, k <> n_rng -> k <> n_repos -> k <> n_stats -> get_param (search_params p) k = get_param p k.
Proof.
  intros p k N1 N2 N3. unfold search_params.
  set (m := merge [(n_stats, fosho); (n_repos, star); (n_rng, first_page)] p).
  assert (E : get_param m k = get_param p k).
  { unfold m. rewrite get_merge. destruct (get_param p k); [reflexivity|]. cbn [get_param].
    rewrite (proj2 (str_eqb_neq n_stats k)), (proj2 (str_eqb_neq n_repos k)), (proj2 (str_eqb_neq n_rng k)); congruence. }
  destruct (get_param m n_repos) as [[|c v]|]; try exact E. rewrite get_merge. cbn [get_param]. rewrite (proj2 (str_eqb_neq n_repos k)); congruence.
Qed.
Lemma search_fixed : forall p, form p -> get_param (search_params p) n_rng = Some first_page /\ get_param (search_params p) n_stats = Some fosho.
Proof.
  intros p (F1 & F2 & _ & _). unfold search_params. set (m := merge [(n_stats, fosho); (n_repos, star); (n_rng, first_page)] p).
  assert (E1 : get_param m n_rng = Some first_page) by (unfold m; rewrite get_merge, F1; reflexivity).
  assert (E2 : get_param m n_stats = Some fosho) by (unfold m; rewrite get_merge, F2; reflexivity).
  destruct (get_param m n_repos) as [[|c v]|]; split; assumption.
Qed.
Lemma search_repos : forall p, get_param (search_params p) n_repos =
  Some (match get_param p n_repos with None => star | Some [] => star | Some v => v end).
Proof.
  intros p. unfold search_params. set (m := merge [(n_stats, fosho); (n_repos, star); (n_rng, first_page)] p).
  assert (E : get_param m n_repos = match get_param p n_repos with Some v => Some v | None => Some star end) by (unfold m; rewrite get_merge; destruct (get_param p n_repos); reflexivity).
  destruct (get_param p n_repos) as [[|c v]|]; rewrite E.
  - rewrite get_merge. reflexivity.
  - exact E.
  - exact E.
Qed.

Lemma search_limit : forall p, form p -> get_param (search_params p) (text "limit") = None.
Proof. intros p (_ & _ & _ & L). rewrite search_get by discriminate. exact L. Qed.
Lemma load_limit : forall req p, form p -> same_search req p -> get_param req (text "limit") = None.
Proof. intros req p (_ & _ & _ & L) SS. rewrite (SS (text "limit")) by discriminate. exact L. Qed.

(** A part of a list. *)
Lemma window_prefix : forall {A} (l a : list A) e, prefix a l -> prefix (a ++ window (Z.of_nat (length a)) e l) l.
Proof.
  intros A l a e (c & ->). unfold window. rewrite Nat2Z.id, skipn_app, skipn_all, Nat.sub_diag. cbn [skipn app]. destruct (0 <? e)%Z.
  - exists (skipn (Z.to_nat e) c). rewrite <- app_assoc, firstn_skipn. reflexivity.
  - exists []. rewrite app_nil_r. reflexivity.
Qed.
Lemma window_some : forall {A} (l : list A) b e, Z.to_nat b < length l -> window b e l <> [].
Proof.
  intros A l b e L X. apply (f_equal (@length _)) in X. unfold window in X. destruct (Z.ltb_spec 0 e); rewrite ?firstn_length, skipn_length in X; cbn [length] in X; lia.
Qed.
Lemma window_first : forall {A} (l : list A) e, window 0 e l <> [] <-> l <> [].
Proof.
  intros A l e. split; [intros H ->; apply H; unfold window; destruct (0 <? e)%Z; cbn [Z.to_nat skipn]; rewrite ?firstn_nil; reflexivity|].
  intros H. apply window_some. destruct l; [congruence|cbn; lia].
Qed.
Lemma page_first : page first_page 0 20.
Proof.
  right. exists [], [50; 48]%N. split; [reflexivity|]. split; [intros []|]. split.
  - right. split; [|reflexivity]. intros v (X & _). congruence.
  - left. exists 20%N. split; [|split; reflexivity]. split; [discriminate|]. split; [|reflexivity]. repeat constructor; unfold digit; lia.
Qed.
Lemma bound_d : forall n, (Z.of_nat n < 2 ^ 63)%Z -> bound (fmt_d (Z.of_nat n)) (Z.of_nat n).
Proof.
  intros n L. left. exists (Z.to_N (Z.of_nat n)). rewrite fmt_d_pos by lia. split; [apply fmt_uint_ok|].
  assert (Z.to_N (Z.of_nat n) < 2 ^ 63)%N. { change (2 ^ 63)%N with (Z.to_N (2 ^ 63)). lia. }
  split; [change (2 ^ 64)%N with (2 * 2 ^ 63)%N; lia|]. destruct (N.ltb_spec (Z.to_N (Z.of_nat n)) (2 ^ 63)); lia.
Qed.
Lemma page_d : forall n e t, (Z.of_nat n < 2 ^ 63)%Z -> bound t e -> page (fmt_d (Z.of_nat n) ++ 58%N :: t) (Z.of_nat n) e.
Proof.
  intros n e t L B. right. exists (fmt_d (Z.of_nat n)), t. split; [reflexivity|]. split; [|split; [apply bound_d, L|exact B]].
  rewrite fmt_d_pos by lia. destruct (fmt_uint_ok (Z.to_N (Z.of_nat n))) as ((_ & D & _) & _). intros I. rewrite Forall_forall in D. specialize (D _ I). unfold digit in D. lia.
Qed.
Lemma bound_nil : bound [] 0.
Proof. right. split; [intros v (X & _); congruence|reflexivity]. Qed.

Section Server.
Variable known : str -> Prop.
Variable files : params -> str -> list file_match.
Variable serve : params -> reply.
Variable locale : str -> str -> Z.
Hypothesis HON : honest known files serve.
Hypothesis NAMES : forall r, known r -> trimmed r r /\ ~ In 44%N r.
Hypothesis SMALL : forall p r, (Z.of_nat (length (files p r)) < 2 ^ 63)%Z.

Lemma search_wants : forall p r, wants known (search_params p) r <-> asked known p r.
Proof.
  intros p r. unfold wants, asked. change (text "repos") with n_repos. change (text "*") with star. rewrite search_repos.
  assert (T : trimmed star star) by exact (trim_space_ok [42]%N).
  split; intros (K & H); (split; [exact K|]).
  - destruct H as (v & w & E & H). destruct (get_param p n_repos) as [[|c v']|]; [right; left; reflexivity| |left; reflexivity].
    right. right. exists v, w. destruct E as [E|(E & _)]; [|discriminate]. split; [exact E|exact H].
  - destruct H as [H|[H|(v & w & E & H)]].
    + rewrite H. exists star, star. split; [left; reflexivity|]. split; [exact T|left; reflexivity].
    + rewrite H. exists star, star. split; [left; reflexivity|]. split; [exact T|left; reflexivity].
    + rewrite E. destruct v as [|c v]; [exists star, star; split; [left; reflexivity|]; split; [exact T|left; reflexivity]|]. exists (c :: v), w. split; [left; reflexivity|exact H].
Qed.
Lemma search_same : forall p, same_search (search_params p) p.
Proof. intros p k. change (text "rng") with n_rng. change (text "repos") with n_repos. change (text "stats") with n_stats. apply search_get. Qed.

Definition load_ok (p : params) (ids : list nat) (rs : list result) (a : pend) : Prop :=
  exists o r req x v e, a = PMore o r req /\ In (o, x) (combine ids rs) /\ r_repo x = r /\ same_search req p /\
    get_param req n_repos = Some r /\ get_param req n_rng = Some v /\
    page v (Z.of_nat (length (r_matches x))) e /\ window (Z.of_nat (length (r_matches x))) e (files p r) <> [].

Record loaded (s : pstate) (p : params) (rs : list result) : Prop := {
  ld_form : form p;
  ld_params : pg_params s = search_params p;
  ld_objs : Forall2 (at_ (pg_objs s)) (pg_results s) rs;
  ld_ids : NoDup (pg_results s);
  ld_by : pg_by s = combine (map r_repo rs) (pg_results s);
  ld_right : right known files p rs;
  ld_view : v_results s = None \/ v_results s = Some (pg_results s);
  ld_each : NoDup (map load_repo (pg_pending s));
  ld_pending : Forall (load_ok p (pg_results s) rs) (pg_pending s) }.
Inductive inv (s : pstate) (last : option params) : Prop :=
  | inv_none : pg_pending s = [] -> v_results s = None -> inv s last
  | inv_wait p : last = Some p -> form p -> pg_params s = search_params p -> pg_pending s = [PSearch (search_params p)] -> v_results s = None -> inv s last
  | inv_loaded p rs : last = Some p -> loaded s p rs -> inv s last.

Lemma inv_search : forall p s s', pg_pending s = [] -> form p -> do_search p s = Some s' -> inv s' (Some p).
Proof.
  intros p s s' P F E. unfold do_search in E. destruct (get_param (search_params p) n_q) as [[|c q]|] eqn:Q; [discriminate| |];
  injection E as <-; (apply (inv_wait _ _ p); cbn [pg_params pg_pending v_results]; [reflexivity|exact F|reflexivity|rewrite P; reflexivity|reflexivity]).
Qed.

Lemma first_answer : forall s p rep s', form p -> pg_params s = search_params p -> pg_pending s = [] ->
  rep = serve (search_params p) \/ rep = Broke -> search_answer locale rep s = Some s' -> inv s' (Some p).
Proof.
  intros s p rep s' F PP PE SV E. unfold search_answer in E. destruct rep as [rs stats|msg|].
  - destruct stats; [|discriminate]. injection E as <-. destruct SV as [SV|SV]; [|discriminate]. destruct HON as (SAME & H). specialize (H (search_params p) (search_limit p F)). rewrite <- SV in H.
    destruct H as (_ & ND & H). specialize (H first_page 0%Z 20%Z (proj1 (search_fixed p F)) page_first). destruct H as (H1 & H2).
    set (new0 := map (fun '(repo, res) => mkRes repo (rs_rev res) (rs_matches res) (rs_found res)) rs) in *.
    assert (PM : Permutation (sort_results locale new0) new0) by apply sort_perm. set (new := sort_results locale new0) in *. clearbody new.
    assert (RN : map r_repo new0 = map fst rs) by (unfold new0; rewrite map_map; apply map_ext; intros (k & a); reflexivity).
    assert (PR : Permutation (map r_repo new) (map fst rs)) by (rewrite <- RN; apply Permutation_map, PM).
    apply (inv_loaded _ _ p new); [reflexivity|]. constructor; cbn [pg_params pg_objs pg_results pg_by pg_pending v_results].
    + exact F.
    + exact PP.
    + apply at_new.
    + apply seq_NoDup.
    + reflexivity.
    + split; [apply (Permutation_NoDup (Permutation_sym PR) ND)|]. split.
      * intros r. rewrite <- search_wants, <- (SAME _ _ r (search_same p)). rewrite <- (window_first (files (search_params p) r) 20). split.
        -- intros I. apply (Permutation_in _ PR) in I. apply in_map_iff in I. destruct I as ((r' & a) & E & I). cbn [fst] in E. subst r'.
           destruct (H1 r a I) as (W & M & NE & _). split; [exact W|]. rewrite <- M. exact NE.
        -- intros (W & NE). apply (Permutation_in _ (Permutation_sym PR)). apply H2; assumption.
      * apply Forall_forall. intros x I. apply (Permutation_in _ PM) in I. unfold new0 in I. apply in_map_iff in I. destruct I as ((r & a) & <- & I).
        cbn [r_matches r_repo r_files]. destruct (H1 r a I) as (_ & M & NE & C). rewrite (SAME _ _ r (search_same p)) in *.
        split; [|split; [exact NE|exact C]]. rewrite M. pose proof (window_prefix (files p r) [] 20) as W. cbn [app length] in W. apply W. exists (files p r). reflexivity.
    + right. reflexivity.
    + rewrite PE. constructor.
    + rewrite PE. constructor.
  - destruct msg; [discriminate|]. injection E as <-. apply inv_none; [exact PE|reflexivity].
  - injection E as <-. apply inv_none; [exact PE|reflexivity].
Qed.

Lemma same_trans : forall a b c, same_search a b -> same_search b c -> same_search a c.
Proof. intros a b c H1 H2 k N1 N2 N3. rewrite H1, H2; auto. Qed.

(** What a load asks for. *)
Lemma load_sends : forall s p rs r, loaded s p rs -> In r (map r_repo rs) -> exists o x req v e s',
  do_load r s = Some s' /\ s' = mkPage (pg_params s) (pg_objs s) (pg_results s) (pg_by s) (pg_pending s ++ [PMore o r req]) (v_results s) (v_error s) /\
  In (o, x) (combine (pg_results s) rs) /\ r_repo x = r /\ same_search req p /\ get_param req n_repos = Some r /\ get_param req n_rng = Some v /\
  page v (Z.of_nat (length (r_matches x))) e /\
  window (Z.of_nat (length (r_matches x))) e (files p r) = firstn 2000 (skipn (length (r_matches x)) (files p r)).
Proof.
  intros s p rs r LD I. destruct LD as [F PP OB ID BY RI VI EA PE].
  destruct (at_find _ _ _ r OB I) as (o & x & B & A & X & J). rewrite <- BY in B.
  destruct RI as (_ & _ & RI). rewrite Forall_forall in RI. destruct (combine_in _ _ _ _ _ OB J) as (_ & _ & JX). specialize (RI x JX). rewrite X in RI.
  destruct RI as (PR & _ & CT). unfold do_load. rewrite B. cbn [bind]. unfold at_ in A. rewrite A. cbn [bind]. cbv zeta. rewrite CT.
  assert (LE : length (r_matches x) <= length (files p r)). { destruct PR as (c & ->). rewrite app_length. lia. }
  pose proof (SMALL p r) as SM.
  set (need := (Z.of_nat (length (files p r)) - Z.of_nat (length (r_matches x)))%Z) in *.
  set (req := merge _ _).
  exists o, x, req. eexists. exists (if (need =? Z.min 2000 need)%Z then 0 else Z.of_nat 2000)%Z. eexists. split; [reflexivity|]. split; [reflexivity|]. split; [exact J|]. split; [exact X|].
  split. { intros k N1 N2 N3. assert (N1' : k <> n_rng) by exact N1. assert (N2' : k <> n_repos) by exact N2. unfold req. rewrite get_merge. cbn [get_param]. rewrite (proj2 (str_eqb_neq n_rng k)), (proj2 (str_eqb_neq n_repos k)) by congruence.
    rewrite PP. apply search_same; assumption. }
  split; [unfold req; rewrite get_merge; reflexivity|]. split; [unfold req; rewrite get_merge; reflexivity|].
  destruct (Z.eqb_spec need (Z.min 2000 need)) as [EQ|NE].
  - split; [apply page_d; [lia|apply bound_nil]|]. unfold window. rewrite Nat2Z.id. cbn [Z.ltb Z.compare]. symmetry. apply firstn_all2. rewrite skipn_length. lia.
  - replace (Z.min 2000 need) with (Z.of_nat 2000) by lia. split; [apply page_d; [lia|apply bound_d; reflexivity]|]. unfold window. rewrite !Nat2Z.id. reflexivity.
Qed.

Lemma repo_unique : forall rs x y, NoDup (map r_repo rs) -> In x rs -> In y rs -> r_repo x = r_repo y -> x = y.
Proof.
  induction rs as [|z rs IH]; intros x y ND IX IY E; [destruct IX|]. cbn [map] in ND. inversion ND as [|? ? NI ND']; subst.
  destruct IX as [->|IX], IY as [->|IY]; [reflexivity| | |apply IH; assumption].
  - exfalso. apply NI. rewrite E. apply in_map, IY.
  - exfalso. apply NI. rewrite <- E. apply in_map, IX.
Qed.

Lemma inv_load : forall s last r s', inv s last -> button s r -> (forall a, In a (pg_pending s) -> exists o r' q, a = PMore o r' q /\ r' <> r) ->
  do_load r s = Some s' -> inv s' last.
Proof.
  intros s last r s' IV (rs0 & x0 & (VE & ids & VR & FO) & IX & XR & LT) OTH E. destruct IV as [_ V|p _ _ _ _ V|p rs LA LD]; [congruence|congruence|].
  pose proof LD as LD0. destruct LD0 as [F PP OB ID BY RI VI EA PE]. destruct VI as [VI|VI]; [congruence|]. assert (ids = pg_results s) by congruence. subst ids.
  assert (rs0 = rs). { clear - FO OB. unfold at_ in *. revert rs OB. induction FO; intros rs OB; inversion OB; subst; [reflexivity|]. f_equal; [congruence|apply IHFO; assumption]. }
  subst rs0. assert (IR : In r (map r_repo rs)) by (rewrite <- XR; apply in_map, IX).
  destruct (load_sends s p rs r LD IR) as (o & x & req & v & e & s1 & E1 & ES & J & X & SS & GR & GN & PG & WI).
  assert (s1 = s') by congruence. subst s1 s'. apply (inv_loaded _ _ p rs); [exact LA|]. constructor; cbn [pg_params pg_objs pg_results pg_by pg_pending v_results]; try assumption.
  - right; exact VI.
  - rewrite map_app. cbn [map load_repo]. apply NoDup_Add with (a := r) (l := map load_repo (pg_pending s)).
    + rewrite <- (app_nil_r (map load_repo (pg_pending s))) at 1. apply Add_app.
    + split; [exact EA|]. intros I. apply in_map_iff in I. destruct I as (a & E2 & I). destruct (OTH a I) as (o' & r' & q & -> & NE). cbn [load_repo] in E2. congruence.
  - apply Forall_app. split; [exact PE|]. constructor; [|constructor]. exists o, r, req, x, v, e. repeat (split; [assumption || reflexivity|]).
    rewrite WI. destruct RI as (_ & _ & RI). rewrite Forall_forall in RI. specialize (RI x0 IX). rewrite XR in RI. destruct RI as (_ & _ & CT).
    assert (x = x0). { destruct LD as [_ _ _ _ _ (ND & _) _ _ _]. destruct (combine_in _ _ _ _ _ OB J) as (_ & _ & JX). apply (repo_unique rs); [exact ND|exact JX|exact IX|congruence]. }
    subst x0. intros Z. apply (f_equal (@length _)) in Z. rewrite firstn_length, skipn_length in Z. cbn [length] in Z. lia.
Qed.

(** The answer to a load. *)
Lemma answer_found : forall p req r b e v rs st, form p -> same_search req p -> known r -> get_param req n_repos = Some r -> get_param req n_rng = Some v ->
  page v b e -> window b e (files p r) <> [] -> serve req = Results rs st ->
  exists a, find_result rs r = Some a /\ rs_matches a = window b e (files p r).
Proof.
  intros p req r b e v rs st FP SS K GR GN PG NE SV. destruct HON as (SAME & H). specialize (H req (load_limit req p FP SS)). rewrite SV in H. destruct H as (_ & ND & H).
  destruct (H v b e GN PG) as (H1 & H2).
  assert (W : wants known req r).
  { split; [exact K|]. destruct (NAMES r K) as (T & NC). exists r, r. split; [left; exact GR|]. split; [exact T|]. right. split; [exact NC|]. exists [], []. rewrite app_nil_r. auto. }
  assert (I : In r (map fst rs)) by (apply H2; [exact W|rewrite (SAME _ _ r SS); exact NE]).
  clear H2 ND. assert (X : exists a, find_result rs r = Some a /\ In (r, a) rs).
  { clear - I. induction rs as [|(k & a) rs IH]; [destruct I|]. cbn [map fst] in I. cbn [find_result]. destruct (str_eqb k r) eqn:E.
    - apply str_eqb_eq in E. subst k. exists a. split; [reflexivity|left; reflexivity].
    - destruct I as [I|I]; [apply str_eqb_neq in E; congruence|]. destruct (IH I) as (a' & E' & J). exists a'. split; [exact E'|right; exact J]. }
  destruct X as (a & E & J). exists a. split; [exact E|]. destruct (H1 r a J) as (_ & M & _). rewrite M. rewrite (SAME _ _ r SS). reflexivity.
Qed.

(** A load that is answered: there is no exception, and the files follow. *)
Lemma load_answered : forall s p rs before after o r req x v e,
  loaded s p rs -> pg_pending s = before ++ PMore o r req :: after ->
  In (o, x) (combine (pg_results s) rs) -> r_repo x = r -> same_search req p -> get_param req n_repos = Some r -> get_param req n_rng = Some v ->
  page v (Z.of_nat (length (r_matches x))) e -> window (Z.of_nat (length (r_matches x))) e (files p r) <> [] ->
  let rest := mkPage (pg_params s) (pg_objs s) (pg_results s) (pg_by s) (before ++ after) (v_results s) (v_error s) in
  (forall rs' st, serve req = Results rs' st -> exists s' a b y, load_answer o r (serve req) rest = Some s' /\ rs = a ++ x :: b /\
     r_repo y = r /\ r_matches y = r_matches x ++ window (Z.of_nat (length (r_matches x))) e (files p r) /\
     loaded s' p (a ++ y :: b) /\ v_results s' = Some (pg_results s') /\ v_error s' = None).
Proof.
  intros s p rs before after o r req x v e LD PE J X SS GR GN PG NE rest rs' st SV.
  destruct LD as [F PP OB ID BY RI VI EA PO]. destruct (combine_in _ _ _ _ _ OB J) as (A & _ & JX).
  assert (K : known r). { destruct RI as (_ & RI & _). destruct (proj1 (RI r)) as ((K & _) & _); [rewrite <- X; apply in_map, JX|exact K]. }
  destruct (answer_found p req r _ e v rs' st F SS K GR GN PG NE SV) as (ans & FR & M).
  unfold load_answer. rewrite SV, FR. cbn [bind rest pg_objs]. unfold at_ in A. rewrite A. cbn [bind].
  set (y := mkRes (r_repo x) (r_rev x) (r_matches x ++ rs_matches ans) (r_files x)).
  destruct (list_set_some (pg_objs s) o x y A) as (objs & -> & _ & AO & OO). cbn [bind].
  destruct (at_set (pg_objs s) objs (pg_results s) rs o x y OB ID J AO OO) as (a & b & ER & OB' & KEEP).
  exists (mkPage (pg_params s) objs (pg_results s) (pg_by s) (before ++ after) (Some (pg_results s)) None), a, b, y.
  split; [reflexivity|]. split; [exact ER|]. split; [exact X|]. split; [cbn [y r_matches]; rewrite M; reflexivity|]. split; [|split; reflexivity].
  assert (MR : map r_repo (a ++ y :: b) = map r_repo rs) by (rewrite ER, !map_app; reflexivity).
  rewrite PE in EA, PO. rewrite map_app in EA. cbn [map load_repo] in EA.
  constructor; cbn [pg_params pg_objs pg_results pg_by pg_pending v_results]; try assumption.
  - rewrite BY, MR. reflexivity.
  - destruct RI as (ND & RI & FA). split; [rewrite MR; exact ND|]. split; [intros r0; rewrite MR; apply RI|].
    rewrite ER in FA. apply Forall_app in FA. destruct FA as (FA & FB). inversion FB as [|? ? (P0 & N0 & C0) FB']; subst. apply Forall_app. split; [exact FA|]. constructor; [|exact FB'].
    cbn [y r_repo r_matches r_files]. split; [rewrite M; apply window_prefix, P0|]. split; [|exact C0]. intros Z. apply app_eq_nil in Z. apply N0, Z.
  - right; reflexivity.
  - rewrite map_app. apply NoDup_remove_1 in EA. exact EA.
  - apply NoDup_remove_2 in EA. rewrite <- map_app in EA. assert (PO' : Forall (load_ok p (pg_results s) rs) (before ++ after)).
    { apply Forall_app in PO. destruct PO as (P1 & P2). inversion P2; subst. apply Forall_app; auto. }
    rewrite Forall_forall in *. intros c I. destruct (PO' c I) as (o' & r' & req' & x' & v' & e' & -> & J' & X' & REST).
    exists o', r', req', x', v', e'. split; [reflexivity|]. split; [|split; [exact X'|exact REST]]. apply KEEP; [exact J'|]. intros ->.
    apply EA. apply in_map_iff. exists (PMore o r' req'). split; [|exact I]. cbn [load_repo].
    destruct (combine_in _ _ _ _ _ OB J') as (A' & _ & _). unfold at_ in A'. congruence.
Qed.

Lemma loaded_less : forall s p rs before a after err, loaded s p rs -> pg_pending s = before ++ a :: after ->
  loaded (mkPage (pg_params s) (pg_objs s) (pg_results s) (pg_by s) (before ++ after) None err) p rs.
Proof.
  intros s p rs before a after err [F PP OB ID BY RI VI EA PO] PE. rewrite PE in EA, PO. constructor; cbn [pg_params pg_objs pg_results pg_by pg_pending v_results]; try assumption.
  - left; reflexivity.
  - rewrite map_app in *. cbn [map] in EA. apply NoDup_remove_1 in EA. exact EA.
  - apply Forall_app in PO. destruct PO as (P1 & P2). inversion P2; subst. apply Forall_app; auto.
Qed.

Lemma inv_step : forall s last e s', inv s last -> polite serve s e -> page_step locale s e s' -> inv s' (match e with Search p => Some p | _ => last end).
Proof.
  intros s last e s' IV PO ST. inversion ST as [p s1 E|r s1 E|before after a rep s1 PE E]; subst.
  - destruct PO as (P & F1 & F2 & F3 & F4). apply (inv_search p s); [exact P|repeat split; assumption|exact E].
  - destruct PO as (B & O). exact (inv_load s last r s' IV B O E).
  - cbn [polite] in PO. destruct IV as [P V|p LA F PP P V|p rs LA LD].
    + rewrite P in PE. destruct before; discriminate.
    + rewrite P in PE. destruct before as [|b before]; [|destruct before; discriminate]. injection PE as <- <-. cbn [app] in E. subst last.
      refine (first_answer _ p rep s' F _ _ PO E); [exact PP|reflexivity].
    + pose proof (ld_pending _ _ _ LD) as PO'. rewrite PE in PO'. apply Forall_app in PO'. destruct PO' as (_ & PO'). inversion PO' as [|? ? LO _]; subst.
      destruct LO as (o & r & req & x & v & e & -> & J & X & SS & GR & GN & PG & NE). cbn [req_of] in PO. cbn [load_answer] in E. cbv zeta in E.
      destruct rep as [rs' st|msg|].
      * destruct PO as [SV|SV]; [|discriminate]. symmetry in SV.
        destruct (load_answered s p rs before after o r req x v e LD PE J X SS GR GN PG NE rs' st SV) as (s2 & a & b & y & E2 & _ & _ & _ & LD2 & _).
        rewrite SV in E2. assert (s2 = s') by congruence. subst s2. apply (inv_loaded _ _ p (a ++ y :: b)); [reflexivity|exact LD2].
      * cbn [load_answer] in E. destruct msg; [discriminate|]. injection E as <-. apply (inv_loaded _ _ p rs); [reflexivity|]. apply (loaded_less s p rs before _ after _ LD PE).
      * cbn [load_answer] in E. injection E as <-. apply (inv_loaded _ _ p rs); [reflexivity|]. apply (loaded_less s p rs before _ after _ LD PE).
Qed.

Lemma visit_inv : forall s last, visit locale serve s last -> inv s last.
Proof. induction 1 as [|s last e s' V IV PO ST]; [apply inv_none; reflexivity|]. exact (inv_step s last e s' IV PO ST). Qed.

Lemma displayed : forall s p rs rs0, loaded s p rs -> displays s rs0 -> rs0 = rs.
Proof.
  intros s p rs rs0 LD (_ & ids & VR & FO). destruct (ld_view _ _ _ LD) as [V|V]; [congruence|]. assert (ids = pg_results s) by congruence. subst ids.
  pose proof (ld_objs _ _ _ LD) as OB. clear - FO OB. unfold at_ in *. revert rs OB. induction FO; intros rs OB; inversion OB; subst; [reflexivity|]. f_equal; [congruence|apply IHFO; assumption].
Qed.

(** What is on the page. *)
Theorem page_right : forall s last rs, visit locale serve s last -> displays s rs -> exists p, last = Some p /\ right known files p rs.
Proof.
  intros s last rs V D. destruct (visit_inv s last V) as [_ X|p _ _ _ _ X|p rs0 LA LD].
  - destruct D as (_ & ids & Y & _). congruence.
  - destruct D as (_ & ids & Y & _). congruence.
  - exists p. split; [exact LA|]. rewrite (displayed _ _ _ _ LD D). apply (ld_right _ _ _ LD).
Qed.

(** Nothing goes wrong. *)
Theorem page_goes_on : forall s last e, visit locale serve s last -> polite serve s e ->
  (match e with Arrive a _ => In a (pg_pending s) | _ => True end) -> exists s', page_step locale s e s'.
Proof.
  intros s last e V PO I. pose proof (visit_inv s last V) as IV. destruct e as [p|r|a rep].
  - destruct PO as (P & F1 & F2 & F3 & F4).
    assert (Q : get_param (search_params p) n_q = get_param p n_q) by (apply search_get; discriminate).
    assert (X : exists s', do_search p s = Some s').
    { unfold do_search. rewrite Q. change (text "q") with n_q in F3. destruct (get_param p n_q) as [[|c q]|]; [congruence| |]; eauto. }
    destruct X as (s' & X). exists s'. constructor. exact X.
  - destruct PO as ((rs0 & x0 & D & IX & XR & LT) & OTH). destruct IV as [_ X|p _ _ _ _ X|p rs LA LD]; [destruct D as (_ & ids & Y & _); congruence|destruct D as (_ & ids & Y & _); congruence|].
    rewrite (displayed _ _ _ _ LD D) in IX. destruct (load_sends s p rs r LD) as (o & x & req & v & e & s' & E & _); [rewrite <- XR; apply in_map, IX|].
    exists s'. constructor. exact E.
  - apply in_split in I. destruct I as (before & after & PE). cbn [polite] in PO.
    destruct IV as [P X|p LA F PP P X|p rs LA LD].
    + rewrite P in PE. destruct before; discriminate.
    + rewrite P in PE. destruct before as [|b before]; [|destruct before; discriminate]. injection PE as <- <-. cbn [req_of] in PO.
      assert (X' : exists s', search_answer locale rep (mkPage (pg_params s) (pg_objs s) (pg_results s) (pg_by s) [] (v_results s) (v_error s)) = Some s').
      { unfold search_answer. destruct rep as [rs st|msg|]; [| |eauto].
        - destruct PO as [SV|]; [|discriminate]. destruct HON as (_ & H). specialize (H (search_params p) (search_limit p F)). rewrite <- SV in H. destruct H as (ST & _).
          rewrite (ST fosho); [eauto|apply (search_fixed p F)|]. unfold yes. right. right. repeat constructor; left; reflexivity.
        - destruct PO as [SV|]; [|discriminate]. destruct HON as (_ & H). specialize (H (search_params p) (search_limit p F)). rewrite <- SV in H. destruct msg; [congruence|eauto]. }
      destruct X' as (s' & X'). exists s'. apply (ps_arrive _ _ [] []); [exact P|exact X'].
    + pose proof (ld_pending _ _ _ LD) as PO'. rewrite PE in PO'. apply Forall_app in PO'. destruct PO' as (_ & PO'). inversion PO' as [|? ? LO _]; subst.
      destruct LO as (o & r & req & x & v & e & -> & J & X & SS & GR & GN & PG & NE). cbn [req_of] in PO.
      assert (X' : exists s', load_answer o r rep (mkPage (pg_params s) (pg_objs s) (pg_results s) (pg_by s) (before ++ after) (v_results s) (v_error s)) = Some s').
      { destruct rep as [rs' st|msg|].
        - destruct PO as [SV|SV]; [|discriminate]. symmetry in SV.
          destruct (load_answered s p rs before after o r req x v e LD PE J X SS GR GN PG NE rs' st SV) as (s2 & a & b & y & E2 & _). rewrite SV in E2. exists s2. exact E2.
        - destruct PO as [SV|]; [|discriminate]. destruct HON as (_ & H). specialize (H req (load_limit req p (ld_form _ _ _ LD) SS)). rewrite <- SV in H. cbn [load_answer]. destruct msg; [congruence|eauto].
        - cbn [load_answer]. eauto. }
      destruct X' as (s' & X'). exists s'. apply (ps_arrive _ _ before after); [exact PE|exact X'].
Qed.

(** A page more. *)
Lemma more : forall s last p rs x r, visit locale serve s last -> last = Some p -> displays s rs -> pg_pending s = [] -> In x rs -> r_repo x = r ->
  length (r_matches x) < length (files p r) -> (forall req, same_search req p -> exists rs' st, serve req = Results rs' st) ->
  exists a s1 s2 rs' y, page_step locale s (LoadMore r) s1 /\ page_step locale s1 (Arrive a (serve (req_of a))) s2 /\
    visit locale serve s2 last /\ displays s2 rs' /\ pg_pending s2 = [] /\ In y rs' /\ r_repo y = r /\
    r_matches y = firstn (length (r_matches x) + 2000) (files p r) /\ (forall z, In z rs -> r_repo z <> r -> In z rs').
Proof.
  intros s last p rs x r V LA D PE IX XR LT ANS. subst last. pose proof (visit_inv s _ V) as IV.
  destruct IV as [_ X|p' _ _ _ _ X|p' rs0 LA LD]; [destruct D as (_ & ids & Y & _); congruence|destruct D as (_ & ids & Y & _); congruence|].
  injection LA as <-. pose proof (displayed _ _ _ _ LD D). subst rs0.
  assert (IR : In r (map r_repo rs)) by (rewrite <- XR; apply in_map, IX).
  pose proof (ld_right _ _ _ LD) as (ND & _ & RI). rewrite Forall_forall in RI. pose proof (RI x IX) as (PX & _ & CX). rewrite XR in PX, CX.
  assert (PO : polite serve s (LoadMore r)).
  { split; [exists rs, x; rewrite CX; repeat split; try assumption; [apply D|apply D|lia]|]. rewrite PE. intros a []. }
  destruct (page_goes_on s _ _ V PO I) as (s1 & ST). pose proof (vi_step _ _ _ _ _ _ V PO ST) as V1. cbn in V1.
  destruct (load_sends s p rs r LD IR) as (o & x' & req & v & e & s1' & E & ES & J & X & SS & GR & GN & PG & WI).
  assert (x' = x). { destruct (combine_in _ _ _ _ _ (ld_objs _ _ _ LD) J) as (_ & _ & JX). apply (repo_unique rs); [exact ND|exact JX|exact IX|congruence]. } subst x'.
  assert (Q : s1' = s1) by (inversion ST; congruence). rewrite Q in E, ES. clear Q s1'.
  assert (LD1 : loaded s1 p rs).
  { pose proof (inv_load s (Some p) r s1 (inv_loaded _ _ p rs eq_refl LD) (proj1 PO) (proj2 PO) E) as IV1. destruct D as (VE & ids & VR & FO).
    destruct IV1 as [_ X1|p1 _ _ _ _ X1|p1 rs1 LA1 LD1]; [subst s1; cbn in X1; congruence|subst s1; cbn in X1; congruence|].
    injection LA1 as <-. assert (rs = rs1); [|congruence]. apply (displayed s1 p rs1); [exact LD1|]. subst s1. split; [exact VE|]. exists ids. split; [exact VR|exact FO]. }
  assert (P1 : pg_pending s1 = [] ++ PMore o r req :: []) by (subst s1; cbn [pg_pending]; rewrite PE; reflexivity).
  assert (NE : window (Z.of_nat (length (r_matches x))) e (files p r) <> []) by (apply window_some; lia).
  destruct (ANS req SS) as (rs' & st & SV).
  assert (J1 : In (o, x) (combine (pg_results s1) rs)) by (subst s1; exact J).
  destruct (load_answered s1 p rs [] [] o r req x v e LD1 P1 J1 X SS GR GN PG NE rs' st SV) as (s2 & a & b & y & E2 & ER & YR & YM & LD2 & V2 & VE2).
  exists (PMore o r req), s1, s2, (a ++ y :: b), y. split; [exact ST|].
  assert (ST2 : page_step locale s1 (Arrive (PMore o r req) (serve req)) s2) by (apply (ps_arrive _ _ [] []); [exact P1|exact E2]).
  split; [exact ST2|]. split; [exact (vi_step _ _ s1 _ (Arrive (PMore o r req) (serve req)) s2 V1 (or_introl eq_refl) ST2)|].
  split; [split; [exact VE2|]; exists (pg_results s2); split; [exact V2|apply (ld_objs _ _ _ LD2)]|].
  split. { clear - E2 SV. unfold load_answer in E2. rewrite SV in E2. destruct (find_result rs' r); [|discriminate]. cbn [bind pg_objs] in E2. destruct (nth_error _ o); [|discriminate]. cbn [bind] in E2.
    destruct (list_set _ _ _); [|discriminate]. cbn [bind] in E2. injection E2 as <-. reflexivity. }
  split; [apply in_elt|]. split; [exact YR|]. split.
  - rewrite YM, WI. destruct PX as (c & ->). rewrite skipn_app, skipn_all, Nat.sub_diag. cbn [skipn app]. rewrite firstn_app_2. reflexivity.
  - intros z IZ NZ. rewrite ER in IZ. apply in_app_iff in IZ. apply in_app_iff. destruct IZ as [IZ|[IZ|IZ]]; [left; exact IZ|congruence|right; right; exact IZ].
Qed.

(** All of it. *)
Lemma goes_trans : forall s s1 s2, goes serve locale s s1 -> goes serve locale s1 s2 -> goes serve locale s s2.
Proof. intros s s1 s2 H1 H2. induction H2 as [|s3 e s4 H IH PO NS ST]; [exact H1|]. exact (go_on _ _ _ _ _ _ IH PO NS ST). Qed.

Lemma repo_loaded : forall s p rs x, visit locale serve s (Some p) -> displays s rs -> pg_pending s = [] -> In x rs ->
  (forall req, same_search req p -> exists rs' st, serve req = Results rs' st) ->
  exists s' rs' y, goes serve locale s s' /\ displays s' rs' /\ In y rs' /\ r_repo y = r_repo x /\ r_matches y = files p (r_repo x) /\
    visit locale serve s' (Some p) /\ pg_pending s' = [] /\ (forall z, In z rs -> r_repo z <> r_repo x -> In z rs').
Proof.
  intros s p rs x V D PE IX ANS. set (r := r_repo x). assert (XR : r_repo x = r) by reflexivity. clearbody r.
  remember (length (files p r) - length (r_matches x)) as n eqn:EN. revert s rs x V D PE IX XR EN.
  induction n as [n IH] using (well_founded_induction Wf_nat.lt_wf). intros s rs x V D PE IX XR EN.
  destruct (page_right s _ rs V D) as (p' & EP & RI). injection EP as <-. destruct RI as (_ & _ & RI). rewrite Forall_forall in RI.
  pose proof (RI x IX) as (PX & _ & CX). rewrite XR in PX, CX.
  destruct (Nat.lt_ge_cases (length (r_matches x)) (length (files p r))) as [LT|GE].
  - destruct (more s (Some p) p rs x r V eq_refl D PE IX XR LT ANS) as (a & s1 & s2 & rs' & y & ST1 & ST2 & V2 & D2 & P2 & IY & YR & YM & KE).
    destruct (IH (length (files p r) - length (r_matches y))) with (s := s2) (rs := rs') (x := y) as (s3 & rs3 & z & G & D3 & IZ & ZR & ZM & V3 & P3 & K3); try assumption; [|reflexivity|].
    + rewrite YM, firstn_length. lia.
    + exists s3, rs3, z. split; [|repeat (split; [assumption|]); intros u IU NU; apply K3; [apply KE|]; assumption]. apply (goes_trans s s2); [|exact G].
      apply (go_on _ _ s s1 (Arrive a (serve (req_of a)))); [|left; reflexivity|intros q; discriminate|exact ST2].
      apply (go_on _ _ s s (LoadMore r)); [constructor| |intros q; discriminate|exact ST1].
      split; [exists rs, x; rewrite CX; split; [exact D|]; split; [exact IX|]; split; [exact XR|lia]|]. rewrite PE. intros b [].
  - exists s, rs, x. split; [constructor|]. split; [exact D|]. split; [exact IX|]. split; [exact XR|]. split; [|auto].
    destruct PX as (c & E). rewrite E in GE |- *. rewrite app_length in GE. assert (c = []) by (destruct c; [reflexivity|cbn [length] in GE; lia]). subst c. rewrite app_nil_r. reflexivity.
Qed.
Theorem all_of_it : forall s p rs x, visit locale serve s (Some p) -> displays s rs -> pg_pending s = [] -> In x rs ->
  (forall req, same_search req p -> exists rs' st, serve req = Results rs' st) ->
  exists s' rs' y, goes serve locale s s' /\ displays s' rs' /\ In y rs' /\ r_repo y = r_repo x /\ r_matches y = files p (r_repo x).
Proof.
  intros s p rs x V D PE IX ANS. destruct (repo_loaded s p rs x V D PE IX ANS) as (s' & rs' & y & A & B & C & E & F & _). exists s', rs', y. auto.
Qed.

(** Of every repository. *)
Lemma repos_loaded : forall p L s rs, visit locale serve s (Some p) -> displays s rs -> pg_pending s = [] ->
  (forall req, same_search req p -> exists rs' st, serve req = Results rs' st) ->
  (forall x, In x rs -> In (r_repo x) L \/ r_matches x = files p (r_repo x)) ->
  exists s' rs', goes serve locale s s' /\ displays s' rs' /\ visit locale serve s' (Some p) /\ Forall (fun x => r_matches x = files p (r_repo x)) rs'.
Proof.
  intros p. induction L as [|r L IH]; intros s rs V D PE ANS H.
  - exists s, rs. split; [constructor|]. split; [exact D|]. split; [exact V|]. apply Forall_forall. intros x I. destruct (H x I) as [[]|X]. exact X.
  - destruct (in_dec (list_eq_dec N.eq_dec) r (map r_repo rs)) as [I|NI].
    + apply in_map_iff in I. destruct I as (x & XR & IX).
      destruct (repo_loaded s p rs x V D PE IX ANS) as (s1 & rs1 & y & G & D1 & IY & YR & YM & V1 & P1 & KE).
      destruct (page_right s _ rs V D) as (p' & EP & _ & IN & _). injection EP as <-. destruct (page_right s1 _ rs1 V1 D1) as (p' & EP & ND1 & IN1 & _). injection EP as <-.
      destruct (IH s1 rs1 V1 D1 P1 ANS) as (s2 & rs2 & G2 & R2).
      { intros z IZ. destruct (list_eq_dec N.eq_dec (r_repo z) r) as [ZR|ZR].
        - right. assert (z = y) by (apply (repo_unique rs1); congruence || assumption). subst z. rewrite YM, YR. reflexivity.
        - assert (X : In (r_repo z) (map r_repo rs)) by (apply IN, IN1, in_map, IZ). apply in_map_iff in X. destruct X as (z0 & Z0 & I0).
          assert (I1 : In z0 rs1) by (apply KE; [exact I0|congruence]).
          assert (z0 = z) by (apply (repo_unique rs1); assumption). subst z0. destruct (H z I0) as [[X|X]|X]; [congruence|left; exact X|right; exact X]. }
      exists s2, rs2. split; [exact (goes_trans _ _ _ G G2)|exact R2].
    + apply (IH s rs V D PE ANS). intros x I. destruct (H x I) as [[X|X]|X]; [|left; exact X|right; exact X].
      exfalso. apply NI. rewrite X. apply in_map, I.
Qed.
Theorem all_of_all : forall s p rs, visit locale serve s (Some p) -> displays s rs -> pg_pending s = [] ->
  (forall req, same_search req p -> exists rs' st, serve req = Results rs' st) ->
  exists s' rs', goes serve locale s s' /\ displays s' rs' /\ visit locale serve s' (Some p) /\ Forall (fun x => r_matches x = files p (r_repo x)) rs'.
Proof. intros s p rs V D PE ANS. apply (repos_loaded p (map r_repo rs) s rs V D PE ANS). intros x I. left. apply in_map, I. Qed.

(** From the search on. *)
Theorem searched : forall s last p, visit locale serve s last -> polite serve s (Search p) ->
  (forall req, same_search req p -> exists rs st, serve req = Results rs st) ->
  exists s1 s2 rs, page_step locale s (Search p) s1 /\ goes serve locale s1 s2 /\ visit locale serve s2 (Some p) /\ displays s2 rs /\ pg_pending s2 = [].
Proof.
  intros s last p V PO ANS. pose proof PO as (PE & F1 & F2 & F3 & F4). assert (F : form p) by (repeat split; assumption).
  destruct (page_goes_on s last _ V PO I) as (s1 & ST). pose proof (vi_step _ _ _ _ _ _ V PO ST) as V1. cbn beta iota in V1.
  assert (X : pg_pending s1 = [PSearch (search_params p)]).
  { inversion ST as [p0 s0 E| |]; subst. unfold do_search in E. destruct (get_param (search_params p) n_q) as [[|c q]|]; [discriminate| |]; injection E as <-; cbn [pg_pending]; rewrite PE; reflexivity. }
  assert (PA : polite serve s1 (Arrive (PSearch (search_params p)) (serve (search_params p)))) by (left; reflexivity).
  assert (IA : In (PSearch (search_params p)) (pg_pending s1)) by (rewrite X; left; reflexivity).
  destruct (page_goes_on s1 _ _ V1 PA IA) as (s2 & ST2). pose proof (vi_step _ _ _ _ _ _ V1 PA ST2) as V2. cbn beta iota in V2.
  destruct (ANS (search_params p)) as (rs & st & SV); [apply search_same|].
  assert (Y : pg_pending s2 = [] /\ v_error s2 = None /\ exists ids, v_results s2 = Some ids).
  { inversion ST2 as [| |before after a rep s0 PE2 E]; subst. rewrite X in PE2. destruct before as [|b before]; [|destruct before; discriminate]. injection PE2 as <-.
    cbn [app] in E. rewrite SV in E. unfold search_answer in E. destruct st; [|discriminate]. injection E as <-. cbn [pg_pending v_error v_results]. eauto. }
  destruct Y as (Y1 & Y2 & ids & Y3).
  pose proof (visit_inv s2 _ V2) as IV. destruct IV as [_ Z|p' _ _ _ _ Z|p' rs' LA LD]; [congruence|congruence|].
  exists s1, s2, rs'. split; [exact ST|]. split; [apply (go_on _ _ s1 s1 (Arrive (PSearch (search_params p)) (serve (search_params p)))); [constructor|exact PA|discriminate|exact ST2]|].
  split; [exact V2|]. split; [|exact Y1]. split; [exact Y2|]. exists (pg_results s2). destruct (ld_view _ _ _ LD) as [Z|Z]; [congruence|]. split; [exact Z|exact (ld_objs _ _ _ LD)].
Qed.
(** Everything there is can be brought on the page. *)
Theorem searched_all : forall s last p, visit locale serve s last -> polite serve s (Search p) ->
  (forall req, same_search req p -> exists rs st, serve req = Results rs st) ->
  exists s1 s2 rs, page_step locale s (Search p) s1 /\ goes serve locale s1 s2 /\ visit locale serve s2 (Some p) /\ displays s2 rs /\
    Forall (fun x => r_matches x = files p (r_repo x) /\ r_files x = Z.of_nat (length (r_matches x))) rs.
Proof.
  intros s last p V PO ANS. destruct (searched s last p V PO ANS) as (s1 & s2 & rs & ST & G & V2 & D2 & P2).
  destruct (all_of_all s2 p rs V2 D2 P2 ANS) as (s3 & rs3 & G3 & D3 & V3 & FA). exists s1, s3, rs3. split; [exact ST|]. split; [exact (goes_trans _ _ _ G G3)|].
  split; [exact V3|]. split; [exact D3|]. destruct (page_right s3 _ rs3 V3 D3) as (p' & EP & _ & _ & RI). injection EP as <-.
  rewrite Forall_forall in *. intros x I. split; [exact (FA x I)|]. rewrite (FA x I). apply RI, I.
Qed.
End Server.
