(** Lemmas about what is open on the page (Model/PageOpen.v). *)
From Coq Require Import Lia PeanoNat.
From Verif Require Import Model.Base Model.Search Model.PageState Model.PageOpen Spec.LoadSpec Spec.OpenSpec.
Local Open Scope nat_scope.

(** ** Components of a list *)
Lemma change_length : forall {A} (f : A -> A) l i, length (change f l i) = length l.
Proof. induction l as [|x l IH]; intros [|i]; cbn [change length]; auto. Qed.
Lemma change_nth : forall {A} (f : A -> A) l i j, nth_error (change f l i) j = if Nat.eqb i j then option_map f (nth_error l j) else nth_error l j.
Proof.
  induction l as [|x l IH]; intros i j.
  - destruct i, j; cbn [change nth_error option_map]; destruct (Nat.eqb _ _); reflexivity.
  - destruct i, j; cbn [change nth_error option_map Nat.eqb]; try reflexivity. apply IH.
Qed.
Lemma files_view_length : forall ms old, length (files_view old ms) = length ms.
Proof. induction ms as [|m ms IH]; intros [|o os]; cbn [files_view length]; auto. Qed.
Lemma files_view_nth : forall ms old i m, nth_error ms i = Some m ->
  nth_error (files_view old ms) i = Some match nth_error old i with Some b => b | None => negb (fm_auto m) end.
Proof.
  induction ms as [|m ms IH]; intros old i m' H; [destruct i; discriminate|]. destruct i as [|i].
  - destruct old; cbn [files_view nth_error] in *; congruence.
  - destruct old as [|o os]; cbn [files_view nth_error] in *; rewrite (IH _ _ _ H); [destruct i|]; reflexivity.
Qed.
Lemma repos_view_length : forall rs old, length (repos_view old rs) = length rs.
Proof. induction rs as [|x rs IH]; intros [|o os]; cbn [repos_view length]; auto. Qed.
Lemma repos_view_nth : forall rs old r x, nth_error rs r = Some x ->
  nth_error (repos_view old rs) r =
  Some match nth_error old r with
       | Some o => mkView (rv_open o) (files_view (rv_files o) (r_matches x))
       | None => mkView true (files_view [] (r_matches x)) end.
Proof.
  induction rs as [|x rs IH]; intros old r x' H; [destruct r; discriminate|]. destruct r as [|r].
  - destruct old; cbn [repos_view nth_error] in *; congruence.
  - destruct old as [|o os]; cbn [repos_view nth_error] in *; rewrite (IH _ _ _ H); [destruct r|]; reflexivity.
Qed.

(** ** What is on the page *)
Definition ids_ok (s : pstate) : Prop :=
  Forall (fun i => i < length (pg_objs s)) (pg_results s) /\ (v_results s = None \/ v_results s = Some (pg_results s)).
Lemma list_set_length : forall {A} (l l' : list A) i x, list_set l i x = Some l' -> length l' = length l.
Proof.
  induction l as [|y l IH]; intros l' i x H; [destruct i; discriminate|]. destruct i; cbn [list_set] in H.
  - injection H as <-. reflexivity.
  - destruct (list_set l i x) eqn:E; [|discriminate]. cbn [bind] in H. injection H as <-. cbn [length]. erewrite IH; eauto.
Qed.
Lemma list_set_nth : forall {A} (l l' : list A) i x j, list_set l i x = Some l' -> nth_error l' j = if Nat.eqb i j then Some x else nth_error l j.
Proof.
  induction l as [|y l IH]; intros l' i x j H; [destruct i; discriminate|]. destruct i; cbn [list_set] in H.
  - injection H as <-. destruct j; reflexivity.
  - destruct (list_set l i x) eqn:E; [|discriminate]. cbn [bind] in H. injection H as <-. destruct j; [reflexivity|].
    cbn [nth_error Nat.eqb]. eapply IH; eauto.
Qed.
Lemma seq_lt : forall n a m, a + n <= m -> Forall (fun i => i < m) (seq a n).
Proof. intros. apply Forall_forall. intros x I. apply in_seq in I. lia. Qed.
Lemma search_ok : forall locale rep s s', ids_ok s -> search_answer locale rep s = Some s' -> ids_ok s'.
Proof.
  intros locale rep s s' [OK V] H. destruct rep as [rs stats|msg|]; cbn [search_answer] in H.
  - destruct stats; [|discriminate]. injection H as <-. split; cbn; [|auto]. apply seq_lt. rewrite app_length. lia.
  - destruct msg; [discriminate|]. injection H as <-. split; cbn; auto.
  - injection H as <-. split; cbn; auto.
Qed.
Lemma load_ok : forall obj repo rep s s', ids_ok s -> load_answer obj repo rep s = Some s' -> ids_ok s'.
Proof.
  intros obj repo rep s s' [OK V] H. destruct rep as [rs stats|msg|]; cbn [load_answer] in H.
  - destruct (find_result rs repo); [|discriminate]. cbn [bind] in H. destruct (nth_error (pg_objs s) obj) eqn:N; [|discriminate]. cbn [bind] in H.
    destruct (list_set _ _ _) eqn:L; [|discriminate]. cbn [bind] in H. injection H as <-. split; cbn; [|auto].
    rewrite (list_set_length _ _ _ _ L). exact OK.
  - destruct msg; [discriminate|]. injection H as <-. split; cbn; auto.
  - injection H as <-. split; cbn; auto.
Qed.
Lemma step_ok : forall locale s e s', ids_ok s -> page_step locale s e s' -> ids_ok s'.
Proof.
  intros locale s e s' [OK V] ST. destruct ST as [p s' H|repo s' H|before after a rep s' P H].
  - unfold do_search in H. destruct (get_param _ n_q) as [[|]|]; try discriminate; injection H as <-; split; cbn; auto.
  - unfold do_load in H. destruct (by_repo _ _); [|discriminate]. cbn [bind] in H. destruct (nth_error _ _); [|discriminate]. cbn [bind] in H.
    injection H as <-. split; cbn; auto.
  - destruct a; [eapply search_ok|eapply load_ok]; try exact H; split; cbn; auto.
Qed.
Lemma objects_all : forall objs ids, Forall (fun i => i < length objs) ids -> Forall2 (fun id x => nth_error objs id = Some x) ids (objects objs ids).
Proof.
  induction ids as [|i r IH]; intros F; cbn [objects]; [constructor|]. pose proof (Forall_inv F) as L. cbv beta in L.
  destruct (nth_error objs i) eqn:N; [|apply nth_error_None in N; lia]. constructor; [exact N|]. apply IH. exact (Forall_inv_tail F).
Qed.
Lemma objects_only : forall objs ids rs, Forall2 (fun id x => nth_error objs id = Some x) ids rs -> objects objs ids = rs.
Proof. induction 1 as [|i x ids rs N F IH]; cbn [objects]; [reflexivity|]. rewrite N, IH. reflexivity. Qed.
Lemma displays_shown : forall s rs, displays s rs -> shown s = rs.
Proof. intros s rs (E & ids & V & F). unfold shown. rewrite E, V. exact (objects_only _ _ _ F). Qed.
Lemma shown_displays : forall s, ids_ok s -> shown s <> [] -> displays s (shown s).
Proof.
  intros s [OK V] NE. unfold shown in *. destruct (v_error s) eqn:E; [contradiction|]. destruct (v_results s) as [ids|] eqn:R; [|contradiction].
  split; [exact E|]. exists ids. split; [exact R|]. apply objects_all. destruct V as [V|V]; congruence.
Qed.
Lemma on_page_shown : forall s r i x m, ids_ok s ->
  (on_page s r i x m <-> nth_error (shown s) r = Some x /\ nth_error (r_matches x) i = Some m).
Proof.
  intros s r i x m OK. split.
  - intros (rs & D & A & B). rewrite (displays_shown _ _ D). auto.
  - intros [A B]. exists (shown s). split; [|auto]. apply shown_displays; [exact OK|]. intros E. rewrite E in A. destruct r; discriminate.
Qed.

(** ** The components are as many as there are results *)
Definition fits (s : pstate) (t : tree) : Prop :=
  map (fun v => length (rv_files v)) t = map (fun x => length (r_matches x)) (shown s).
Lemma render_fits : forall s t, fits s (render s t).
Proof.
  intros s t. unfold fits, render. generalize (shown s) as rs, t as old. clear.
  induction rs as [|x rs IH]; intros [|o os]; cbn [repos_view map rv_files]; try reflexivity; rewrite files_view_length, IH; reflexivity.
Qed.
Lemma map_change : forall {A B} (g : A -> B) (f : A -> A) l i, (forall x, g (f x) = g x) -> map g (change f l i) = map g l.
Proof. induction l as [|x l IH]; intros [|i] H; cbn [change map]; auto; [rewrite H; reflexivity|rewrite IH; auto]. Qed.
Lemma apply_sizes : forall u t, map (fun v => length (rv_files v)) (apply u t) = map (fun v => length (rv_files v)) t.
Proof. intros [r b|r i b] t; cbn [apply]; apply map_change; intros x; cbn [rv_files]; auto. apply change_length. Qed.
Lemma apply_all_sizes : forall us t, map (fun v => length (rv_files v)) (apply_all us t) = map (fun v => length (rv_files v)) t.
Proof. induction us as [|u us IH]; intros t; [reflexivity|]. cbn [apply_all fold_left]. change (fold_left _ us (apply u t)) with (apply_all us (apply u t)). rewrite IH. apply apply_sizes. Qed.
Lemma opened_ok : forall locale w, opened locale w -> ids_ok (fst w) /\ fits (fst w) (snd w).
Proof.
  intros locale w O. induction O as [|w d w' O IH ST].
  - split; [split; [constructor|left; reflexivity]|reflexivity].
  - destruct IH as [OK F]. destruct ST as [s t e s' P|s t c]; cbn [fst snd] in *.
    + split; [exact (step_ok _ _ _ _ OK P)|apply render_fits].
    + split; [exact OK|]. unfold fits, clicked. rewrite apply_all_sizes. exact F.
Qed.
Lemma fits_repo : forall s t r, fits s t -> (exists v, nth_error t r = Some v) <-> (exists x, nth_error (shown s) r = Some x).
Proof.
  intros s t r F. assert (L : length t = length (shown s)) by (apply (f_equal (@length nat)) in F; rewrite !map_length in F; exact F).
  split; intros [v H]; assert (R : r < length t) by (first [apply nth_error_Some; congruence|rewrite L; apply nth_error_Some; congruence]).
  - destruct (nth_error (shown s) r) eqn:E; [eauto|]. apply nth_error_None in E. lia.
  - destruct (nth_error t r) eqn:E; [eauto|]. apply nth_error_None in E. lia.
Qed.
Lemma fits_len : forall s t r v x, fits s t -> nth_error t r = Some v -> nth_error (shown s) r = Some x -> length (rv_files v) = length (r_matches x).
Proof.
  intros s t r v x F A B. assert (H : nth_error (map (fun v => length (rv_files v)) t) r = nth_error (map (fun x => length (r_matches x)) (shown s)) r) by (unfold fits in F; rewrite F; reflexivity).
  rewrite (map_nth_error _ _ _ A), (map_nth_error _ _ _ B) in H. congruence.
Qed.
Theorem shape : forall locale s t r i, opened locale (s, t) -> (exists x m, on_page s r i x m) <-> (exists b, file_is t r i b).
Proof.
  intros locale s t r i O. destruct (opened_ok _ _ O) as [OK F]. cbn [fst snd] in *. split.
  - intros (x & m & P). apply (on_page_shown _ _ _ _ _ OK) in P. destruct P as [A B]. destruct (proj2 (fits_repo s t r F)) as [v V]; [eauto|].
    assert (L : i < length (rv_files v)) by (rewrite (fits_len _ _ _ _ _ F V A); apply nth_error_Some; congruence).
    destruct (nth_error (rv_files v) i) eqn:E; [|apply nth_error_None in E; lia]. exists b, v. auto.
  - intros (b & v & V & B). destruct (proj1 (fits_repo s t r F)) as [x X]; [eauto|].
    assert (L : i < length (r_matches x)) by (rewrite <- (fits_len _ _ _ _ _ F V X); apply nth_error_Some; congruence).
    destruct (nth_error (r_matches x) i) eqn:E; [|apply nth_error_None in E; lia]. exists x, f. apply on_page_shown; auto.
Qed.

(** ** A step of the page *)
Theorem rendered : forall locale s t e s' t' r i x m, opened locale (s, t) -> open_step locale (s, t) (Page e) (s', t') -> on_page s' r i x m ->
  (forall b, file_is t r i b -> file_is t' r i b) /\ (nothing_at s r i -> file_is t' r i (negb (fm_auto m))).
Proof.
  intros locale s t e s' t' r i x m O ST P. destruct (opened_ok _ _ O) as [OK F]. cbn [fst snd] in *.
  assert (PS : page_step locale s e s') by (inversion ST; subst; assumption).
  pose proof (step_ok _ _ _ _ OK PS) as OK'. inversion ST; subst; clear PS. apply (on_page_shown _ _ _ _ _ OK') in P. destruct P as [A B].
  pose proof (repos_view_nth _ t _ _ A) as R. split.
  - intros b (v & V & W). rewrite V in R. eexists. split; [exact R|]. cbn [rv_files]. rewrite (files_view_nth _ _ _ _ B), W. reflexivity.
  - intros NO. destruct (nth_error t r) as [o|] eqn:V.
    + eexists. split; [exact R|]. cbn [rv_files]. rewrite (files_view_nth _ _ _ _ B). destruct (nth_error (rv_files o) i) as [b|] eqn:W; [|reflexivity].
      exfalso. destruct (proj2 (shape _ _ _ r i O)) as (x' & m' & P'); [exists b, o; auto|]. exact (NO _ _ P').
    + eexists. split; [exact R|]. cbn [rv_files]. rewrite (files_view_nth _ _ _ _ B). destruct i; reflexivity.
Qed.
Theorem repo_rendered : forall locale s t e s' t' r, open_step locale (s, t) (Page e) (s', t') -> (exists b, repo_is t' r b) ->
  (forall b, repo_is t r b -> repo_is t' r b) /\ ((forall b, ~ repo_is t r b) -> repo_is t' r true).
Proof.
  intros locale s t e s' t' r ST (b' & v' & V' & _). inversion ST; subst. unfold render in *.
  destruct (nth_error (shown s') r) as [x|] eqn:X.
  2:{ apply nth_error_None in X. rewrite <- (repos_view_length _ t) in X. apply nth_error_None in X. congruence. }
  pose proof (repos_view_nth _ t _ _ X) as R. split.
  - intros b (v & V & W). rewrite V in R. eexists. split; [exact R|]. exact W.
  - intros NO. destruct (nth_error t r) as [o|] eqn:V; [exfalso; apply (NO (rv_open o)); exists o; auto|]. eexists. split; [exact R|reflexivity].
Qed.

(** ** Clicks *)
Definition set_of (u : update) (r : nat) : option bool := match u with SetRepo r' b => if Nat.eqb r' r then Some b else None | _ => None end.
Lemma apply_repo : forall u t r, nth_error (apply u t) r =
  option_map (fun v => match u with
    | SetRepo r' b => if Nat.eqb r' r then mkView b (rv_files v) else v
    | SetFile r' i b => if Nat.eqb r' r then mkView (rv_open v) (change (fun _ => b) (rv_files v) i) else v end) (nth_error t r).
Proof.
  intros [r' b|r' i b] t r; cbn [apply]; rewrite change_nth; destruct (Nat.eqb r' r), (nth_error t r); reflexivity.
Qed.
Definition targets (u : update) : nat := match u with SetRepo r _ => r | SetFile r _ _ => r end.
Lemma apply_other : forall us t r, Forall (fun u => targets u <> r) us -> nth_error (apply_all us t) r = nth_error t r.
Proof.
  induction us as [|u us IH]; intros t r F; [reflexivity|]. change (apply_all (u :: us) t) with (apply_all us (apply u t)).
  rewrite (IH _ _ (Forall_inv_tail F)), apply_repo. pose proof (Forall_inv F) as T. cbv beta in T.
  destruct u as [r' b|r' i b]; cbn [targets] in T; apply Nat.eqb_neq in T; rewrite T; destruct (nth_error t r); reflexivity.
Qed.
Lemma apply_app : forall us vs t, apply_all (us ++ vs) t = apply_all vs (apply_all us t).
Proof. intros. unfold apply_all. apply fold_left_app. Qed.
Lemma change_same : forall {A} (b : A) l i j, nth_error (change (fun _ => b) l i) j = if Nat.eqb i j then match nth_error l j with Some _ => Some b | None => None end else nth_error l j.
Proof. intros. rewrite change_nth. destruct (Nat.eqb i j), (nth_error l j); reflexivity. Qed.
(** All files of a repository, then the repository. *)
Lemma set_files : forall n a t r v b, nth_error t r = Some v ->
  exists v', nth_error (apply_all (map (fun i => SetFile r i b) (seq a n)) t) r = Some v' /\ rv_open v' = rv_open v /\ length (rv_files v') = length (rv_files v) /\
  forall i, i < length (rv_files v) -> nth_error (rv_files v') i = if (a <=? i) && (i <? a + n) then Some b else nth_error (rv_files v) i.
Proof.
  induction n as [|n IH]; intros a t r v b V.
  - exists v. split; [exact V|]. split; [reflexivity|]. split; [reflexivity|]. intros i L.
    destruct (a <=? i) eqn:X, (i <? a + 0) eqn:Y; try reflexivity. apply Nat.leb_le in X. apply Nat.ltb_lt in Y. lia.
  - cbn [seq map]. change (apply_all (SetFile r a b :: map (fun i => SetFile r i b) (seq (S a) n)) t) with (apply_all (map (fun i => SetFile r i b) (seq (S a) n)) (apply (SetFile r a b) t)).
    destruct (IH (S a) (apply (SetFile r a b) t) r (mkView (rv_open v) (change (fun _ => b) (rv_files v) a)) b) as (v' & A & B & C & D).
    { rewrite apply_repo, V. cbn [option_map]. rewrite Nat.eqb_refl. reflexivity. }
    cbn [rv_open rv_files] in *. rewrite change_length in C. exists v'. split; [exact A|]. split; [exact B|]. split; [exact C|].
    intros i L. rewrite D by (rewrite change_length; exact L). rewrite change_same.
    destruct (S a <=? i) eqn:X, (i <? S a + n) eqn:Y, (a <=? i) eqn:X', (i <? a + S n) eqn:Y', (Nat.eqb a i) eqn:Z; cbn [andb]; try reflexivity;
      rewrite ?Nat.leb_le, ?Nat.leb_gt, ?Nat.ltb_lt, ?Nat.ltb_ge, ?Nat.eqb_eq, ?Nat.eqb_neq in *; try lia.
    destruct (nth_error (rv_files v) i) eqn:E; [reflexivity|]. apply nth_error_None in E. lia.
Qed.
Lemma whole_repo : forall t0 t r v0 v b, nth_error t0 r = Some v0 -> nth_error t r = Some v -> length (rv_files v) = length (rv_files v0) ->
  exists v', nth_error (apply_all (openOrCloseRepo t0 r b) t) r = Some v' /\ rv_open v' = b /\ length (rv_files v') = length (rv_files v) /\
  forall i, i < length (rv_files v) -> nth_error (rv_files v') i = Some b.
Proof.
  intros t0 t r v0 v b V0 V L. unfold openOrCloseRepo. rewrite V0, apply_app.
  destruct (set_files (length (rv_files v0)) 0 t r v b V) as (v1 & A & B & C & D).
  exists (mkView b (rv_files v1)). split; [|split; [reflexivity|split; [exact C|]]].
  - change (apply_all [SetRepo r b] ?x) with (apply (SetRepo r b) x). rewrite apply_repo, A. cbn [option_map]. rewrite Nat.eqb_refl. reflexivity.
  - intros i I. cbn [rv_files]. rewrite (D i I). assert (Y : i <? 0 + length (rv_files v0) = true) by (apply Nat.ltb_lt; lia). rewrite Y. reflexivity.
Qed.
Lemma repo_targets : forall t r b, Forall (fun u => targets u = r) (openOrCloseRepo t r b).
Proof.
  intros t r b. unfold openOrCloseRepo. destruct (nth_error t r); [|constructor]. apply Forall_app. split.
  - apply Forall_forall. intros u I. apply in_map_iff in I. destruct I as (i & <- & _). reflexivity.
  - repeat constructor.
Qed.
Lemma file_bound : forall (l : list bool) i b, nth_error l i = Some b -> i < length l.
Proof. intros l i b H. apply nth_error_Some. congruence. Qed.

Theorem file_click : forall t c r i, c = FileTitle r i \/ c = FileLink r i -> forall r' i' b, file_is t r' i' b ->
  file_is (clicked t c) r' i' (if Nat.eqb r r' && Nat.eqb i i' then negb b else b).
Proof.
  intros t c r i C r' i' b (v & V & B). assert (E : clicked t c = apply_all (toggleContent t r i) t) by (destruct C as [-> | ->]; reflexivity).
  rewrite E. unfold toggleContent. destruct (Nat.eqb r r') eqn:R; cbn [andb].
  - apply Nat.eqb_eq in R. subst r'. rewrite V. destruct (nth_error (rv_files v) i) as [b0|] eqn:N.
    + change (apply_all [SetFile r i (negb b0)] t) with (apply (SetFile r i (negb b0)) t).
      exists (mkView (rv_open v) (change (fun _ => negb b0) (rv_files v) i)). rewrite apply_repo, V. cbn [option_map]. rewrite Nat.eqb_refl. split; [reflexivity|].
      cbn [rv_files]. rewrite change_same, B. destruct (Nat.eqb i i') eqn:I; [|reflexivity]. apply Nat.eqb_eq in I. congruence.
    + destruct (Nat.eqb i i') eqn:I; [apply Nat.eqb_eq in I; congruence|]. exists v. auto.
  - exists v. split; [|exact B]. rewrite apply_other; [exact V|]. destruct (nth_error t r) as [v0|]; [|constructor].
    destruct (nth_error (rv_files v0) i); constructor; [|constructor]. cbn [targets]. apply Nat.eqb_neq. exact R.
Qed.
Theorem file_click_repo : forall t c r i, c = FileTitle r i \/ c = FileLink r i -> forall r' b, repo_is t r' b -> repo_is (clicked t c) r' b.
Proof.
  intros t c r i C r' b (v & V & B). assert (E : clicked t c = apply_all (toggleContent t r i) t) by (destruct C as [-> | ->]; reflexivity).
  rewrite E. unfold toggleContent. destruct (nth_error t r) as [v0|] eqn:W; [|exists v; auto]. destruct (nth_error (rv_files v0) i) as [b0|]; [|exists v; auto].
  change (apply_all [SetFile r i (negb b0)] t) with (apply (SetFile r i (negb b0)) t). unfold repo_is. rewrite apply_repo, V. cbn [option_map]. eexists. split; [reflexivity|].
  destruct (Nat.eqb r r'); exact B.
Qed.
Lemma toggle_twice : forall t r v, nth_error t r = Some v -> forall us, us = toggleRepo t r \/ us = toggleRepo t r ++ toggleRepo t r ->
  exists v', nth_error (apply_all us t) r = Some v' /\ rv_open v' = negb (rv_open v) /\ length (rv_files v') = length (rv_files v) /\
  forall i, i < length (rv_files v) -> nth_error (rv_files v') i = Some (negb (rv_open v)).
Proof.
  intros t r v V us U. assert (T : toggleRepo t r = openOrCloseRepo t r (negb (rv_open v))) by (unfold toggleRepo; rewrite V; destruct (rv_open v); reflexivity).
  rewrite T in U. destruct (whole_repo t t r v v (negb (rv_open v)) V V eq_refl) as (v1 & A & B & C & D).
  destruct U as [-> | ->]; [exists v1; auto|]. rewrite apply_app.
  destruct (whole_repo t _ r v v1 (negb (rv_open v)) V A C) as (v2 & A2 & B2 & C2 & D2). exists v2. split; [exact A2|]. split; [exact B2|]. split; [congruence|].
  intros i I. apply D2. lia.
Qed.
Theorem repo_click : forall t c r, c = RepoTitle r \/ c = Chevron r -> forall o, repo_is t r o ->
  repo_is (clicked t c) r (negb o) /\ (forall i b, file_is t r i b -> file_is (clicked t c) r i (negb o)) /\
  (forall r' b, r' <> r -> repo_is t r' b -> repo_is (clicked t c) r' b) /\ (forall r' i b, r' <> r -> file_is t r' i b -> file_is (clicked t c) r' i b).
Proof.
  intros t c r C o (v & V & <-).
  assert (E : exists us, clicked t c = apply_all us t /\ (us = toggleRepo t r \/ us = toggleRepo t r ++ toggleRepo t r) /\ Forall (fun u => targets u = r) us).
  { assert (F : Forall (fun u => targets u = r) (toggleRepo t r)) by (unfold toggleRepo; destruct (nth_error t r) as [x|]; [destruct (rv_open x); apply repo_targets|constructor]).
    destruct C as [-> | ->]; eexists; (split; [reflexivity|]); (split; [auto|]); [exact F|]. apply Forall_app. auto. }
  destruct E as (us & -> & U & F). destruct (toggle_twice t r v V us U) as (v' & A & B & C' & D).
  assert (X : forall r', r' <> r -> nth_error (apply_all us t) r' = nth_error t r').
  { intros r' N. apply apply_other. eapply Forall_impl; [|exact F]. intros u T. cbv beta in T |- *. congruence. }
  split; [exists v'; auto|]. split; [|split].
  - intros i b (w & W & I). rewrite V in W. injection W as <-. exists v'. split; [exact A|]. apply D. exact (file_bound _ _ _ I).
  - intros r' b N (w & W & I). exists w. rewrite (X _ N). auto.
  - intros r' i b N (w & W & I). exists w. rewrite (X _ N). auto.
Qed.
Lemma all_repos : forall n a t0 t b, length t = length t0 -> map (fun v => length (rv_files v)) t = map (fun v => length (rv_files v)) t0 ->
  forall r v, nth_error t r = Some v -> r < a + n ->
  exists v', nth_error (apply_all (flat_map (fun r => openOrCloseRepo t0 r b) (seq a n)) t) r = Some v' /\
   (if a <=? r then rv_open v' = b /\ length (rv_files v') = length (rv_files v) /\ forall i, i < length (rv_files v) -> nth_error (rv_files v') i = Some b else v' = v).
Proof.
  induction n as [|n IH]; intros a t0 t b L M r v V R.
  - exists v. split; [exact V|]. destruct (a <=? r) eqn:X; [apply Nat.leb_le in X; lia|reflexivity].
  - cbn [seq flat_map]. rewrite apply_app.
    pose proof (apply_all_sizes (openOrCloseRepo t0 a b) t) as SZ. pose proof (f_equal (@length nat) SZ) as LN. rewrite !map_length in LN.
    destruct (Nat.eq_dec r a) as [->|NE].
    + destruct (nth_error t0 a) as [v0|] eqn:V0.
      2:{ apply nth_error_None in V0. assert (a < length t) by (apply nth_error_Some; congruence). lia. }
      assert (LL : length (rv_files v) = length (rv_files v0)).
      { assert (Q : nth_error (map (fun v => length (rv_files v)) t) a = nth_error (map (fun v => length (rv_files v)) t0) a) by (rewrite M; reflexivity).
        rewrite (map_nth_error _ _ _ V), (map_nth_error _ _ _ V0) in Q. congruence. }
      destruct (whole_repo t0 t a v0 v b V0 V LL) as (v1 & A & B & C & D).
      exists v1. split; [|rewrite Nat.leb_refl; auto].
      rewrite apply_other; [exact A|]. apply Forall_forall. intros u I. apply in_flat_map in I. destruct I as (r & I & J). apply in_seq in I.
      pose proof (repo_targets t0 r b) as T. rewrite Forall_forall in T. rewrite (T _ J). lia.
    + destruct (IH (S a) t0 (apply_all (openOrCloseRepo t0 a b) t) b ltac:(congruence) ltac:(congruence) r v) as (v' & A & B).
      * rewrite apply_other; [exact V|]. eapply Forall_impl; [|apply repo_targets]. intros u T. cbv beta in T |- *. congruence.
      * lia.
      * exists v'. split; [exact A|]. destruct (S a <=? r) eqn:X, (a <=? r) eqn:Y; rewrite ?Nat.leb_le, ?Nat.leb_gt in *; try lia; exact B.
Qed.
Theorem all_click : forall t c b, (c = ExpandAll /\ b = true) \/ (c = CollapseAll /\ b = false) ->
  (forall r o, repo_is t r o -> repo_is (clicked t c) r b) /\ (forall r i o, file_is t r i o -> file_is (clicked t c) r i b).
Proof.
  intros t c b C. assert (E : clicked t c = apply_all (openOrCloseAll t b) t) by (destruct C as [[-> ->]|[-> ->]]; reflexivity). rewrite E.
  assert (X : forall r v, nth_error t r = Some v -> exists v', nth_error (apply_all (openOrCloseAll t b) t) r = Some v' /\ rv_open v' = b /\
    forall i, i < length (rv_files v) -> nth_error (rv_files v') i = Some b).
  { intros r v V. destruct (all_repos (length t) 0 t t b eq_refl eq_refl r v V) as (v' & A & B & _ & D); [apply nth_error_Some; congruence|]. exists v'. auto. }
  split.
  - intros r o (v & V & _). destruct (X r v V) as (v' & A & B & D). exists v'. auto.
  - intros r i o (v & V & I). destruct (X r v V) as (v' & A & B & D). exists v'. split; [exact A|]. apply D. exact (file_bound _ _ _ I).
Qed.

(** ** More results *)
Lemma more_stays : forall locale s obj repo req rs st s', ids_ok s -> page_step locale s (Arrive (PMore obj repo req) (Results rs st)) s' ->
  forall r x i m, nth_error (shown s) r = Some x -> nth_error (r_matches x) i = Some m ->
  exists x', nth_error (shown s') r = Some x' /\ r_repo x' = r_repo x /\ nth_error (r_matches x') i = Some m.
Proof.
  intros locale s obj repo req rs st s' [OK V] ST r x i m X I. inversion ST as [| |before after a rep s1 P H]; subst.
  cbn [load_answer pg_objs] in H. destruct (find_result rs repo) as [res|]; [|discriminate]. cbn [bind] in H.
  destruct (nth_error (pg_objs s) obj) as [y|] eqn:Y; [|discriminate]. cbn [bind] in H. destruct (list_set _ _ _) as [objs|] eqn:L; [|discriminate].
  cbn [bind pg_params pg_results pg_by pg_pending] in H. injection H as <-.
  unfold shown in *. cbn [v_error v_results pg_objs]. destruct (v_error s); [destruct r; discriminate|].
  destruct V as [V|V]; rewrite V in X; [destruct r; discriminate|]. clear V ST P.
  revert r X. induction OK as [|id ids B OK IH]; intros r X; [destruct r; discriminate|].
  cbn [objects] in *. rewrite (list_set_nth _ _ _ _ id L). destruct (nth_error (pg_objs s) id) as [z|] eqn:Z.
  2:{ apply nth_error_None in Z. lia. }
  destruct (Nat.eqb obj id) eqn:E.
  - destruct r as [|r]; cbn [nth_error] in *; [|exact (IH r X)]. injection X as ->. apply Nat.eqb_eq in E. subst id. rewrite Y in Z. injection Z as ->.
    eexists. split; [reflexivity|]. cbn [r_repo r_matches]. split; [reflexivity|]. rewrite nth_error_app1; [exact I|]. apply nth_error_Some. congruence.
  - destruct r as [|r]; cbn [nth_error] in *; [|exact (IH r X)]. exists x. auto.
Qed.
Theorem more_keeps : forall locale s t obj repo req rs st s' t' r i x m b, opened locale (s, t) ->
  open_step locale (s, t) (Page (Arrive (PMore obj repo req) (Results rs st))) (s', t') ->
  on_page s r i x m -> file_is t r i b -> exists x', on_page s' r i x' m /\ r_repo x' = r_repo x /\ file_is t' r i b.
Proof.
  intros locale s t obj repo req rs st s' t' r i x m b O ST P B. destruct (opened_ok _ _ O) as [OK F]. cbn [fst snd] in *.
  assert (PS : page_step locale s (Arrive (PMore obj repo req) (Results rs st)) s') by (inversion ST; subst; assumption).
  pose proof (step_ok _ _ _ _ OK PS) as OK'. apply (on_page_shown _ _ _ _ _ OK) in P. destruct P as [A I].
  destruct (more_stays _ _ _ _ _ _ _ _ OK PS r x i m A I) as (x' & X' & N & M). exists x'.
  assert (P' : on_page s' r i x' m) by (apply on_page_shown; auto). split; [exact P'|]. split; [exact N|].
  exact (proj1 (rendered _ _ _ _ _ _ _ _ _ _ O ST P') b B).
Qed.

(** ** A user who waits for the answer *)
Definition one_search (s : pstate) : Prop := forall req, In (PSearch req) (pg_pending s) -> pg_pending s = [PSearch req] /\ v_results s = None.
Lemma visit_one : forall locale serve s last, visit locale serve s last -> one_search s.
Proof.
  intros locale serve s last V. induction V as [|s last e s' V IH PO ST]; [intros req []|].
  destruct ST as [p s' H|repo s' H|before after a rep s' P H]; cbn [polite] in PO.
  - destruct PO as [E _]. unfold do_search in H. rewrite E in H. intros req I.
    destruct (get_param _ n_q) as [[|]|]; try discriminate; injection H as <-; cbn in *; (destruct I as [I|[]]; rewrite I; auto).
  - destruct PO as [(rs & x & (E & ids & R & F) & _) PM]. unfold do_load in H. destruct (by_repo _ _); [|discriminate]. cbn [bind] in H.
    destruct (nth_error _ _); [|discriminate]. cbn [bind] in H. injection H as <-. intros req I. cbn in I. apply in_app_iff in I. destruct I as [I|[I|[]]]; [|discriminate].
    destruct (IH _ I) as [_ N]. congruence.
  - intros req I. assert (PD : pg_pending s' = before ++ after).
    { destruct a; cbn [search_answer load_answer] in H.
      - destruct rep as [rs [|]|[|]|]; try discriminate; injection H as <-; reflexivity.
      - destruct rep as [rs st|[|]|]; try discriminate; try (injection H as <-; reflexivity).
        cbn [load_answer] in H. destruct (find_result _ _); [|discriminate]; cbn [bind] in H. destruct (nth_error _ _); [|discriminate]; cbn [bind] in H.
        destruct (list_set _ _ _); [|discriminate]; cbn [bind] in H. injection H as <-. reflexivity. }
    rewrite PD in I. assert (I' : In (PSearch req) (pg_pending s)) by (rewrite P; apply in_app_iff in I; apply in_app_iff; cbn; tauto).
    destruct (IH _ I') as [Q _]. rewrite P in Q. destruct before as [|x [|]]; cbn in Q; try discriminate.
    injection Q as -> ->. destruct I.
Qed.
Theorem fresh : forall locale serve s last t req rep s' t' r i x m, visit locale serve s last -> opened locale (s, t) ->
  open_step locale (s, t) (Page (Arrive (PSearch req) rep)) (s', t') -> on_page s' r i x m ->
  file_is t' r i (negb (fm_auto m)) /\ repo_is t' r true.
Proof.
  intros locale serve s last t req rep s' t' r i x m V O ST P.
  assert (PS : page_step locale s (Arrive (PSearch req) rep) s') by (inversion ST; subst; assumption).
  assert (N : v_results s = None).
  { inversion PS as [| |before after a rp s1 PD H]; subst. apply (visit_one _ _ _ _ V req). rewrite PD. apply in_app_iff. right. left. reflexivity. }
  assert (E : shown s = []) by (unfold shown; rewrite N; destruct (v_error s); reflexivity).
  destruct (opened_ok _ _ O) as [OK F]. cbn [fst snd] in *. unfold fits in F. rewrite E in F. destruct t; [|discriminate].
  assert (FI : file_is t' r i (negb (fm_auto m))).
  { apply (rendered _ _ _ _ _ _ _ _ _ _ O ST P). intros x' m' P'. apply (on_page_shown _ _ _ _ _ OK) in P'. rewrite E in P'. destruct P' as [A _]. destruct r; discriminate. }
  split; [exact FI|]. destruct FI as (v & W & _). apply (repo_rendered _ _ _ _ _ _ r ST); [exists (rv_open v), v; auto|].
  intros b (v0 & W0 & _). destruct r; discriminate.
Qed.
