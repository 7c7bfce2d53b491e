(** Request handling. *)
From Coq Require Import Permutation.
From Verif Require Import Model.Base Model.GoStr Model.Config Model.Search Model.Api Spec.ConfigSpec Spec.ApiSpec Spec.Names
  Proofs.StrLemmas Proofs.GoStrProofs Proofs.ConfigProofs Proofs.SearchTop.
Local Open Scope Z_scope.

Lemma ctx_ok : forall sv,
  (parseAsUintValue sv 0 20 2 <= 20)%N /\
  (forall v, decimal sv v -> (v < 2 ^ 54)%N -> parseAsUintValue sv 0 20 2 = N.min v 20) /\
  ((forall v, decimal sv v -> (2 ^ 54 <= v)%N) -> parseAsUintValue sv 0 20 2 = 2%N).
Proof.
  intros sv. unfold parseAsUintValue. pose proof (parse_uint_ok sv 54 ltac:(lia)) as U.
  destruct (parse_uint sv 54) as [iv|] eqn:E.
  - destruct (proj1 (U iv) eq_refl) as [D L]. cbn [N.eqb negb andb].
    assert (R : (if (20 <? iv)%N then 20%N else iv) = N.min iv 20) by (destruct (N.ltb_spec 20 iv); lia).
    rewrite R. split; [lia|]. split.
    + intros v D' _. rewrite (decimal_fun _ _ _ D' D). reflexivity.
    + intros H. specialize (H iv D). lia.
  - split; [lia|]. split; [|reflexivity]. intros v D L. pose proof (proj2 (U v) (conj D L)). discriminate.
Qed.

Lemma signed_fun : forall s z z', signed s z -> signed s z' -> int64_range z -> int64_range z' -> z = z'.
Proof.
  intros s z z' S S' R R'. pose proof (proj2 (parse_int_ok s z) (conj S R)).
  pose proof (proj2 (parse_int_ok s z') (conj S' R')). congruence.
Qed.

Lemma limit_ok : forall sv def,
  (forall z, signed sv z -> int64_range z -> parseAsIntValue sv (-1) maxLimit def = Z.max (-1) (Z.min z 100000)) /\
  ((forall z, signed sv z -> ~ int64_range z) -> parseAsIntValue sv (-1) maxLimit def = def) /\
  (-1 <= def <= 100000 -> -1 <= parseAsIntValue sv (-1) maxLimit def <= 100000).
Proof.
  intros sv def. unfold parseAsIntValue, maxLimit. pose proof (parse_int_ok sv) as U.
  destruct (parse_int sv) as [iv|] eqn:E.
  - destruct (proj1 (U iv) eq_refl) as [D L]. cbn [Z.eqb negb andb].
    assert (R : (if 100000 <? iv then 100000 else if iv <? -1 then -1 else iv) = Z.max (-1) (Z.min iv 100000))
      by (destruct (Z.ltb_spec 100000 iv), (Z.ltb_spec iv (-1)); lia).
    rewrite R. split; [|split].
    + intros z S RZ. rewrite (signed_fun _ _ _ S D RZ L). reflexivity.
    + intros H. exfalso. exact (H iv D L).
    + intros _. lia.
  - split; [|split; [reflexivity|tauto]]. intros z S RZ. pose proof (proj2 (U z) (conj S RZ)). discriminate.
Qed.

Lemma bound_ok : forall s, bound s (parseRangeInt s).
Proof.
  intros s. unfold bound. pose proof (parse_uint_ok s 64 ltac:(lia)) as U. destruct s as [|c s].
  - right. split; [|reflexivity]. intros v (H & _). contradiction.
  - unfold parseRangeInt. destruct (parse_uint (c :: s) 64) as [v|] eqn:E.
    + left. exists v. destruct (proj1 (U v) eq_refl) as [D L]. split; [exact D|]. split; [exact L|].
      unfold to_int. destruct (N.leb_spec (2 ^ 63) v), (N.ltb_spec v (2 ^ 63)); try reflexivity; lia.
    + right. split; [|reflexivity]. intros v D. destruct (N.lt_ge_cases v (2 ^ 64)) as [L|L]; [|exact L].
      pose proof (proj2 (U v) (conj D L)). discriminate.
Qed.

Lemma range_ok : forall s, page s (fst (parseRangeValue s)) (snd (parseRangeValue s)).
Proof.
  intros s. unfold parseRangeValue, page. destruct (index_byte s 58) as [ix|] eqn:E.
  - right. destruct (index_byte_some _ _ _ E) as [ES NI]. exists (firstn ix s), (skipn (ix + 1) s).
    split; [exact ES|]. split; [exact NI|]. cbn [fst snd]. split; apply bound_ok.
  - left. apply index_byte_none in E. auto.
Qed.

Lemma read_parameters : forall form idx def, let q := read_search form idx def in
  ((q_ctx q <= 20)%N /\
   (forall v, decimal (form f_ctx) v -> (v < 2 ^ 54)%N -> q_ctx q = N.min v 20) /\
   ((forall v, decimal (form f_ctx) v -> (2 ^ 54 <= v)%N) -> q_ctx q = 2%N)) /\
  ((forall z, signed (form f_limit) z -> int64_range z -> q_max q = Z.max (-1) (Z.min z 100000)) /\
   ((forall z, signed (form f_limit) z -> ~ int64_range z) -> q_max q = def) /\
   (-1 <= def <= 100000 -> -1 <= q_max q <= 100000)) /\
  page (form f_rng) (q_offset q) (q_limit q).
Proof.
  intros form idx def. unfold read_search. pose proof (range_ok (form f_rng)) as R.
  destruct (parseRangeValue (form f_rng)) as [off lim]. cbv zeta. cbn [q_ctx q_max q_offset q_limit].
  split; [apply ctx_ok|]. split; [apply limit_ok|exact R].
Qed.

Lemma request_succeeds : forall form idx def fuel p fp xp auto rev ix raw q re fre xre docs,
  searchable fuel p fp xp ix raw q re fre xre docs ->
  exists r, search fuel (request_opts (read_search form idx def)) raw auto rev ix q re fre xre = Some (Some r).
Proof.
  intros. destruct (search_pure fuel (request_opts (read_search form idx def)) p fp xp auto rev ix raw q re fre xre docs H)
    as (r & E & _). exists r. exact E.
Qed.

(** Repository lists. *)
Lemma get_in : forall {A} (m : list (str * A)) k, (exists v, get m k = Some v) <-> In k (map fst m).
Proof.
  intros A m k. destruct (get m k) as [v|] eqn:E.
  - split; [|eauto]. intros _. destruct (in_dec (list_eq_dec N.eq_dec) k (map fst m)) as [I|I]; [exact I|].
    apply get_none in I. congruence.
  - apply get_none in E. split; [intros (v & H); discriminate|]. intros I. contradiction.
Qed.

Lemma repo_list : forall v idx w name, trimmed v w ->
  (In name (parseAsRepoList v idx) <-> In name (map fst idx) /\ (w = [42%N] \/ element w name)).
Proof.
  intros v idx w name T. rewrite <- (trimmed_unique v (trim_space v) w (trim_space_ok v) T).
  set (t := trim_space v). unfold parseAsRepoList. fold t. destruct (str_eqb t [42%N]) eqn:E.
  - apply str_eqb_eq in E. tauto.
  - apply str_eqb_neq in E. rewrite filter_In, (split_element (length t)) by apply le_n.
    rewrite <- get_in. split.
    + intros [H G]. split; [destruct (get idx name); [eauto|discriminate]|]. auto.
    + intros [[x G] [H|H]]; [contradiction|]. split; [exact H|]. rewrite G. reflexivity.
Qed.

Lemma repo_list_known : forall v idx, Forall (fun n => exists s, get idx n = Some s) (parseAsRepoList v idx).
Proof.
  intros v idx. apply Forall_forall. intros n I. apply (repo_list v idx _ n (trim_space_ok v)) in I.
  apply get_in. apply I.
Qed.

Lemma start_ok : forall idx repos, Forall (fun n => exists s, get idx n = Some s) repos ->
  exists l, start_searches idx repos = Some l /\ map fst l = repos /\ Forall (fun e => get idx (fst e) = Some (snd e)) l.
Proof.
  intros idx repos F. induction F as [|n repos [s G] F (l & E & M & FL)]; cbn [start_searches].
  - exists []. auto.
  - exists ((n, s) :: l). rewrite G. cbn [bind]. rewrite E. cbn [bind]. split; [reflexivity|].
    split; [cbn [map fst]; congruence|]. constructor; assumption.
Qed.

Lemma searches_started : forall form idx def,
  exists l, start_searches idx (q_repos (read_search form idx def)) = Some l /\
    Forall (fun e => get idx (fst e) = Some (snd e)) l /\
    forall w name, trimmed (form f_repos) w ->
      (In name (map fst l) <-> In name (map fst idx) /\ (w = [42%N] \/ element w name)).
Proof.
  intros form idx def. unfold read_search. destruct (parseRangeValue (form f_rng)) as [off lim]. cbn [q_repos].
  destruct (start_ok idx _ (repo_list_known (form f_repos) idx)) as (l & E & M & F).
  exists l. split; [exact E|]. split; [exact F|]. intros w name T. rewrite M. apply repo_list. exact T.
Qed.

(** Updates. *)
Lemma update_all_ok : forall idx repos, Forall (fun n => exists s, get idx n = Some s) repos ->
  let '(status, done) := update_all idx repos in
  (status = 200 /\ done = repos /\ Forall (fun n => exists s, get idx n = Some s /\ r_push s = Some true) repos) \/
  (status = 403 /\ exists n rest s, repos = done ++ n :: rest /\ get idx n = Some s /\ r_push s <> Some true /\
     Forall (fun n => exists s, get idx n = Some s /\ r_push s = Some true) done).
Proof.
  intros idx repos F. induction F as [|n repos [s G] F IH]; cbn [update_all]; [left; auto|].
  rewrite G. unfold Update, PushUpdatesEnabled. destruct (r_push s) as [[|]|] eqn:P; cbn [optionToBool].
  - destruct (update_all idx repos) as [status done]. destruct IH as [(-> & -> & FP)|(-> & m & rest & s' & -> & G' & P' & FP)].
    + left. split; [reflexivity|]. split; [reflexivity|]. constructor; [eauto|exact FP].
    + right. split; [reflexivity|]. exists m, rest, s'. split; [reflexivity|]. split; [exact G'|]. split; [exact P'|].
      constructor; [eauto|exact FP].
  - right. split; [reflexivity|]. exists n, repos, s. repeat split; auto. congruence.
  - right. split; [reflexivity|]. exists n, repos, s. repeat split; auto. congruence.
Qed.

Lemma update_ok : forall method form idx w, trimmed (form f_repos) w ->
  let '(status, done) := update_handler method form idx in
  let wanted n := In n (map fst idx) /\ (w = [42%N] \/ element w n) in
  Forall (fun n => wanted n /\ exists s, get idx n = Some s /\ r_push s = Some true) done /\
  ((method <> POST /\ status = 405 /\ done = []) \/
   (method = POST /\ status = 200 /\ forall n, wanted n -> In n done) \/
   (method = POST /\ status = 403 /\ exists n s, wanted n /\ get idx n = Some s /\ r_push s <> Some true)).
Proof.
  intros method form idx w T. unfold update_handler. destruct (str_eqb method POST) eqn:M; cbn [negb].
  2:{ split; [constructor|]. left. apply str_eqb_neq in M. auto. }
  apply str_eqb_eq in M. pose proof (update_all_ok idx _ (repo_list_known (form f_repos) idx)) as U.
  pose proof (fun n => repo_list (form f_repos) idx w n T) as RL.
  set (repos := parseAsRepoList (form f_repos) idx) in *.
  destruct (update_all idx repos) as [status done].
  destruct U as [(-> & -> & F)|(-> & n & rest & s & E & G & P & F)].
  - split.
    + apply Forall_forall. intros n I. split; [apply RL; exact I|]. rewrite Forall_forall in F. apply F. exact I.
    + right. left. split; [exact M|]. split; [reflexivity|]. intros n H. apply RL. exact H.
  - split.
    + apply Forall_forall. intros m I. split; [apply RL; rewrite E; apply in_or_app; left; exact I|].
      rewrite Forall_forall in F. apply F. exact I.
    + right. right. split; [exact M|]. split; [reflexivity|]. exists n, s. split; [|split; assumption].
      apply RL. rewrite E. apply in_or_app. right. left. reflexivity.
Qed.

Lemma webhook_ok : forall method body idx,
  (method <> POST /\ webhook_handler method body idx = (405, [])) \/
  (method = POST /\ body = None /\ webhook_handler method body idx = (400, [])) \/
  (exists name, method = POST /\ body = Some name /\ ~ In name (map fst idx) /\ webhook_handler method body idx = (404, [])) \/
  (exists name s, method = POST /\ body = Some name /\ get idx name = Some s /\ r_push s <> Some true /\
     webhook_handler method body idx = (403, [])) \/
  (exists name s, method = POST /\ body = Some name /\ get idx name = Some s /\ r_push s = Some true /\
     webhook_handler method body idx = (200, [name])).
Proof.
  intros method body idx. unfold webhook_handler. destruct (str_eqb method POST) eqn:M; cbn [negb].
  2:{ left. apply str_eqb_neq in M. auto. }
  apply str_eqb_eq in M. right. destruct body as [name|]; [right|left; auto].
  destruct (get idx name) as [s|] eqn:G.
  - right. unfold Update, PushUpdatesEnabled. destruct (r_push s) as [[|]|] eqn:P; cbn [optionToBool].
    + right. exists name, s. auto.
    + left. exists name, s. repeat split; auto. congruence.
    + left. exists name, s. repeat split; auto. congruence.
  - left. exists name. split; [exact M|]. split; [reflexivity|]. split; [|reflexivity]. apply get_none. exact G.
Qed.

(** Collecting the answers. *)
Section SearchAll.
  Context {M E : Type}.
  Notation arrival := (str * (answer M + E))%type.

  Definition failures (arr : list arrival) : list E :=
    flat_map (fun a => match snd a with inr e => [e] | inl _ => [] end) arr.
  Definition opened (arr : list arrival) : Z :=
    fold_right Z.add 0 (flat_map (fun a => match snd a with
      | inl r => match a_matches r with Some _ => [a_opened r] | None => [] end | inr _ => [] end) arr).
  Definition consistent (arr : list arrival) : Prop := forall k a b, In (k, a) arr -> In (k, b) arr -> a = b.

  Lemma collect_ok : forall (arr : list arrival) res n,
    match collect arr res n with
    | inr e => In e (failures arr)
    | inl (m, n') => failures arr = [] /\ n' = n + opened arr /\
        forall k r, get m k = Some r ->
          (In (k, inl r) arr /\ a_matches r <> None) \/
          (get res k = Some r /\ forall r', In (k, inl r') arr -> a_matches r' = None)
    end.
  Proof.
    induction arr as [|[name [r|e]] arr IH]; intros res n; cbn [collect].
    - split; [reflexivity|]. split; [cbn; lia|]. intros k r H. right. split; [exact H|]. intros r' [].
    - destruct (a_matches r) as [ms|] eqn:A.
      + specialize (IH (put res name r) (n + a_opened r)). destruct (collect arr (put res name r) (n + a_opened r)) as [[m n']|e].
        * destruct IH as (F & -> & G). split; [exact F|]. split.
          { unfold opened. cbn [flat_map snd]. rewrite A. cbn [app fold_right]. unfold opened. lia. }
          intros k x H. destruct (G k x H) as [[I N]|[P Q]].
          -- left. split; [right; exact I|exact N].
          -- rewrite get_put in P. destruct (str_eqb k name) eqn:K.
             ++ apply str_eqb_eq in K. subst k. injection P as <-. left. split; [left; reflexivity|congruence].
             ++ right. split; [exact P|]. intros r' [H1|H1]; [|apply Q; exact H1].
                injection H1 as <- <-. rewrite str_eqb_refl in K. discriminate.
        * exact IH.
      + specialize (IH res n). destruct (collect arr res n) as [[m n']|e]; [|exact IH].
        destruct IH as (F & -> & G). split; [exact F|]. split.
        { unfold opened. cbn [flat_map snd]. rewrite A. reflexivity. }
        intros k x H. destruct (G k x H) as [[I N]|[P Q]].
        * left. split; [right; exact I|exact N].
        * right. split; [exact P|]. intros r' [H1|H1]; [|apply Q; exact H1]. injection H1 as _ <-. exact A.
    - left. reflexivity.
  Qed.

  Lemma collect_keeps : forall (arr : list arrival) res n m n' k, collect arr res n = inl (m, n') ->
    get res k <> None \/ (exists r, In (k, inl r) arr /\ a_matches r <> None) -> get m k <> None.
  Proof.
    induction arr as [|[name [r|e]] arr IH]; intros res n m n' k H D; cbn [collect] in H.
    - injection H as <- <-. destruct D as [D|(r & [] & _)]. exact D.
    - destruct (a_matches r) as [ms|] eqn:A.
      + eapply IH; [exact H|]. rewrite get_put. destruct (str_eqb k name) eqn:K; [left; discriminate|].
        destruct D as [D|(r' & [I|I] & N)]; [left; exact D| |right; eauto].
        injection I as -> ->. rewrite str_eqb_refl in K. discriminate.
      + eapply IH; [exact H|]. destruct D as [D|(r' & [I|I] & N)]; [left; exact D| |right; eauto].
        injection I as _ ->. congruence.
    - discriminate.
  Qed.

  Lemma failures_in : forall (arr : list arrival) e, In e (failures arr) <-> exists k, In (k, inr e) arr.
  Proof.
    intros arr e. unfold failures. rewrite in_flat_map. split.
    - intros ([k [r|x]] & I & H); cbn in H; [contradiction|]. destruct H as [<-|[]]. eauto.
    - intros (k & I). exists (k, inr e). split; [exact I|]. left. reflexivity.
  Qed.

  Lemma perm_failures : forall (arr arr' : list arrival), Permutation arr arr' -> Permutation (failures arr) (failures arr').
  Proof. intros. unfold failures. apply Permutation_flat_map. assumption. Qed.
  Lemma perm_sum : forall l l', Permutation l l' -> fold_right Z.add 0 l = fold_right Z.add 0 l'.
  Proof. intros l l' P. induction P; cbn; lia. Qed.

  (** What the result is, in terms of the set of answers. *)
  Lemma search_all_ok : forall arr : list arrival,
    match searchAll arr with
    | inr e => exists k, In (k, inr e) arr
    | inl (m, n) => (forall k e, ~ In (k, inr e) arr) /\ n = opened arr /\
        (consistent arr -> forall k r, get m k = Some r <-> In (k, inl r) arr /\ a_matches r <> None)
    end.
  Proof.
    intros arr. unfold searchAll. pose proof (collect_ok arr [] 0) as C. pose proof (collect_keeps arr [] 0) as K.
    destruct (collect arr [] 0) as [[m n]|e]; [|apply failures_in; exact C].
    destruct C as (F & -> & G). split; [|split; [lia|]].
    - intros k e I. assert (X : In e (failures arr)) by (apply failures_in; eauto). rewrite F in X. exact X.
    - intros CO k r. split.
      + intros H. destruct (G k r H) as [?|[P _]]; [assumption|discriminate].
      + intros [I N]. assert (D : get m k <> None) by (eapply K; [reflexivity|right; eauto]).
        destruct (get m k) as [r'|] eqn:EG; [|contradiction].
        destruct (G k r' EG) as [[I' N']|[P _]]; [|discriminate]. pose proof (CO k _ _ I I') as X. congruence.
  Qed.

  Lemma search_all_order : forall arr arr' : list arrival, Permutation arr arr' ->
    match searchAll arr, searchAll arr' with
    | inl (m, n), inl (m', n') => n = n' /\ (consistent arr -> forall k, get m k = get m' k)
    | inr e, inr e' => (exists k, In (k, inr e) arr) /\ (exists k, In (k, inr e') arr)
    | _, _ => False
    end.
  Proof.
    intros arr arr' P. pose proof (search_all_ok arr) as A. pose proof (search_all_ok arr') as A'.
    pose proof (fun x => Permutation_in x P) as PI. pose proof (fun x => Permutation_in x (Permutation_sym P)) as PI'.
    destruct (searchAll arr) as [[m n]|e], (searchAll arr') as [[m' n']|e'].
    - destruct A as (F & -> & G). destruct A' as (F' & -> & G'). split.
      + unfold opened. apply perm_sum. apply Permutation_flat_map. exact P.
      + intros CO. assert (CO' : consistent arr') by (intros k a b I J; eapply CO; eapply PI'; eassumption).
        intros k. destruct (get m k) as [r|] eqn:EG.
        * apply (G CO) in EG. symmetry. apply (G' CO'). split; [apply PI; apply EG|apply EG].
        * destruct (get m' k) as [r|] eqn:E'; [|reflexivity]. apply (G' CO') in E'.
          assert (get m k = Some r) by (apply (G CO); split; [apply PI'; apply E'|apply E']). congruence.
    - destruct A as (F & _). destruct A' as (k & I). exact (F k e' (PI' _ I)).
    - destruct A as (k & I). destruct A' as (F & _). exact (F k e (PI _ I)).
    - split; [exact A|]. destruct A' as (k & I). exists k. apply PI'. exact I.
  Qed.
End SearchAll.

(** Words of a request. *)
Lemma lower_word : forall w v, Forall (fun c => (97 <= c <= 122)%N) w -> (to_lower v = w <-> any_case v w).
Proof.
  induction w as [|c w IH]; intros v L; split.
  - intros E. destruct v; [constructor|discriminate].
  - intros A. inversion A. reflexivity.
  - intros E. destruct v as [|x v]; [discriminate|]. cbn [to_lower map] in E. fold (to_lower v) in E.
    assert ((if (65 <=? x)%N && (x <=? 90)%N then (x + 32)%N else x) = c) as E1 by congruence.
    assert (to_lower v = w) as E2 by congruence. constructor; [|apply IH; [exact (Forall_inv_tail L)|exact E2]].
    destruct ((65 <=? x)%N && (x <=? 90)%N) eqn:B; [|left; exact E1].
    apply andb_prop in B. destruct B as [B1 B2]. apply N.leb_le in B1, B2. right. left. split; [split; assumption|congruence].
  - intros A. inversion A as [|x ? v' ? S R E1 E2]. subst. cbn [to_lower map]. fold (to_lower v').
    rewrite (proj2 (IH v' (Forall_inv_tail L)) R). f_equal. pose proof (Forall_inv L) as Lc. cbv beta in Lc.
    destruct S as [->|[[U ->]|[U ->]]]; [|rewrite (proj2 (N.leb_le _ _) (proj1 U)), (proj2 (N.leb_le _ _) (proj2 U)); reflexivity|exfalso; lia].
    replace (c <=? 90)%N with false; [rewrite Bool.andb_false_r; reflexivity|]. symmetry. apply N.leb_gt. lia.
Qed.
Lemma lower_one : forall v, to_lower v = [49%N] <-> v = [49%N].
Proof.
  intros v. split; [|intros ->; reflexivity]. destruct v as [|x [|y v]]; intros E; try discriminate. cbn [to_lower map] in E.
  assert ((if (65 <=? x)%N && (x <=? 90)%N then (x + 32)%N else x) = 49%N) as E1 by congruence.
  destruct ((65 <=? x)%N && (x <=? 90)%N) eqn:B; [|congruence].
  apply andb_prop in B. destruct B as [B1 B2]. apply N.leb_le in B1. lia.
Qed.
Lemma yes_ok : forall v, parseAsBool v = true <-> yes v.
Proof.
  intros v. unfold parseAsBool, yes. cbv zeta. rewrite !Bool.orb_true_iff, !str_eqb_eq.
  rewrite (lower_word (text "true")) by (repeat constructor; vm_compute; congruence).
  rewrite (lower_word (text "fosho")) by (repeat constructor; vm_compute; congruence).
  rewrite lower_one. change (text "1") with [49%N]. tauto.
Qed.
Lemma read_fields : forall form idx def, let q := read_search form idx def in
  q_query q = form (text "q") /\ q_files q = form (text "files") /\ q_exclude q = form (text "excludeFiles") /\
  (q_icase q = true <-> yes (form (text "i"))) /\ (q_literal q = true <-> yes (form (text "literal"))) /\
  (q_stats q = true <-> yes (form (text "stats"))) /\
  (forall w name, trimmed (form (text "repos")) w ->
     (In name (q_repos q) <-> In name (map fst idx) /\ (w = [42%N] \/ element w name))).
Proof.
  intros form idx def. unfold read_search. destruct (parseRangeValue (form f_rng)) as [off lim]. cbv zeta.
  cbn [q_query q_files q_exclude q_icase q_literal q_stats q_repos].
  split; [reflexivity|]. split; [reflexivity|]. split; [reflexivity|].
  split; [apply yes_ok|]. split; [apply yes_ok|]. split; [apply yes_ok|]. intros w name T. apply repo_list. exact T.
Qed.

(** api.go:235-241 *)
Lemma excludes_named : forall form idx, let name := form (text "repo") in
  (In name (map fst idx) -> excludes_handler form idx = Some name) /\
  (~ In name (map fst idx) -> excludes_handler form idx = None).
Proof.
  intros form idx name. unfold excludes_handler. change (form f_repo) with name. clearbody name.
  assert (G : get idx name = None <-> ~ In name (map fst idx)).
  { induction idx as [|[k v] idx IH]; [split; [intros _ []|reflexivity]|]. cbn [get map fst In].
    destruct (str_eqb name k) eqn:E.
    - apply str_eqb_eq in E. split; [discriminate|]. intros N. destruct N. left. symmetry. exact E.
    - apply str_eqb_neq in E. rewrite IH. split; [intros N [X|X]; [congruence|exact (N X)]|]. intros N X. apply N. right. exact X. }
  split; intros H.
  - destruct (get idx name) eqn:E; [reflexivity|]. exfalso. apply (proj1 G eq_refl). exact H.
  - rewrite (proj2 G H). reflexivity.
Qed.
