From Coq Require Import Permutation Lia.
From Verif Require Import Model.Base Model.Config Model.Api Model.Gather Proofs.ApiProofs.
Local Open Scope list_scope.

Section Gather.
Context {M E : Type}.
Notation worker := (@worker M E).
Notation state := (@state M E).

(** What has been sent. *)
Definition sent_by (p : str * worker) : list (@arrival M E) := match snd p with Gone r => [(fst p, r)] | _ => [] end.
Definition sent (ws : list (str * worker)) : list (@arrival M E) := flat_map sent_by ws.
Definition todo (p : str * worker) : nat := match snd p with Searching => 2 | Sending _ => 1 | Gone _ => 0 end.
Definition work (ws : list (str * worker)) : nat := list_sum (map todo ws).
Definition left_to_do (n : nat) (m : @collector M E) : nat := match m with Receiving i _ _ => S (n - i) | Returned _ => 0 end.

Lemma work_split : forall a p b, work (a ++ p :: b) = work a + todo p + work b.
Proof. intros. unfold work. rewrite map_app, list_sum_app. change (map todo (p :: b)) with (todo p :: map todo b). change (list_sum (todo p :: map todo b)) with (todo p + list_sum (map todo b)). lia. Qed.
Lemma sent_split : forall a p b, sent (a ++ p :: b) = sent a ++ sent_by p ++ sent b.
Proof. intros. unfold sent. rewrite flat_map_app. reflexivity. Qed.
Lemma sent_length : forall ws, length (sent ws) <= length ws.
Proof. induction ws as [|[n w] ws IH]; [cbn; lia|]. unfold sent in *. cbn [flat_map]. rewrite app_length. destruct w; cbn in *; lia. Qed.

(** The loop of main, one arrival at a time. *)
Lemma collect_snoc : forall l name (r : answer M + E) res fo m z, collect l res fo = inl (m, z) ->
  collect (l ++ [(name, r)]) res fo = collect [(name, r)] m z.
Proof.
  induction l as [|[k [x|e]] l IH]; intros name r res fo m z C; cbn [collect app] in C |- *.
  - assert (res = m /\ fo = z) as (-> & ->) by (split; congruence). reflexivity.
  - destruct (a_matches x); exact (IH _ _ _ _ _ _ C).
  - discriminate.
Qed.
Lemma collect_err : forall l l' res fo (e : E), collect l res fo = inr e -> collect (l ++ l') res fo = inr (e : E) :> (list (str * answer M) * Z) + E.
Proof.
  induction l as [|[k [x|e0]] l IH]; intros l' res fo e C; cbn [collect app] in C |- *.
  - discriminate.
  - destruct (a_matches x); exact (IH _ _ _ _ C).
  - exact C.
Qed.

Record inv (n : nat) (s : state) : Prop := {
  i_workers : length (workers s) = n;
  i_main : exists got, Permutation (got ++ channel s) (sent (workers s)) /\
    match main s with
    | Receiving i res fo => length got = i /\ collect got [] 0%Z = inl (res, fo)
    | Returned (inl v) => length got = n /\ collect got [] 0%Z = inl v
    | Returned (inr e) => collect got [] 0%Z = inr e
    end }.

Lemma inv_step : forall n cap s s', inv n s -> step n cap s s' -> inv n s'.
Proof.
  intros n cap s s' [L (got & P & G)] ST. destruct ST; cbn [workers channel main] in *.
  - split; cbn [workers channel main]; [rewrite app_length in *; cbn in *; exact L|]. exists got. split; [|exact G]. rewrite sent_split in *. exact P.
  - split; cbn [workers channel main]; [rewrite app_length in *; cbn in *; exact L|]. exists got. split; [|exact G]. rewrite sent_split in *. cbn [sent_by snd fst] in *. cbn [app] in P.
    rewrite app_assoc. rewrite P. rewrite <- app_assoc. apply Permutation_app_head. apply Permutation_app_comm.
  - split; cbn [workers channel main]; [exact L|]. destruct G as (_ & G). exists (got ++ [(name, inr e)]). rewrite <- app_assoc. split; [exact P|].
    rewrite (collect_snoc _ _ _ _ _ _ _ G). reflexivity.
  - split; cbn [workers channel main]; [exact L|]. destruct G as (LG & G). exists (got ++ [(name, inl x)]). rewrite <- app_assoc. split; [exact P|].
    rewrite app_length, (collect_snoc _ _ _ _ _ _ _ G). cbn [collect length]. rewrite H0. split; [lia|reflexivity].
  - split; cbn [workers channel main]; [exact L|]. destruct G as (LG & G). exists (got ++ [(name, inl x)]). rewrite <- app_assoc. split; [exact P|].
    rewrite app_length, (collect_snoc _ _ _ _ _ _ _ G). cbn [collect length]. rewrite H0. split; [lia|reflexivity].
  - split; cbn [workers channel main]; [exact L|]. destruct G as (LG & G). exists got. split; [exact P|]. split; [|exact G].
    apply Permutation_length in P. rewrite app_length in P. pose proof (sent_length ws). lia.
Qed.
Lemma sent_none : forall repos, sent (map (fun name => (name, Searching)) repos) = [].
Proof. induction repos as [|r repos IH]; [reflexivity|exact IH]. Qed.
Lemma runs_inv : forall repos k (s : state), runs repos k s -> inv (length repos) s.
Proof.
  intros repos k s R. induction R as [|k s s' R IH ST]; [|exact (inv_step _ _ _ _ IH ST)].
  split; cbn [initial workers channel main]; [apply map_length|]. exists []. rewrite sent_none. repeat split; constructor.
Qed.

(** Nobody waits to send. *)
Theorem room : forall repos k (s : state) a name r b, runs repos k s -> workers s = a ++ (name, Sending r) :: b -> length (channel s) < length repos.
Proof.
  intros repos k s a name r b R W. destruct (runs_inv _ _ _ R) as [L (got & P & _)]. rewrite W in L, P. rewrite sent_split in P. cbn [sent_by snd fst app] in P.
  apply Permutation_length in P. rewrite !app_length in P. rewrite app_length in L. cbn [length] in L.
  pose proof (sent_length a). pose proof (sent_length b). lia.
Qed.

(** Every step is progress. *)
Lemma progress : forall n cap (s s' : state), step n cap s s' -> S (work (workers s') + left_to_do n (main s')) <= work (workers s) + left_to_do n (main s).
Proof. intros n cap s s' ST. destruct ST; cbn [workers main left_to_do]; rewrite ?work_split; unfold todo; cbn [snd]; lia. Qed.
Lemma work_start : forall repos, work (map (fun name => (name, Searching)) repos) = 2 * length repos.
Proof. induction repos as [|r repos IH]; [reflexivity|]. unfold work in *. cbn [map list_sum length fold_right todo snd] in *. unfold list_sum in IH. lia. Qed.
Theorem bounded : forall repos k (s : state), runs repos k s -> k <= 3 * length repos + 1.
Proof.
  intros repos k s R. assert (X : k + (work (workers s) + left_to_do (length repos) (main s)) <= 3 * length repos + 1); [|lia].
  induction R as [|k s s' R IH ST]; [cbn [initial workers main left_to_do]; rewrite work_start; lia|]. pose proof (progress _ _ _ _ ST). lia.
Qed.

(** Where it ends. *)
Lemma sent_all : forall ws : list (str * worker), (forall p, In p ws -> exists r, snd p = Gone r) -> length (sent ws) = length ws.
Proof.
  induction ws as [|[n w] ws IH]; intros A; [reflexivity|]. destruct (A _ (or_introl eq_refl)) as (r & X). cbn in X. subst w.
  unfold sent in *. cbn [flat_map sent_by snd app length]. rewrite IH; [reflexivity|]. intros p I. apply A. right. exact I.
Qed.
Theorem ends : forall repos k (s : state), runs repos k s -> (forall s', ~ step (length repos) (capacity repos) s s') ->
  (forall p, In p (workers s) -> exists r, snd p = Gone r) /\
  exists v arr, main s = Returned v /\ Permutation arr (sent (workers s)) /\ searchAll arr = v.
Proof.
  intros repos k s R STUCK.
  assert (ALL : forall p, In p (workers s) -> exists r, snd p = Gone r).
  { intros [name w] I. destruct (in_split _ _ I) as (a & b & W). destruct s as [ws c m]. cbn [workers] in W. subst ws. destruct w as [|r|r]; [exfalso|exfalso|exists r; reflexivity].
    - cbn [workers] in *. destruct m as [i res fo|v].
      + exact (STUCK _ (st_search _ _ a name b c _ (inl (mkAns None 0%Z)))).
      + exact (STUCK _ (st_search _ _ a name b c _ (inl (mkAns None 0%Z)))).
    - exact (STUCK _ (st_send _ _ a name b c m r (room repos k _ a name r b R eq_refl))). }
  split; [exact ALL|]. destruct (runs_inv _ _ _ R) as [L (got & P & G)]. pose proof (sent_all _ ALL) as SA. rewrite L in SA.
  assert (LP : length got + length (channel s) = length repos) by (apply Permutation_length in P; rewrite app_length in P; lia).
  destruct s as [ws c m]. cbn [workers channel main] in *. destruct m as [i res fo|v].
  - exfalso. destruct G as (LG & G). destruct c as [|[name [x|e]] c].
    + cbn in LP. apply (STUCK (mkState ws [] (Returned (inl (res, fo))))). constructor. lia.
    + cbn in LP. destruct (a_matches x) as [y|] eqn:AM.
      * refine (STUCK _ (st_some _ _ ws name x y c i res fo _ AM)). lia.
      * refine (STUCK _ (st_none _ _ ws name x c i res fo _ AM)). lia.
    + cbn in LP. refine (STUCK _ (st_err _ _ ws name e c i res fo _)). lia.
  - exists v, (got ++ c). split; [reflexivity|]. split; [exact P|]. unfold searchAll. destruct v as [v|e].
    + destruct G as (LG & G). assert (c = []) by (destruct c; [reflexivity|cbn in LP; lia]). subst c. rewrite app_nil_r. exact G.
    + exact (collect_err _ _ _ _ _ G).
Qed.

(** The answer is there as soon as the last answer, or the first error, is: what is still to be
    done afterwards is done by the workers alone. *)
Theorem no_more : forall n cap (s s' : state) v, step n cap s s' -> main s = Returned v -> main s' = Returned v.
Proof. intros n cap s s' v ST X. destruct ST; cbn [main] in *; congruence. Qed.
End Gather.

Section Names.
Context {M E : Type}.
Lemma names_kept : forall n cap (s s' : @state M E), step n cap s s' -> map fst (workers s') = map fst (workers s).
Proof. intros n cap s s' ST. destruct ST; cbn [workers]; rewrite ?map_app; reflexivity. Qed.
Lemma names : forall repos k (s : @state M E), runs repos k s -> map fst (workers s) = repos.
Proof.
  intros repos k s R. induction R as [|k s s' R IH ST]; [|rewrite (names_kept _ _ _ _ ST); exact IH].
  cbn [initial workers]. rewrite map_map. apply map_id.
Qed.
Lemma gone_all : forall ws : list (str * @worker M E), (forall p, In p ws -> exists r, snd p = Gone r) ->
  exists rs, map snd ws = map Gone rs /\ sent ws = combine (map fst ws) rs.
Proof.
  induction ws as [|[n w] ws IH]; intros A; [exists []; auto|]. destruct (A _ (or_introl eq_refl)) as (r & X). cbn in X. subst w.
  destruct (IH (fun p I => A p (or_intror I))) as (rs & Y & Z). exists (r :: rs). unfold sent in *. cbn [map flat_map sent_by snd fst app combine]. rewrite Y, Z. auto.
Qed.
Theorem all_ended : forall repos k (s : @state M E), runs repos k s -> (forall s', ~ step (length repos) (capacity repos) s s') ->
  map fst (workers s) = repos /\ exists rs v arr, map snd (workers s) = map Gone rs /\
    main s = Returned v /\ Permutation arr (combine repos rs) /\ searchAll arr = v.
Proof.
  intros repos k s R STUCK. pose proof (names _ _ _ R) as N. split; [exact N|]. destruct (ends _ _ _ R STUCK) as (A & v & arr & X & P & Y).
  destruct (gone_all _ A) as (rs & G & SE). exists rs, v, arr. rewrite SE, N in P. auto.
Qed.
End Names.
