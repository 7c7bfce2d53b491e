(** The state cache of the matcher is a memo table. *)
From Coq Require Import Relations Sorted Permutation.
From Verif Require Import Model.Base Model.Codec Model.Matcher Spec.MatchSpec Proofs.ListLemmas
  Proofs.StrLemmas Proofs.CodecProofs Proofs.SparseProofs Proofs.MatcherProofs.
Local Open Scope N_scope.

Lemma d_find_upd : forall m k f k', d_find (d_upd m k f) k' =
  if str_eqb k' k then option_map f (d_find m k) else d_find m k'.
Proof.
  induction m as [|[k0 d0] m IH]; intros k f k'; cbn [d_upd d_find].
  { destruct (str_eqb k' k); reflexivity. }
  destruct (str_eqb k k0) eqn:E.
  - apply str_eqb_eq in E. subst k0. cbn [d_find]. destruct (str_eqb k' k) eqn:E'; reflexivity.
  - cbn [d_find]. destruct (str_eqb k' k0) eqn:E0.
    + apply str_eqb_eq in E0. subst k0. destruct (str_eqb k' k) eqn:E'; [|reflexivity].
      apply str_eqb_eq in E'. subst k'. rewrite str_eqb_refl in E. discriminate.
    + apply IH.
Qed.

Lemma d_find_upd_same : forall m k f, d_find (d_upd m k f) k = option_map f (d_find m k).
Proof. intros. rewrite d_find_upd, str_eqb_refl. reflexivity. Qed.
Lemma d_find_upd_other : forall m k f k', k' <> k -> d_find (d_upd m k f) k' = d_find m k'.
Proof. intros m k f k' H. rewrite d_find_upd. apply str_eqb_neq in H. rewrite H. reflexivity. Qed.
Lemma d_find_cons_same : forall m k d, d_find ((k, d) :: m) k = Some d.
Proof. intros. cbn [d_find]. rewrite str_eqb_refl. reflexivity. Qed.
Lemma d_find_cons_other : forall m k d k', k' <> k -> d_find ((k, d) :: m) k' = d_find m k'.
Proof. intros m k d k' H. cbn [d_find]. apply str_eqb_neq in H. rewrite H. reflexivity. Qed.

(** All possible keys. *)
Fixpoint subs (l : list N) : list (list N) :=
  match l with [] => [[]] | x :: r => subs r ++ map (cons x) (subs r) end.
Definition range (k : nat) : list N := map N.of_nat (seq 0 k).
Definition universe (p : prog) : list bytes :=
  flat_map (fun f => map (fun q => enc (mkN f q)) (subs (range (length (p_inst p))))) (range 32).

Lemma filter_subs : forall f l, In (filter f l) (subs l).
Proof.
  intros f. induction l as [|x r IH]; cbn [filter subs]; [left; reflexivity|].
  apply in_or_app. destruct (f x); [right; apply in_map; assumption|left; assumption].
Qed.
Lemma range_in : forall k x, In x (range k) <-> x < N.of_nat k.
Proof.
  intros k x. unfold range. rewrite in_map_iff. split.
  - intros (y & <- & I). apply in_seq in I. lia.
  - intros L. exists (N.to_nat x). split; [lia|]. apply in_seq. lia.
Qed.
Lemma range_sorted : forall k, StronglySorted N.le (range k).
Proof.
  intros k. unfold range. generalize 0%nat as a. induction k as [|k IH]; intros a; cbn [seq map]; constructor; auto.
  apply Forall_forall. intros x I. apply in_map_iff in I as (y & <- & I). apply in_seq in I. lia.
Qed.
Lemma range_nodup : forall k, NoDup (range k).
Proof.
  intros k. unfold range. apply FinFun.Injective_map_NoDup; [intros a b; lia|apply seq_NoDup].
Qed.
Lemma subs_length : forall l, length (subs l) = (2 ^ length l)%nat.
Proof.
  induction l as [|x r IH]; cbn [subs length]; [reflexivity|].
  rewrite app_length, map_length, IH. cbn [Nat.pow]. lia.
Qed.
Lemma universe_length : forall p, length (universe p) = (32 * 2 ^ length (p_inst p))%nat.
Proof.
  intros p. unfold universe.
  assert (H : forall fs, length (flat_map (fun f => map (fun q => enc (mkN f q)) (subs (range (length (p_inst p))))) fs)
    = (length fs * 2 ^ length (p_inst p))%nat).
  { induction fs as [|f fs IH]; cbn [flat_map length]; [reflexivity|].
    rewrite app_length, IH, map_length, subs_length. unfold range. rewrite map_length, seq_length. lia. }
  rewrite H. unfold range. rewrite map_length, seq_length. reflexivity.
Qed.

(** Enough recursion depth for the cache. *)
Definition dfa_bound (p : prog) : nat := S (32 * 2 ^ length (p_inst p)).

Section Prog.
Variable p : prog.
Hypothesis WF : wf_prog p.

Lemma valid_in_universe : forall k, valid_key p k -> In k (universe p).
Proof.
  intros k (z & [F Q] & ->). unfold universe. apply in_flat_map. exists (n_flag z).
  split; [apply range_in; exact F|]. apply in_map_iff. exists (sort_ids (n_q z)). split.
  - unfold enc. cbn [n_flag n_q]. rewrite sort_ids_idem. reflexivity.
  - replace (sort_ids (n_q z)) with (filter (fun x => mem_id x (n_q z)) (range (length (p_inst p)))).
    { apply filter_subs. }
    destruct Q as [ND B].
    apply (sorted_perm_eq N.le).
    + intros x y. lia.
    + apply StronglySorted_filter, range_sorted.
    + apply sort_ids_sorted.
    + apply NoDup_Permutation.
      * apply NoDup_filter, range_nodup.
      * eapply Permutation_NoDup; [symmetry; apply sort_ids_perm|exact ND].
      * intros x. rewrite filter_In, mem_id_iff, range_in, sort_ids_in. split; [tauto|].
        intros I. split; [apply B|]; assumption.
Qed.

Definition found (m : dmap) (k : bytes) : bool := match d_find m k with Some _ => true | None => false end.
Definition missing (m : dmap) : nat := length (filter (fun k => negb (found m k)) (universe p)).

Lemma filter_le : forall (A : Type) (f g : A -> bool) l, (forall x, f x = true -> g x = true) ->
  (length (filter f l) <= length (filter g l))%nat.
Proof.
  intros A f g l H. induction l as [|x r IH]; [cbn; lia|]. cbn [filter].
  destruct (f x) eqn:E; [rewrite (H x E); cbn; lia|]. destruct (g x); cbn; lia.
Qed.
Lemma filter_lt : forall (A : Type) (f g : A -> bool) l y, (forall x, f x = true -> g x = true) ->
  In y l -> f y = false -> g y = true -> (length (filter f l) < length (filter g l))%nat.
Proof.
  intros A f g l y H I Fy Gy. induction l as [|x r IH]; [destruct I|]. cbn [filter].
  pose proof (filter_le A f g r H) as L.
  destruct I as [->|I].
  - rewrite Fy, Gy. cbn. lia.
  - specialize (IH I). destruct (f x) eqn:E; [rewrite (H x E); cbn; lia|]. destruct (g x); cbn; lia.
Qed.

(** [m'] has all entries of [m], unchanged. *)
Definition ext (m m' : dmap) : Prop := forall k d, d_find m k = Some d -> d_find m' k = Some d.
Lemma ext_refl : forall m, ext m m.
Proof. intros m k d H. exact H. Qed.
Lemma ext_trans : forall a b c, ext a b -> ext b c -> ext a c.
Proof. intros a b c H1 H2 k d H. auto. Qed.

Lemma missing_ext : forall m m', (forall k, found m k = true -> found m' k = true) -> (missing m' <= missing m)%nat.
Proof.
  intros m m' H. apply filter_le. intros k F. destruct (found m k) eqn:E; [|reflexivity].
  rewrite (H k E) in F. discriminate.
Qed.
Lemma ext_found : forall m m', ext m m' -> forall k, found m k = true -> found m' k = true.
Proof.
  intros m m' E k F. unfold found in *. destruct (d_find m k) eqn:X; [|discriminate].
  rewrite (E _ _ X). reflexivity.
Qed.

Definition isinl (r : option (unit + nstate)) : bool := match r with Some (inl _) => true | _ => false end.
Definition fresh_entry (k : bytes) (d : dstate) : Prop :=
  d_matchNL d = isinl (compute_next p k (Some 10)) /\
  d_matchEOT d = isinl (compute_next p k None) /\
  forall c, d_next d c = None.

Lemma cache_spec : forall fuel m z, zok p z -> (missing m < fuel)%nat ->
  exists m', cache p fuel m z = Some (m', enc z) /\ ext m m' /\ found m' (enc z) = true /\
    forall k d, d_find m' k = Some d -> d_find m k = None -> valid_key p k /\ fresh_entry k d.
Proof.
  induction fuel as [|fuel IH]; intros m z Z L; [lia|].
  cbn [cache]. destruct (d_find m (enc z)) as [d0|] eqn:E0.
  { exists m. split; [reflexivity|]. split; [apply ext_refl|]. split; [unfold found; rewrite E0; reflexivity|].
    intros k d H1 H2. congruence. }
  set (k := enc z) in *. set (blank := mkD (fun _ => None) false false).
  assert (VK : valid_key p k) by (exists z; split; [assumption|reflexivity]).
  (* one call of computeNext *)
  assert (GO : forall m1 c, (missing m1 < fuel)%nat -> found m1 k = true ->
    exists m2 r, (r0 <- compute_next p k c ;;
            match r0 with
            | inl _ => Some (m1, RMatch)
            | inr z' => '(m', k') <- cache p fuel m1 z' ;; Some (m', RKey k')
            end) = Some (m2, r) /\ is_match r = isinl (compute_next p k c) /\ ext m1 m2 /\
      forall k1 d, d_find m2 k1 = Some d -> d_find m1 k1 = None -> valid_key p k1 /\ fresh_entry k1 d).
  { intros m1 c L1 F1. destruct (compute_next_spec p WF z c Z) as [[E _]|(q' & E & Z' & _)];
      fold k in E; rewrite E; cbn [bind isinl].
    - exists m1, RMatch. split; [reflexivity|]. split; [reflexivity|]. split; [apply ext_refl|]. intros; congruence.
    - destruct (IH m1 _ Z' L1) as (m2 & E2 & X & _ & N). rewrite E2. cbn [bind].
      exists m2, (RKey (enc (mkN (next_flag c) q'))). split; [reflexivity|]. split; [reflexivity|]. split; assumption. }
  assert (M1 : (missing ((k, blank) :: m) < fuel)%nat).
  { assert ((missing ((k, blank) :: m) < missing m)%nat); [|lia].
    unfold missing. apply filter_lt with k.
    - intros k1. unfold found. cbn [d_find]. destruct (str_eqb k1 k); [discriminate|auto].
    - apply valid_in_universe. assumption.
    - unfold found. rewrite d_find_cons_same. reflexivity.
    - unfold found. rewrite E0. reflexivity. }
  assert (F1 : found ((k, blank) :: m) k = true) by (unfold found; rewrite d_find_cons_same; reflexivity).
  destruct (GO _ (Some 10) M1 F1) as (m2 & r2 & G2 & R2 & X2 & N2).
  cbv zeta. fold blank. rewrite G2. cbn [bind]. clear G2.
  set (m2' := d_upd m2 k (set_nl (is_match r2))).
  assert (K2 : d_find m2 k = Some blank) by (apply X2, d_find_cons_same).
  assert (F2 : forall k1, found m2' k1 = found m2 k1).
  { intros k1. unfold found, m2'. rewrite d_find_upd. destruct (str_eqb k1 k) eqn:E; [|reflexivity].
    apply str_eqb_eq in E. subst k1. rewrite K2. reflexivity. }
  assert (M2 : (missing m2' < fuel)%nat).
  { assert ((missing m2' <= missing ((k, blank) :: m))%nat); [|lia].
    apply missing_ext. intros k1 H. rewrite F2. apply (ext_found _ _ X2). assumption. }
  destruct (GO m2' None M2) as (m3 & r3 & G3 & R3 & X3 & N3).
  { rewrite F2. apply (ext_found _ _ X2). assumption. }
  rewrite G3. cbn [bind]. clear G3.
  set (m4 := d_upd m3 k (set_eot (is_match r3))).
  assert (K3 : d_find m3 k = Some (set_nl (is_match r2) blank)).
  { apply X3. unfold m2'. rewrite d_find_upd_same, K2. reflexivity. }
  assert (K4 : d_find m4 k = Some (set_eot (is_match r3) (set_nl (is_match r2) blank))).
  { unfold m4. rewrite d_find_upd_same, K3. reflexivity. }
  assert (O : forall k1, k1 <> k -> d_find m4 k1 = d_find m3 k1) by (intros; apply d_find_upd_other; assumption).
  assert (O2 : forall k1, k1 <> k -> d_find m2' k1 = d_find m2 k1) by (intros; apply d_find_upd_other; assumption).
  exists m4. split; [reflexivity|]. split; [|split].
  - intros k1 d H. assert (NE : k1 <> k) by (intros ->; congruence).
    rewrite O by assumption. apply X3. rewrite O2 by assumption. apply X2.
    rewrite d_find_cons_other by assumption. assumption.
  - unfold found. rewrite K4. reflexivity.
  - intros k1 d H1 H2. destruct (str_eq_dec k1 k) as [->|NE].
    + rewrite K4 in H1. injection H1 as <-. split; [assumption|].
      split; [cbn; assumption|]. split; [cbn; assumption|]. reflexivity.
    + rewrite O in H1 by assumption.
      destruct (d_find m2' k1) as [d2|] eqn:E2.
      * assert (d = d2) by (apply X3 in E2; congruence). subst d2.
        rewrite O2 in E2 by assumption. apply (N2 k1 d E2).
        rewrite d_find_cons_other by assumption. assumption.
      * apply (N3 k1 d H1 E2).
Qed.

Lemma cache_top : forall fuel m z, (dfa_bound p <= fuel)%nat -> zok p z ->
  exists m', cache p fuel m z = Some (m', enc z) /\ ext m m' /\ found m' (enc z) = true /\
    forall k d, d_find m' k = Some d -> d_find m k = None -> valid_key p k /\ fresh_entry k d.
Proof.
  intros fuel m z L Z. apply cache_spec; [assumption|].
  assert ((missing m <= length (universe p))%nat); [apply filter_length_le|].
  rewrite universe_length in H. unfold dfa_bound in L. lia.
Qed.

(** ** The matching loop *)

Variable sl : bytes. (* m.startLine *)

Definition next_ok (m : dmap) (k : bytes) (nl : bool) (c : N) (r : dref) : Prop :=
  if c =? 10 then nl = false /\ r = RKey sl
  else match r with
       | RMatch => compute_next p k (Some c) = Some (inl tt)
       | RKey k' => found m k' = true /\ exists z', compute_next p k (Some c) = Some (inr z') /\ k' = enc z'
       end.
Definition entry_ok (m : dmap) (k : bytes) (d : dstate) : Prop :=
  valid_key p k /\
  d_matchNL d = isinl (compute_next p k (Some 10)) /\
  d_matchEOT d = isinl (compute_next p k None) /\
  forall c r, d_next d c = Some r -> next_ok m k (d_matchNL d) c r.
Definition mok (m : dmap) : Prop :=
  (forall k d, d_find m k = Some d -> entry_ok m k d) /\ found m sl = true.
Definition rok (m : dmap) (d : dref) : Prop := match d with RMatch => True | RKey k => found m k = true end.

(** The same automaton without a cache. *)
Definition hitb (d : dref) (c : inp) : bool :=
  match d with RMatch => true | RKey k => isinl (compute_next p k c) end.
Definition dnext (d : dref) (c : N) : dref :=
  match d with
  | RMatch => RMatch
  | RKey k => match compute_next p k (Some c) with Some (inr z) => RKey (enc z) | _ => RMatch end
  end.
Fixpoint dfa_run (d : dref) (i : nat) (b : bytes) (et : bool) : option nat :=
  match b with
  | [] => if hitb d (Some 10) || (et && hitb d None) then Some i else None
  | c :: r =>
      if c =? 10 then if hitb d (Some 10) then Some i else dfa_run (RKey sl) (S i) r et
      else dfa_run (dnext d c) (S i) r et
  end.

Lemma entry_ok_mono : forall m m' k d, (forall x, found m x = true -> found m' x = true) ->
  entry_ok m k d -> entry_ok m' k d.
Proof.
  intros m m' k d H (A & B & C & D). split; [assumption|]. split; [assumption|]. split; [assumption|].
  intros c r E. specialize (D c r E). unfold next_ok in *. destruct (c =? 10); [assumption|].
  destruct r; [assumption|]. destruct D as [D1 D2]. auto.
Qed.

Lemma mok_ext : forall m m', mok m -> ext m m' ->
  (forall k d, d_find m' k = Some d -> d_find m k = None -> valid_key p k /\ fresh_entry k d) -> mok m'.
Proof.
  intros m m' [A B] X N. split; [|apply (ext_found _ _ X); assumption].
  intros k d E. destruct (d_find m k) as [d0|] eqn:E0.
  - assert (d = d0) by (apply X in E0; congruence). subst d0.
    eapply entry_ok_mono; [apply (ext_found _ _ X)|auto].
  - destruct (N k d E E0) as (V & F1 & F2 & F3). split; [assumption|]. split; [assumption|].
    split; [assumption|]. intros c r H. rewrite F3 in H. discriminate.
Qed.

Lemma mok_store : forall m d c d1, mok m -> rok m d -> rok m d1 ->
  (forall k s, d = RKey k -> d_find m k = Some s -> next_ok m k (d_matchNL s) c d1) ->
  mok (store m d c d1) /\ (forall k, found (store m d c d1) k = found m k).
Proof.
  intros m d c d1 M R R1 H. destruct d as [|k]; [split; [assumption|reflexivity]|].
  cbn [store rok] in *.
  assert (F : forall k', found (d_upd m k (set_next c d1)) k' = found m k').
  { intros k'. unfold found. rewrite d_find_upd. destruct (str_eqb k' k) eqn:E; [|reflexivity].
    apply str_eqb_eq in E. subst k'. destruct (d_find m k); reflexivity. }
  split; [|exact F]. destruct M as [A B]. split; [|rewrite F; assumption].
  intros k' d' E. apply entry_ok_mono with m; [intros x; rewrite F; auto|].
  rewrite d_find_upd in E. destruct (str_eqb k' k) eqn:EK; [|auto].
  apply str_eqb_eq in EK. subst k'. destruct (d_find m k) as [s|] eqn:ES; [|discriminate].
  cbn [option_map] in E. injection E as <-. specialize (H k s eq_refl ES).
  destruct (A k s ES) as (V & E1 & E2 & E3).
  split; [assumption|]. split; [assumption|]. split; [assumption|].
  intros c' r E. cbn [set_next d_next d_matchNL] in *.
  destruct (N.eqb_spec c' c) as [->|NE]; [|auto]. injection E as <-. assumption.
Qed.

Lemma ref_nl_ok : forall m d, mok m -> rok m d -> ref_nl m d = Some (hitb d (Some 10)).
Proof.
  intros m [|k] [A _] R; [reflexivity|]. cbn [rok] in R. unfold ref_nl, found in *.
  destruct (d_find m k) as [s|] eqn:E; [|discriminate]. cbn [bind].
  destruct (A k s E) as (_ & E1 & _). rewrite E1. reflexivity.
Qed.
Lemma ref_eot_ok : forall m d, mok m -> rok m d -> ref_eot m d = Some (hitb d None).
Proof.
  intros m [|k] [A _] R; [reflexivity|]. cbn [rok] in R. unfold ref_eot, found in *.
  destruct (d_find m k) as [s|] eqn:E; [|discriminate]. cbn [bind].
  destruct (A k s E) as (_ & _ & E1 & _). rewrite E1. reflexivity.
Qed.

Lemma compute_next_valid : forall k c, valid_key p k ->
  compute_next p k c = Some (inl tt) \/ exists z', compute_next p k c = Some (inr z') /\ zok p z'.
Proof.
  intros k c (z & Z & ->). destruct (compute_next_spec p WF z c Z) as [[E _]|(q' & E & Z' & _)]; eauto.
Qed.

Lemma match_loop_dfa : forall fuel et b m d i, (dfa_bound p <= fuel)%nat -> mok m -> rok m d ->
  exists m', match_loop p fuel sl m d i b et = Some (m', dfa_run d i b et) /\ mok m' /\
    forall k, found m k = true -> found m' k = true.
Proof.
  intros fuel et. induction b as [|c r IH]; intros m d i L M R; cbn [match_loop dfa_run].
  { rewrite (ref_nl_ok m d M R). cbn [bind]. rewrite (ref_eot_ok m d M R). cbn [bind].
    exists m. split; [reflexivity|]. split; [assumption|auto]. }
  destruct d as [|k].
  { cbn [next_of bind]. destruct (N.eqb_spec c 10) as [->|NE].
    - cbn [ref_nl bind hitb]. exists m. split; [reflexivity|]. split; [assumption|auto].
    - cbn [dnext]. apply IH; [assumption|assumption|exact I]. }
  cbn [rok] in R. unfold found in R. cbn [next_of].
  destruct (d_find m k) as [s|] eqn:ES; [|discriminate]. cbn [bind]. clear R.
  destruct (proj1 M k s ES) as (V & E1 & E2 & E3).
  assert (RK : rok m (RKey k)) by (cbn; unfold found; rewrite ES; reflexivity).
  destruct (d_next s c) as [d1|] eqn:EN.
  { specialize (E3 c d1 EN). unfold next_ok in E3.
    destruct (N.eqb_spec c 10) as [->|NE].
    - destruct E3 as [F ->]. unfold hitb. rewrite <- E1, F. apply IH; [assumption|assumption|]. cbn. apply M.
    - unfold dnext. destruct d1 as [|k'].
      + rewrite E3. apply IH; [assumption|assumption|exact I].
      + destruct E3 as (F & z' & C & ->). rewrite C. apply IH; assumption. }
  destruct (N.eqb_spec c 10) as [->|NE].
  { rewrite (ref_nl_ok m (RKey k) M RK). cbn [bind].
    destruct (hitb (RKey k) (Some 10)) eqn:H.
    - exists m. split; [reflexivity|]. split; [assumption|auto].
    - destruct (mok_store m (RKey k) 10 (RKey sl) M RK) as [M' F'].
      + cbn. apply M.
      + intros k0 s0 X Y. injection X as <-. rewrite ES in Y. injection Y as <-.
        unfold next_ok. cbn [N.eqb Pos.eqb]. split; [|reflexivity]. rewrite E1. exact H.
      + destruct (IH (store m (RKey k) 10 (RKey sl)) (RKey sl) (S i) L M') as (m' & E & M2 & F2).
        * cbn [rok]. rewrite F'. apply M.
        * exists m'. split; [assumption|]. split; [assumption|]. intros x X. apply F2. rewrite F'. assumption. }
  cbn [key_of]. destruct (compute_next_valid k (Some c) V) as [C|(z' & C & Z')]; rewrite C; cbn [bind].
  - destruct (mok_store m (RKey k) c RMatch M RK I) as [M' F'].
    + intros k0 s0 X Y. injection X as <-. unfold next_ok. rewrite (proj2 (N.eqb_neq _ _) NE). assumption.
    + destruct (IH (store m (RKey k) c RMatch) RMatch (S i) L M' I) as (m' & E & M2 & F2).
      exists m'. unfold dnext. rewrite C. split; [assumption|]. split; [assumption|].
      intros x X. apply F2. rewrite F'. assumption.
  - destruct (cache_top fuel m z' L Z') as (m1 & EC & X & FK & N). rewrite EC. cbn [bind].
    pose proof (mok_ext m m1 M X N) as M1.
    pose proof (X k s ES) as ES1.
    assert (RK1 : rok m1 (RKey k)) by (cbn; unfold found; rewrite ES1; reflexivity).
    destruct (mok_store m1 (RKey k) c (RKey (enc z')) M1 RK1 FK) as [M' F'].
    + intros k0 s0 X0 Y. injection X0 as <-. unfold next_ok. rewrite (proj2 (N.eqb_neq _ _) NE).
      split; [assumption|]. eauto.
    + destruct (IH (store m1 (RKey k) c (RKey (enc z'))) (RKey (enc z')) (S i) L M') as (m' & E & M2 & F2).
      * cbn [rok]. rewrite F'. assumption.
      * exists m'. unfold dnext. rewrite C. split; [assumption|]. split; [assumption|].
        intros x Hx. apply F2. rewrite F'. apply (ext_found _ _ X). assumption.
Qed.
End Prog.

(** ** Matchers *)

Definition start_queue (p : prog) (flag : N) (q : list N) : Prop :=
  addq p (addq_fuel p) [] (p_start p) flag = Some q.

Record matcher_ok (p : prog) (m : matcher) : Prop := {
  mo_prog : m_prog m = p;
  mo_map : mok p (m_startLine m) (m_dstate m);
  mo_found : found (m_dstate m) (m_start m) = true;
  mo_start : exists q, start_queue p 5 q /\ m_start m = enc (mkN 5 q);
  mo_line : exists q, start_queue p 1 q /\ m_startLine m = enc (mkN 1 q) }.

Lemma start_zok : forall p flag f, wf_prog p -> f < 32 -> exists q, start_queue p flag q /\ zok p (mkN f q).
Proof.
  intros p flag f WF L. unfold start_queue.
  destruct (addq_closure p WF flag [] (p_start p) _ (closure_nil p flag) (start_bound p WF)) as (q & E & C).
  exists q. split; [assumption|]. split; [assumption|]. apply C.
Qed.

Lemma init_ok : forall p fuel, wf_prog p -> (dfa_bound p <= fuel)%nat ->
  exists m, matcher_init fuel p = Some m /\ matcher_ok p m.
Proof.
  intros p fuel WF L. unfold matcher_init.
  change (N.lor EmptyBeginLine EmptyBeginText) with 5. change (N.lor flagBOL flagBOT) with 5.
  change EmptyBeginLine with 1. change flagBOL with 1.
  destruct (start_zok p 5 5 WF) as (q5 & E5 & Z5); [reflexivity|]. unfold start_queue in E5. rewrite E5. cbn [bind].
  destruct (cache_top p WF fuel [] _ L Z5) as (m1 & C1 & X1 & F1 & N1). rewrite C1. cbn [bind].
  destruct (start_zok p 1 1 WF) as (q1 & E1 & Z1); [reflexivity|]. unfold start_queue in E1. rewrite E1. cbn [bind].
  destruct (cache_top p WF fuel m1 _ L Z1) as (m2 & C2 & X2 & F2 & N2). rewrite C2. cbn [bind].
  eexists. split; [reflexivity|].
  constructor; cbn [m_prog m_dstate m_start m_startLine].
  - reflexivity.
  - split; [|assumption]. intros k d E.
    assert (FE : valid_key p k /\ fresh_entry p k d).
    { destruct (d_find m1 k) as [d1|] eqn:Ek.
      - assert (d = d1) by (apply X2 in Ek; congruence). subst d1. apply N1; [assumption|reflexivity].
      - apply N2; assumption. }
    destruct FE as (V & A & B & C). split; [assumption|]. split; [assumption|]. split; [assumption|].
    intros c r H. rewrite C in H. discriminate.
  - apply (ext_found _ _ X2). assumption.
  - exists q5. split; [exact E5|reflexivity].
  - exists q1. split; [exact E1|reflexivity].
Qed.

(** What a matcher computes depends on the program and the input only. *)
Definition answer (p : prog) (m : matcher) (b : bytes) (bt et : bool) : option nat :=
  dfa_run p (m_startLine m) (RKey (if bt then m_start m else m_startLine m)) 0 b et.

Lemma match_ok : forall p fuel m b bt et, wf_prog p -> (dfa_bound p <= fuel)%nat -> matcher_ok p m ->
  exists m', match_bytes fuel m b bt et = Some (m', answer p m b bt et) /\ matcher_ok p m' /\
    m_start m' = m_start m /\ m_startLine m' = m_startLine m.
Proof.
  intros p fuel m b bt et WF L [A B C D E]. unfold match_bytes. rewrite A.
  destruct (match_loop_dfa p WF (m_startLine m) fuel et b (m_dstate m)
     (RKey (if bt then m_start m else m_startLine m)) 0 L B) as (m' & R & M & F).
  { cbn [rok]. destruct bt; [assumption|apply B]. }
  rewrite R. cbn [bind]. eexists. split; [reflexivity|]. split; [|split; reflexivity].
  constructor; cbn [m_prog m_dstate m_start m_startLine]; auto.
Qed.

Lemma start_keys : forall p m1 m2, matcher_ok p m1 -> matcher_ok p m2 ->
  m_start m1 = m_start m2 /\ m_startLine m1 = m_startLine m2.
Proof.
  intros p m1 m2 [_ _ _ (q1 & Q1 & S1) (q2 & Q2 & S2)] [_ _ _ (q3 & Q3 & S3) (q4 & Q4 & S4)].
  unfold start_queue in *. split; congruence.
Qed.
