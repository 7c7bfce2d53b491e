(** The matcher: queues, closures, state encoding. *)
From Coq Require Import Relations Sorted Permutation.
From Verif Require Import Model.Base Model.Codec Model.Matcher Spec.MatchSpec Proofs.ListLemmas
  Proofs.CodecProofs Proofs.SparseProofs.
Local Open Scope N_scope.

(** ** Encoding of states *)

Lemma insert_id_perm : forall x l, Permutation (insert_id x l) (x :: l).
Proof.
  intros x. induction l as [|y r IH]; cbn [insert_id]; [reflexivity|].
  destruct (x <=? y); [reflexivity|]. rewrite IH. apply perm_swap.
Qed.
Lemma sort_ids_perm : forall l, Permutation (sort_ids l) l.
Proof.
  induction l as [|x r IH]; [reflexivity|]. cbn [sort_ids]. rewrite insert_id_perm, IH. reflexivity.
Qed.
Lemma sort_ids_in : forall l x, In x (sort_ids l) <-> In x l.
Proof.
  intros l x. split; apply Permutation_in; [apply sort_ids_perm|symmetry; apply sort_ids_perm].
Qed.
Lemma insert_id_sorted : forall x l, StronglySorted N.le l -> StronglySorted N.le (insert_id x l).
Proof.
  intros x l S. induction S as [|y r S IH F]; cbn [insert_id].
  { repeat constructor. }
  destruct (N.leb_spec x y) as [L|G].
  - constructor; [constructor; assumption|]. constructor; [assumption|].
    eapply Forall_impl; [|exact F]. cbn. lia.
  - constructor; [assumption|]. apply Forall_forall. intros z Z.
    apply (Permutation_in _ (insert_id_perm x r)) in Z as [<-|Z]; [lia|].
    rewrite Forall_forall in F. auto.
Qed.
Lemma sort_ids_sorted : forall l, StronglySorted N.le (sort_ids l).
Proof. induction l as [|x r IH]; cbn [sort_ids]; [constructor|]. apply insert_id_sorted. assumption. Qed.
Lemma sort_ids_idem : forall l, sort_ids (sort_ids l) = sort_ids l.
Proof.
  intros l. apply (sorted_perm_eq N.le).
  - intros x y A B. lia.
  - apply sort_ids_sorted.
  - apply sort_ids_sorted.
  - apply sort_ids_perm.
Qed.

Lemma u32_small : forall x, x < 2^32 -> u32 x = x.
Proof. intros. unfold u32. apply N.mod_small. assumption. Qed.
Lemma u32_lt : forall x, u32 x < 2^32.
Proof. intros. unfold u32. apply N.mod_lt. discriminate. Qed.

Lemma delta_back : forall last id, last < 2^32 -> id < 2^32 ->
  u32 (last + u32 (u32 (id + 2^32 - last))) = id.
Proof.
  intros last id L I. rewrite (u32_small (u32 _)) by apply u32_lt. unfold u32.
  change (2^32) with 4294967296 in *.
  rewrite N.add_mod_idemp_r by lia.
  replace (last + (id + 4294967296 - last)) with (id + 1 * 4294967296) by lia.
  rewrite N.mod_add by lia. apply N.mod_small. assumption.
Qed.

Lemma dec_ids_step : forall f last b, b <> [] -> dec_ids (S f) last b =
  ('(i, n) <- get_uvarint b ;; let id := u32 (last + u32 i) in
   r <- dec_ids f id (skipn n b) ;; Some (id :: r)).
Proof. intros f last [|x l] H; [congruence|reflexivity]. Qed.

Lemma enc_ids_dec : forall ids last fuel, last < 2^32 -> Forall (fun x => x < 2^32) ids ->
  (length (enc_ids last ids) <= fuel)%nat -> dec_ids fuel last (enc_ids last ids) = Some ids.
Proof.
  induction ids as [|id r IH]; intros last fuel L F B; cbn [enc_ids] in *.
  { destruct fuel; reflexivity. }
  inversion F as [|? ? F1 F2]; subst.
  set (delta := u32 (id + 2^32 - last)) in *.
  assert (NE := put_uvarint_nonempty delta).
  destruct fuel as [|fuel].
  { rewrite app_length in B. destruct (put_uvarint delta); [congruence|cbn in B; lia]. }
  rewrite dec_ids_step by (intros H; apply app_eq_nil in H; tauto).
  rewrite get_put_uvarint by apply u32_lt. cbn [bind].
  rewrite skipn_app, skipn_all, Nat.sub_diag. cbn [app skipn].
  subst delta. rewrite delta_back by assumption.
  rewrite IH; [reflexivity|assumption|assumption|].
  rewrite app_length in B. destruct (put_uvarint (u32 (id + 2^32 - last))); [congruence|]. cbn in B. lia.
Qed.

Lemma dec_enc : forall z, n_flag z < 2^32 -> Forall (fun x => x < 2^32) (n_q z) ->
  dec (enc z) = Some (mkN (n_flag z) (sort_ids (n_q z))).
Proof.
  intros z L F. unfold dec, enc.
  rewrite get_put_uvarint by reflexivity. cbn [bind].
  rewrite skipn_app, skipn_all, Nat.sub_diag. cbn [app skipn].
  rewrite get_put_uvarint by assumption. cbn [bind].
  rewrite (skipn_app (length (put_uvarint (n_flag z)))), skipn_all, Nat.sub_diag. cbn [app skipn].
  rewrite enc_ids_dec; [cbn [bind]; rewrite u32_small by assumption; reflexivity|reflexivity| |].
  - apply Forall_forall. intros x X. apply (proj1 (sort_ids_in _ _)) in X. rewrite Forall_forall in F. exact (F x X).
  - rewrite !app_length. lia.
Qed.

Section Prog.
Variable p : prog.
Hypothesis WF : wf_prog p.
Let n := N.of_nat (length (p_inst p)).

(** Epsilon successors under assertion flags. *)
Definition succs (flag id : N) : list N :=
  match inst_at p id with
  | Some (INop a) => [a]
  | Some (IAlt a b) => [a; b]
  | Some (IEmpty w a) => if N.ldiff w flag =? 0 then [a] else []
  | _ => []
  end.
Definition eps (flag : N) : N -> N -> Prop := clos_refl_trans _ (fun x y => In y (succs flag x)).

Lemma inst_ex : forall id, id < n -> exists i, inst_at p id = Some i.
Proof.
  intros id L. unfold inst_at. destruct (nth_error (p_inst p) (N.to_nat id)) eqn:E; [eauto|].
  apply nth_error_None in E. subst n. lia.
Qed.

Lemma succs_bound : forall flag id, Forall (fun x => x < n) (succs flag id).
Proof.
  intros flag id. unfold succs. destruct (inst_at p id) as [i|] eqn:E; [|constructor].
  apply nth_error_In in E. destruct WF as (_ & _ & W). specialize (W i E).
  destruct i; cbn [targets] in W; try exact W; try (destruct (N.ldiff arg flag =? 0); [exact W|]); constructor.
Qed.

Lemma eps_bound : forall flag x y, eps flag x y -> x < n -> y < n.
Proof.
  intros flag x y H. induction H as [x y H|x|x y z _ IH1 _ IH2]; intros L; auto.
  pose proof (succs_bound flag x) as F. rewrite Forall_forall in F. auto.
Qed.

Lemma eps_mono : forall f1 f2, (forall w, N.ldiff w f1 = 0 -> N.ldiff w f2 = 0) ->
  forall x y, eps f1 x y -> eps f2 x y.
Proof.
  intros f1 f2 M x y H. induction H as [x y H|x|x y z _ IH1 _ IH2].
  - apply rt_step. unfold succs in *. destruct (inst_at p x) as [[]|]; try exact H.
    destruct (N.eqb_spec (N.ldiff arg f1) 0) as [E|]; [|destruct H].
    rewrite (M _ E). exact H.
  - apply rt_refl.
  - eapply rt_trans; eassumption.
Qed.

Definition closed (flag : N) (q : list N) : Prop := forall x, In x q -> incl (succs flag x) q.
Lemma closed_eps : forall flag q x y, closed flag q -> In x q -> eps flag x y -> In y q.
Proof.
  intros flag q x y C I E. revert I. induction E as [x y H|x|x y z _ IH1 _ IH2]; intros I; auto.
  exact (C x I y H).
Qed.

Definition qok (q : list N) : Prop := NoDup q /\ forall x, In x q -> x < n.

Lemma mem_id_iff : forall id q, mem_id id q = true <-> In id q.
Proof.
  intros id q. unfold mem_id. rewrite existsb_exists. split.
  - intros (x & I & E). apply N.eqb_eq in E. subst. assumption.
  - intros I. exists id. split; [assumption|apply N.eqb_refl].
Qed.

Lemma qok_len : forall q, qok q -> (length q <= length (p_inst p))%nat.
Proof.
  intros q [ND B]. pose proof (nodup_bound q n ND B) as H. subst n. unfold nlen in H. lia.
Qed.

Lemma qok_snoc : forall q id, qok q -> ~ In id q -> id < n -> qok (q ++ [id]).
Proof.
  intros q id [ND B] NI L. split.
  - apply NoDup_app_intro; [assumption|repeat constructor; intros []|].
    intros x I1 [I2|[]]. congruence.
  - intros x I. apply in_app_iff in I as [I|[I|[]]]; [auto|congruence].
Qed.

(** Everything newly added is reachable and has its successors added. *)
Definition grown (flag : N) (q q' : list N) (src : N -> Prop) : Prop :=
  qok q' /\ incl q q' /\
  forall x, In x q' -> ~ In x q -> incl (succs flag x) q' /\ exists s, src s /\ eps flag s x.

Lemma grown_trans : forall flag q1 q2 q3 (S1 S2 S : N -> Prop),
  (forall x, S1 x -> S x) -> (forall x, S2 x -> S x) ->
  grown flag q1 q2 S1 -> grown flag q2 q3 S2 -> grown flag q1 q3 S.
Proof.
  intros flag q1 q2 q3 S1 S2 S H1 H2 (O1 & I1 & G1) (O2 & I2 & G2).
  split; [assumption|]. split; [intros x Hx; apply I2, I1, Hx|].
  intros x X3 X1. destruct (in_dec N.eq_dec x q2) as [X2|X2].
  - destruct (G1 x X2 X1) as (A & s & B & C). split; [intros y Hy; apply I2, A, Hy|]. eauto.
  - destruct (G2 x X3 X2) as (A & s & B & C). eauto.
Qed.

Lemma addq_spec : forall flag fuel q id, qok q -> id < n ->
  (length (p_inst p) < fuel + length q)%nat ->
  exists q', addq p fuel q id flag = Some q' /\ In id q' /\ grown flag q q' (eq id).
Proof.
  intros flag. induction fuel as [|fuel IH]; intros q id Q L F.
  { pose proof (qok_len q Q). lia. }
  cbn [addq]. destruct (mem_id id q) eqn:M.
  { apply mem_id_iff in M. exists q. split; [reflexivity|]. split; [assumption|].
    split; [assumption|]. split; [apply incl_refl|]. intros x A B. contradiction. }
  assert (NI : ~ In id q) by (rewrite <- mem_id_iff; congruence). clear M.
  pose proof (qok_snoc q id Q NI L) as Q1.
  destruct (inst_ex id L) as [i Ei]. rewrite Ei. cbn [bind].
  assert (F1 : (length (p_inst p) < fuel + length (q ++ [id]))%nat) by (rewrite app_length; cbn; lia).
  assert (I1 : In id (q ++ [id])) by (apply in_or_app; right; left; reflexivity).
  assert (Isub : incl q (q ++ [id])) by (intros x Hx; apply in_or_app; left; assumption).
  assert (SB : forall a, In a (succs flag id) -> a < n).
  { intros a Ha. pose proof (succs_bound flag id) as B. rewrite Forall_forall in B. auto. }
  (* closing lemma: once all successors of id are in q' and q ++ [id] grows to q' *)
  assert (FIN : forall q' (S : N -> Prop), grown flag (q ++ [id]) q' S -> incl (succs flag id) q' ->
    (forall s, S s -> In s (succs flag id)) -> In id q' /\ grown flag q q' (eq id)).
  { intros q' S (O & I & G) SI SS. split; [apply I, I1|]. split; [assumption|].
    split; [intros x Hx; apply I, Isub, Hx|]. intros x X NX.
    destruct (N.eq_dec x id) as [->|NE].
    - split; [assumption|]. exists id. split; [reflexivity|apply rt_refl].
    - destruct (G x X) as (A & s & B & C).
      + intros H. apply in_app_iff in H as [H|[H|[]]]; congruence.
      + split; [assumption|]. exists id. split; [reflexivity|].
        eapply rt_trans; [apply rt_step, (SS s B)|exact C]. }
  assert (NIL : succs flag id = [] -> exists q', Some (q ++ [id]) = Some q' /\ In id q' /\ grown flag q q' (eq id)).
  { intros E. exists (q ++ [id]). split; [reflexivity|]. apply (FIN _ (fun _ => False)).
    - split; [assumption|]. split; [apply incl_refl|]. intros x A B. contradiction.
    - rewrite E. intros x [].
    - intros s []. }
  assert (ONE : forall a, succs flag id = [a] -> exists q', addq p fuel (q ++ [id]) a flag = Some q' /\ In id q' /\ grown flag q q' (eq id)).
  { intros a E. assert (La : a < n) by (apply SB; rewrite E; left; reflexivity).
    destruct (IH (q ++ [id]) a Q1 La F1) as (q' & Eq & Ia & G). exists q'. split; [assumption|].
    apply (FIN _ _ G).
    - rewrite E. intros x [<-|[]]. assumption.
    - intros s <-. rewrite E. left. reflexivity. }
  destruct i; cbn [bind]; try (apply NIL; unfold succs; rewrite Ei; reflexivity).
  - assert (E : succs flag id = [out; arg]) by (unfold succs; rewrite Ei; reflexivity).
    assert (La : out < n) by (apply SB; rewrite E; left; reflexivity).
    assert (Lb : arg < n) by (apply SB; rewrite E; right; left; reflexivity).
    destruct (IH (q ++ [id]) out Q1 La F1) as (q2 & Eq & Ia & G). rewrite Eq. cbn [bind].
    destruct G as (O2 & I2 & G2).
    assert (F2 : (length (p_inst p) < fuel + length q2)%nat).
    { assert ((length (q ++ [id]) <= length q2)%nat); [|lia].
      apply NoDup_incl_length; [apply Q1|exact I2]. }
    destruct (IH q2 arg O2 Lb F2) as (q3 & Eq3 & Ib & G3). exists q3. split; [assumption|].
    apply (FIN q3 (fun s => s = out \/ s = arg)).
    + eapply grown_trans; [| |split; [exact O2|split; [exact I2|exact G2]]|exact G3]; cbn; intros x <-; auto.
    + rewrite E. intros x [<-|[<-|[]]]; [apply G3; assumption|assumption].
    + rewrite E. intros s [->| ->]; cbn; auto.
  - apply ONE. unfold succs. rewrite Ei. reflexivity.
  - destruct (N.ldiff arg flag =? 0) eqn:EE.
    + apply ONE. unfold succs. rewrite Ei, EE. reflexivity.
    + apply NIL. unfold succs. rewrite Ei, EE. reflexivity.
Qed.

Lemma addq_top : forall flag q id, qok q -> id < n ->
  exists q', addq p (addq_fuel p) q id flag = Some q' /\ In id q' /\ grown flag q q' (eq id).
Proof. intros. apply addq_spec; try assumption. unfold addq_fuel. lia. Qed.

Lemma grown_closed : forall flag q q' S, closed flag q -> grown flag q q' S -> closed flag q'.
Proof.
  intros flag q q' S C (O & I & G) x X. destruct (in_dec N.eq_dec x q) as [Y|Y].
  - intros y Hy. apply I. exact (C x Y y Hy).
  - apply G; assumption.
Qed.

(** [q'] is a queue whose ids are exactly those reachable from [S]. *)
Definition is_closure (flag : N) (S : N -> Prop) (q' : list N) : Prop :=
  qok q' /\ closed flag q' /\ forall x, In x q' <-> exists s, S s /\ eps flag s x.

Lemma addq_closure : forall flag q id S, is_closure flag S q -> id < n ->
  exists q', addq p (addq_fuel p) q id flag = Some q' /\
    is_closure flag (fun s => S s \/ s = id) q'.
Proof.
  intros flag q id S (Q & C & X) L.
  destruct (addq_top flag q id Q L) as (q' & E & I & G). exists q'. split; [assumption|].
  pose proof (grown_closed _ _ _ _ C G) as C'. destruct G as (O & Inc & G).
  split; [assumption|]. split; [assumption|]. intros x. split.
  - intros Hx. destruct (in_dec N.eq_dec x q) as [Y|Y].
    + apply X in Y as (s & A & B). eauto.
    + destruct (G x Hx Y) as (_ & s & <- & B). eauto.
  - intros (s & [A| ->] & B).
    + apply Inc, X. eauto.
    + eapply closed_eps; eassumption.
Qed.

Lemma closure_nil : forall flag, is_closure flag (fun _ => False) [].
Proof.
  intros flag. split; [split; [constructor|intros x []]|]. split; [intros x []|].
  intros x. split; [intros []|intros (s & [] & _)].
Qed.

Lemma closure_ext : forall flag S T q, (forall x, S x <-> T x) -> is_closure flag S q -> is_closure flag T q.
Proof.
  intros flag S T q H (A & B & C). split; [assumption|]. split; [assumption|].
  intros x. rewrite C. split; intros (s & P & Q); exists s; split; auto; apply H; assumption.
Qed.

Lemma addq_all_closure : forall flag ids q S, is_closure flag S q -> Forall (fun x => x < n) ids ->
  exists q', addq_all p q ids flag = Some q' /\
    is_closure flag (fun s => S s \/ In s ids) q'.
Proof.
  intros flag. induction ids as [|id ids IH]; intros q S C F; cbn [addq_all].
  - exists q. split; [reflexivity|]. eapply closure_ext; [|exact C]. intros x. cbn. tauto.
  - inversion F as [|? ? F1 F2]; subst.
    destruct (addq_closure flag q id S C F1) as (q1 & E1 & C1). rewrite E1. cbn [bind].
    destruct (IH q1 _ C1 F2) as (q2 & E2 & C2). exists q2. split; [assumption|].
    eapply closure_ext; [|exact C2]. intros x. cbn. intuition (subst; auto).
Qed.

Lemma step_empty_closure : forall flag ids, Forall (fun x => x < n) ids ->
  exists q', step_empty p ids flag = Some q' /\ is_closure flag (fun s => In s ids) q'.
Proof.
  intros flag ids F. unfold step_empty.
  destruct (addq_all_closure flag ids [] _ (closure_nil flag) F) as (q' & E & C).
  exists q'. split; [assumption|]. eapply closure_ext; [|exact C]. cbn. tauto.
Qed.

(** Where byte [c] leads from the queue. *)
Definition moves (c : inp) (runq : list N) (out : N) : Prop :=
  exists id lo hi fold b, In id runq /\ inst_at p id = Some (IByte lo hi fold out) /\ c = Some b /\
    byte_accepts lo hi fold b = true.

Lemma moves_cons : forall c id r out, moves c (id :: r) out <-> moves c [id] out \/ moves c r out.
Proof.
  intros c id r out. split.
  - intros (x & lo & hi & f & b & [A|A] & B & C & D).
    + left. exists x, lo, hi, f, b. cbn. auto.
    + right. exists x, lo, hi, f, b. auto.
  - intros [(x & lo & hi & f & b & [A|[]] & B & C & D)|(x & lo & hi & f & b & A & B & C & D)];
      exists x, lo, hi, f, b; cbn; auto.
Qed.

Lemma moves_bound : forall c runq out, moves c runq out -> out < n.
Proof.
  intros c runq out (id & lo & hi & f & b & _ & E & _).
  apply nth_error_In in E. destruct WF as (_ & _ & W). specialize (W _ E). cbn in W.
  inversion W; assumption.
Qed.

Lemma step_byte_loop_spec : forall c flag runq q S m, is_closure flag S q ->
  Forall (fun x => x < n) runq ->
  exists m' q', step_byte_loop p runq q c flag m = Some (m', q') /\
    (m' = true <-> m = true \/ exists id, In id runq /\ inst_at p id = Some IMatch) /\
    is_closure flag (fun s => S s \/ moves c runq s) q'.
Proof.
  intros c flag. induction runq as [|id r IH]; intros q S m C F; cbn [step_byte_loop].
  - exists m, q. split; [reflexivity|]. split.
    + split; [auto|intros [H|(x & [] & _)]; assumption].
    + eapply closure_ext; [|exact C]. intros x. split; [auto|].
      intros [H|(y & ? & ? & ? & ? & [] & _)]; assumption.
  - inversion F as [|? ? F1 F2]; subst. destruct (inst_ex id F1) as [i Ei]. rewrite Ei. cbn [bind].
    assert (SKIP : (forall out, ~ moves c [id] out) -> i <> IMatch ->
      exists m' q', step_byte_loop p r q c flag m = Some (m', q') /\
        (m' = true <-> m = true \/ exists x, In x (id :: r) /\ inst_at p x = Some IMatch) /\
        is_closure flag (fun s => S s \/ moves c (id :: r) s) q').
    { intros NM NMatch. destruct (IH q S m C F2) as (m' & q' & E & M & X).
      exists m', q'. split; [assumption|]. split.
      - rewrite M. split; (intros [H|(x & A & B)]; [auto|right; exists x]).
        + split; [right; assumption|assumption].
        + destruct A as [<-|A]; [congruence|]. auto.
      - eapply closure_ext; [|exact X]. intros x. cbn beta. rewrite moves_cons.
        specialize (NM x). tauto. }
    destruct i; try (apply SKIP; [|discriminate]; intros o (x & lo' & hi' & f' & b' & [<-|[]] & A & _); congruence).
    + (* match *)
      destruct (IH q S true C F2) as (m' & q' & E & M & X).
      exists m', q'. split; [assumption|]. split.
      * split; [|intros _; apply M; auto].
        intros _. right. exists id. split; [left; reflexivity|assumption].
      * eapply closure_ext; [|exact X]. intros x. cbn beta. rewrite moves_cons. split; [tauto|].
        intros [H|[(y & lo' & hi' & f' & b' & [<-|[]] & A & _)|H]]; [auto|congruence|auto].
    + destruct c as [b|].
      2:{ apply SKIP; [|discriminate]. intros o (x & lo' & hi' & f' & b' & [<-|[]] & A & B & _). discriminate. }
      destruct (byte_accepts lo hi fold b) eqn:BA.
      2:{ apply SKIP; [|discriminate]. intros o (x & lo' & hi' & f' & b' & [<-|[]] & A & B & D).
          rewrite Ei in A. injection A as <- <- <- <-. injection B as <-. congruence. }
      assert (MV : forall o, moves (Some b) [id] o <-> o = out).
      { intros o. split.
        - intros (x & lo' & hi' & f' & b' & [<-|[]] & A & B & D). rewrite Ei in A. congruence.
        - intros ->. exists id, lo, hi, fold, b. cbn. auto. }
      assert (Lo : out < n) by (apply (moves_bound (Some b) [id]); apply MV; reflexivity).
      destruct (addq_closure flag q out S C Lo) as (q1 & E1 & C1). rewrite E1. cbn [bind].
      destruct (IH q1 _ m C1 F2) as (m' & q' & E & M & X).
      exists m', q'. split; [assumption|]. split.
      * rewrite M. split; (intros [H|(x & A & B)]; [auto|right; exists x]).
        -- split; [right; assumption|assumption].
        -- destruct A as [<-|A]; [congruence|]. auto.
      * eapply closure_ext; [|exact X]. intros x. cbn beta. rewrite moves_cons, MV. tauto.
Qed.

Lemma start_bound : p_start p < n.
Proof. apply WF. Qed.

Lemma step_byte_spec : forall c flag runq, Forall (fun x => x < n) runq ->
  exists m q', step_byte p runq c flag = Some (m, q') /\
    (m = true <-> exists id, In id runq /\ inst_at p id = Some IMatch) /\
    is_closure flag (fun s => s = p_start p \/ moves c runq s) q'.
Proof.
  intros c flag runq F. unfold step_byte.
  destruct (addq_closure flag [] (p_start p) _ (closure_nil flag) start_bound) as (q0 & E0 & C0).
  rewrite E0. cbn [bind].
  destruct (step_byte_loop_spec c flag runq q0 _ false C0 F) as (m & q' & E & M & X).
  exists m, q'. split; [assumption|]. split.
  - rewrite M. split; [intros [H|H]; [discriminate|assumption]|auto].
  - eapply closure_ext; [|exact X]. intros x. cbn beta. tauto.
Qed.

(** ** computeNext *)

Definition zok (z : nstate) : Prop := n_flag z < 32 /\ qok (n_q z).
Definition valid_key (k : bytes) : Prop := exists z, zok z /\ k = enc z.

Lemma n_lt : n < 2^32.
Proof. destruct WF as (H & _). subst n. lia. Qed.

Lemma qok_32 : forall q, qok q -> Forall (fun x => x < 2^32) q.
Proof. intros q [_ B]. apply Forall_forall. intros x X. specialize (B x X). pose proof n_lt. lia. Qed.

Lemma zok_dec : forall z, zok z -> dec (enc z) = Some (mkN (n_flag z) (sort_ids (n_q z))).
Proof.
  intros z [F Q]. apply dec_enc; [|apply qok_32; assumption].
  change (2^32) with 4294967296. lia.
Qed.

Definition next_flag (c : inp) : N := N.lor (bit (is_nl c) flagBOL) (bit (is_word_byte c) flagWord).
Lemma next_flag_lt : forall c, next_flag c < 32.
Proof. intros c. unfold next_flag, bit. destruct (is_nl c), (is_word_byte c); reflexivity. Qed.

(** Ids reachable from the stored queue under the flags before [c]. *)
Definition expanded (z : nstate) (c : inp) (x : N) : Prop :=
  exists s, In s (n_q z) /\ eps (flags_before (n_flag z) c) s x.

Lemma compute_next_spec : forall z c, zok z ->
  (compute_next p (enc z) c = Some (inl tt) /\
   (exists id, expanded z c id /\ inst_at p id = Some IMatch)) \/
  (exists q', compute_next p (enc z) c = Some (inr (mkN (next_flag c) q')) /\
    zok (mkN (next_flag c) q') /\
    ~ (exists id, expanded z c id /\ inst_at p id = Some IMatch) /\
    is_closure (bit (is_nl c) EmptyBeginLine)
      (fun s => s = p_start p \/ exists id lo hi fold b, expanded z c id /\
          inst_at p id = Some (IByte lo hi fold s) /\ c = Some b /\ byte_accepts lo hi fold b = true) q').
Proof.
  intros z c Z. unfold compute_next. rewrite (zok_dec z Z). cbn [bind n_flag n_q].
  assert (B : Forall (fun x => x < n) (sort_ids (n_q z))).
  { apply Forall_forall. intros x X. apply (proj1 (sort_ids_in _ _)) in X. apply Z. assumption. }
  destruct (step_empty_closure (flags_before (n_flag z) c) _ B) as (q & E & C). rewrite E. cbn [bind].
  assert (IQ : forall x, In x q <-> expanded z c x).
  { intros x. destruct C as (_ & _ & C). rewrite C. unfold expanded.
    split; intros (s & P & Q); exists s; (split; [|exact Q]); [apply (proj1 (sort_ids_in _ _))|apply (proj2 (sort_ids_in _ _))]; exact P. }
  assert (BQ : Forall (fun x => x < n) q).
  { apply Forall_forall. intros x X. apply C. assumption. }
  destruct (step_byte_spec c (bit (is_nl c) EmptyBeginLine) q BQ) as (m & q' & E2 & M & C2).
  rewrite E2. cbn [bind]. destruct m.
  - left. split; [reflexivity|]. destruct (proj1 M eq_refl) as (id & A & D). exists id.
    split; [apply IQ; assumption|assumption].
  - right. exists q'. split; [reflexivity|]. split; [split; [apply next_flag_lt|apply C2]|]. split.
    + intros (id & A & D). assert (false = true); [apply M; exists id; split; [apply IQ|]; assumption|discriminate].
    + eapply closure_ext; [|exact C2]. intros x. cbn beta. unfold moves. split.
      * intros [H|(id & lo & hi & f & b & H1 & H2)]; [auto|]. right. exists id, lo, hi, f, b.
        split; [apply IQ; assumption|assumption].
      * intros [H|(id & lo & hi & f & b & H1 & H2)]; [auto|]. right. exists id, lo, hi, f, b.
        split; [apply IQ; assumption|assumption].
Qed.
End Prog.
