(** Unless alternate appends to a set that is still in use, the stored analysis computes
    what the analysis on values computes. *)
From Verif Require Import Model.Base Model.Query Model.Utf8 Model.Syntax Model.Analyze
  Proofs.ListLemmas Proofs.StrLemmas Proofs.StoreProofs Proofs.AnalyzePure.
Local Open Scope nat_scope.

Definition ownx (h : store) (s : option slice) (e : option (list str)) : Prop :=
  match e with
  | None => s = None
  | Some l => have s = true /\ own h s l
  end.
Definition ids (x : info) : list nat := sid (i_exact x) ++ sid (i_prefix x) ++ sid (i_suffix x).
Definition sim (h : store) (x : info) (p : pinfo) : Prop :=
  ownx h (i_exact x) (p_exact p) /\ own h (i_prefix x) (p_prefix p) /\ own h (i_suffix x) (p_suffix p) /\
  NoDup (ids x) /\ i_can_empty x = p_can p /\ i_match x = p_match p.

Lemma ownx_own : forall h s e, ownx h s e -> own h s (pel e).
Proof. intros h s [l|] O; cbn in *; [apply O|subst; reflexivity]. Qed.
Lemma ownx_have : forall h s e, ownx h s e -> have s = phave e.
Proof. intros h s [l|] O; cbn in *; [apply O|subst; reflexivity]. Qed.
Lemma ownx_move : forall A h h' s e, ownx h s e -> moves A h h' -> (forall a, In a (sid s) -> ~ In a A) -> ownx h' s e.
Proof. intros A h h' s [l|] O M D; cbn in *; [|exact O]. split; [apply O|]. eapply own_move; [apply O|exact M|exact D]. Qed.

Lemma in_ids : forall x a, In a (ids x) <-> In a (sid (i_exact x)) \/ In a (sid (i_prefix x)) \/ In a (sid (i_suffix x)).
Proof. intros. unfold ids. rewrite !in_app_iff. tauto. Qed.

Lemma sim_lt : forall h x p a, sim h x p -> In a (ids x) -> a < length (st_arr h).
Proof.
  intros h x p a (E & P & S & _) I. rewrite in_ids in I. destruct I as [I|[I|I]].
  - eapply own_lt; [apply ownx_own, E|exact I].
  - eapply own_lt; [exact P|exact I].
  - eapply own_lt; [exact S|exact I].
Qed.

Lemma sim_move : forall A h h' x p, sim h x p -> moves A h h' -> (forall a, In a (ids x) -> ~ In a A) -> sim h' x p.
Proof.
  intros A h h' x p (E & P & S & R) M D.
  split; [eapply ownx_move; [exact E|exact M|intros a I; apply D, in_ids; tauto]|].
  split; [eapply own_move; [exact P|exact M|intros a I; apply D, in_ids; tauto]|].
  split; [eapply own_move; [exact S|exact M|intros a I; apply D, in_ids; tauto]|]. exact R.
Qed.

(** The result of a step: simulated, touching only [A] and new arrays. *)
Definition okr (A : list nat) (h : store) (r : store * info) (p : pinfo) : Prop :=
  sim (fst r) (snd r) p /\ moves A h (fst r) /\ fresh h A (ids (snd r)).

Lemma okr_trans : forall A B h h1 r p, moves A h h1 -> fresh h A B -> okr B h1 r p -> okr A h r p.
Proof.
  intros A B h h1 r p M F (S & M1 & F1). split; [exact S|]. split.
  - eapply moves_trans; eassumption.
  - eapply fresh_trans; [exact F|exact F1|]. apply M.
Qed.

Lemma nodup3 : forall (s t u : option slice), (forall a, In a (sid s) -> ~ In a (sid t) /\ ~ In a (sid u)) ->
  (forall a, In a (sid t) -> ~ In a (sid u)) -> NoDup (sid s ++ sid t ++ sid u).
Proof.
  intros [s|] [t|] [u|] H1 H2; cbn in *; repeat constructor; cbn; try tauto.
  all: try specialize (H1 _ (or_introl eq_refl)); try specialize (H2 _ (or_introl eq_refl)); intuition.
Qed.
Lemma nodup3_inv : forall (s t u : option slice), NoDup (sid s ++ sid t ++ sid u) ->
  (forall a, In a (sid s) -> ~ In a (sid t) /\ ~ In a (sid u)) /\ (forall a, In a (sid t) -> ~ In a (sid u)).
Proof.
  intros [s|] [t|] [u|] H; cbn in *; repeat match goal with H : NoDup (_ :: _) |- _ => inversion H; clear H; subst end; cbn in *;
    split; intros a J; intuition; subst; intuition.
Qed.

Lemma round_if_ok : forall (c : bool) h s l b n, own h s l ->
  oks (fun h => if c then round h s b n else (h, s)) s h (if c then p_round b n l else l).
Proof.
  intros [|] h s l b n O; [apply round_ok, O|].
  split; [exact O|]. split; [apply moves_refl|]. split; [apply fresh_refl|reflexivity].
Qed.

Section Grow.
Variable grow : nat -> nat -> nat.

(** Replacing the prefix (or suffix) slice by the result of an operation on it. *)
Lemma simplify_set_ok : forall h x p b, sim h x p -> okr (ids x) h (simplify_set h x b) (p_simplify_set p b).
Proof.
  intros h x p b (E & P & S & N & C & M).
  set (s := if b then i_suffix x else i_prefix x).
  set (l := if b then p_suffix p else p_prefix p).
  assert (own h s l) as O by (unfold s, l; destruct b; assumption).
  (* the slice part *)
  assert (forall r, simplify_set h x b = r ->
    exists h1 t1 hf tf, own h1 t1 (clean_list b l) /\
      own hf tf (p_reduce b (clean_list b l)) /\ moves (sid s) h hf /\ fresh h (sid s) (sid tf) /\
      r = (hf, if b then mkInfo (i_can_empty x) (i_exact x) (i_prefix x) tf (and_trigrams (i_match x) (elems h1 t1))
           else mkInfo (i_can_empty x) (i_exact x) tf (i_suffix x) (and_trigrams (i_match x) (elems h1 t1)))) as K.
  { intros r <-. unfold simplify_set. fold s.
    pose proof (s_clean_ok h s l b O) as K1. unfold oks in K1. destruct (s_clean h s b) as [h1 t1].
    destruct K1 as (O1 & M1 & F1 & _).
    pose proof (round_ok h1 t1 _ b 3 O1) as K2. unfold oks in K2. destruct (round h1 t1 b 3) as [h2 t2].
    destruct K2 as (O2 & M2 & F2 & _).
    set (l2 := p_round b 3 (clean_list b l)) in *.
    assert (oks (fun h => if Nat.ltb max_set (length l2) then round h t2 b 2 else (h, t2)) t2 h2
              (if Nat.ltb max_set (length l2) then p_round b 2 l2 else l2)) as K3.
    { apply round_if_ok, O2. }
    unfold oks in K3. rewrite (own_elems _ _ _ O2).
    destruct (if Nat.ltb max_set (length l2) then round h2 t2 b 2 else (h2, t2)) as [h3 t3].
    destruct K3 as (O3 & M3 & F3 & _).
    set (l3 := if Nat.ltb max_set (length l2) then p_round b 2 l2 else l2) in *.
    assert (oks (fun h => if Nat.ltb max_set (length l3) then round h t3 b 1 else (h, t3)) t3 h3
              (if Nat.ltb max_set (length l3) then p_round b 1 l3 else l3)) as K4.
    { apply round_if_ok, O3. }
    unfold oks in K4. rewrite (own_elems _ _ _ O3).
    destruct (if Nat.ltb max_set (length l3) then round h3 t3 b 1 else (h3, t3)) as [h4 t4].
    destruct K4 as (O4 & M4 & F4 & _).
    set (l4 := if Nat.ltb max_set (length l3) then p_round b 1 l3 else l3) in *.
    rewrite (own_elems _ _ _ O4).
    pose proof (rewrite_ok h4 t4 l4 (drop_longer b None l4) O4 (drop_longer_length b l4 None)) as K5.
    unfold oks in K5. destruct (rewrite h4 t4 (drop_longer b None l4)) as [h5 t5]. destruct K5 as (O5 & M5 & F5 & _).
    exists h1, t1, h5, t5. split; [exact O1|]. split; [exact O5|].
    assert (moves (sid s) h h2 /\ fresh h (sid s) (sid t2)) as (MA & FA).
    { split; [eapply moves_trans; eassumption|eapply fresh_trans; [exact F1|exact F2|apply M1]]. }
    assert (moves (sid s) h h3 /\ fresh h (sid s) (sid t3)) as (MB & FB).
    { split; [eapply moves_trans; eassumption|eapply fresh_trans; [exact FA|exact F3|apply MA]]. }
    assert (moves (sid s) h h4 /\ fresh h (sid s) (sid t4)) as (MC & FC).
    { split; [eapply moves_trans; eassumption|eapply fresh_trans; [exact FB|exact F4|apply MB]]. }
    split; [eapply moves_trans; eassumption|]. split; [eapply fresh_trans; [exact FC|exact F5|apply MC]|].
    destruct b; reflexivity. }
  destruct (K _ eq_refl) as (h1 & t1 & hf & tf & O1 & OF & MF & FF & ->). clear K.
  rewrite (own_elems _ _ _ O1), M. unfold okr. cbn [fst snd].
  assert (forall a, In a (sid s) -> In a (ids x)) as SI.
  { intros a I. apply in_ids. unfold s in I. destruct b; tauto. }
  destruct (nodup3_inv _ _ _ N) as (N1 & N2).
  assert (forall a, In a (sid (i_exact x)) -> ~ In a (sid s)) as DE.
  { intros a I. unfold s. destruct b; apply (N1 a I). }
  assert (forall a, In a (sid tf) -> ~ In a (sid (i_exact x))) as DT.
  { intros a I J. destruct (FF a I) as [K|K]; [exact (DE a J K)|].
    pose proof (own_lt _ _ _ a (ownx_own _ _ _ E) J). lia. }
  assert (ownx hf (i_exact x) (p_exact p)) as E'. { eapply ownx_move; [exact E|exact MF|exact DE]. }
  unfold p_simplify_set. fold l. unfold s in *. destruct b.
  - assert (forall a, In a (sid (i_prefix x)) -> ~ In a (sid (i_suffix x))) as DP by exact N2.
    assert (forall a, In a (sid tf) -> ~ In a (sid (i_prefix x))) as DQ.
    { intros a I J. destruct (FF a I) as [K|K]; [exact (DP a J K)|]. pose proof (own_lt _ _ _ a P J). lia. }
    split; [|split].
    + split; [exact E'|]. split; [eapply own_move; [exact P|exact MF|exact DP]|]. split; [exact OF|].
      split; [|split; [exact C|reflexivity]]. unfold ids. cbn. apply nodup3.
      * intros a I. split; [apply (N1 a I)|intros J; exact (DT a J I)].
      * intros a I J. exact (DQ a J I).
    + eapply moves_weak; [exact MF|exact SI].
    + intros a I. rewrite in_ids in I. cbn in I. rewrite in_ids. destruct I as [I|[I|I]]; try tauto.
      destruct (FF a I); tauto.
  - assert (forall a, In a (sid tf) -> ~ In a (sid (i_suffix x))) as DQ.
    { intros a I J. destruct (FF a I) as [K|K]; [exact (N2 a K J)|]. pose proof (own_lt _ _ _ a S J). lia. }
    split; [|split].
    + split; [exact E'|]. split; [exact OF|].
      split; [eapply own_move; [exact S|exact MF|intros a I J; exact (N2 a J I)]|].
      split; [|split; [exact C|reflexivity]]. unfold ids. cbn. apply nodup3.
      * intros a I. split; [intros J; exact (DT a J I)|apply (N1 a I)].
      * exact DQ.
    + eapply moves_weak; [exact MF|exact SI].
    + intros a I. rewrite in_ids in I. cbn in I. rewrite in_ids. destruct I as [I|[I|I]]; try tauto.
      destruct (FF a I); tauto.
Qed.

Lemma sets_ok : forall h x p, sim h x p ->
  okr (ids x) h (let '(h, i) := simplify_set h x false in simplify_set h i true) (p_sets p).
Proof.
  intros h x p S. pose proof (simplify_set_ok h x p false S) as K1.
  destruct (simplify_set h x false) as [h1 x1]. destruct K1 as (S1 & M1 & F1). cbn [fst snd] in *.
  eapply okr_trans; [exact M1|exact F1|]. apply simplify_set_ok. exact S1.
Qed.

Definition dis (s t : option slice) : Prop := forall a, In a (sid s) -> In a (sid t) -> False.

Lemma dis_sym : forall s t, dis s t -> dis t s.
Proof. intros s t D a I J. exact (D a J I). Qed.
Lemma dis_none : forall s, dis s None.
Proof. intros s a I J. exact J. Qed.
Lemma dis_fresh : forall h t m s s', own h t m -> dis t s -> fresh h (sid s) (sid s') -> dis t s'.
Proof. intros h t m s s' O D F a I J. destruct (F a J) as [K|K]; [exact (D a I K)|]. pose proof (own_lt _ _ _ a O I). lia. Qed.
Lemma own_keep : forall h h' t m s, own h t m -> dis t s -> moves (sid s) h h' -> own h' t m.
Proof. intros h h' t m s O D M. eapply own_move; [exact O|exact M|]. intros a I J. exact (D a I J). Qed.
Lemma ownx_keep : forall h h' t m s, ownx h t m -> dis t s -> moves (sid s) h h' -> ownx h' t m.
Proof. intros h h' t m s O D M. eapply ownx_move; [exact O|exact M|]. intros a I J. exact (D a I J). Qed.
Lemma nodup_dis : forall s t u, dis s t -> dis s u -> dis t u -> NoDup (sid s ++ sid t ++ sid u).
Proof. intros s t u A B C. apply nodup3; [|exact C]. intros a I. split; intros J; [exact (A a I J)|exact (B a I J)]. Qed.
Lemma dis_nodup : forall x, NoDup (ids x) -> dis (i_exact x) (i_prefix x) /\ dis (i_exact x) (i_suffix x) /\ dis (i_prefix x) (i_suffix x).
Proof.
  intros x N. destruct (nodup3_inv _ _ _ N) as (A & B). split; [|split].
  - intros a I J. exact (proj1 (A a I) J).
  - intros a I J. exact (proj2 (A a I) J).
  - exact B.
Qed.
Lemma none_own : forall h, own h None [].
Proof. reflexivity. Qed.

Lemma oks_have : forall f s h l h' s', oks f s h l -> f h = (h', s') ->
  own h' s' l /\ moves (sid s) h h' /\ fresh h (sid s) (sid s').
Proof. intros f s h l h' s' K E. unfold oks in K. rewrite E in K. tauto. Qed.

Lemma simplify_ok : forall h x p force, sim h x p -> okr (ids x) h (simplify grow h x force) (p_simplify p force).
Proof.
  intros h x p force (E & P & S & N & C & M). destruct (dis_nodup _ N) as (D1 & D2 & D3).
  unfold simplify. destruct (s_clean h (i_exact x) false) as [h1 e1] eqn:E1.
  destruct (oks_have _ _ _ _ _ _ (s_clean_ok h (i_exact x) _ false (ownx_own _ _ _ E)) E1) as (O1 & M1 & F1).
  pose proof (s_clean_have h (i_exact x) false) as H1. rewrite E1 in H1. cbn [snd] in H1.
  rewrite (ownx_have _ _ _ E) in H1.
  assert (own h1 (i_prefix x) (p_prefix p)) as P1 by (eapply own_keep; [exact P|apply dis_sym, D1|exact M1]).
  assert (own h1 (i_suffix x) (p_suffix p)) as S1 by (eapply own_keep; [exact S|apply dis_sym, D2|exact M1]).
  assert (dis e1 (i_prefix x)) as D1' by (apply dis_sym; eapply dis_fresh; [exact P|apply dis_sym, D1|exact F1]).
  assert (dis e1 (i_suffix x)) as D2' by (apply dis_sym; eapply dis_fresh; [exact S|apply dis_sym, D2|exact F1]).
  rewrite (own_elems _ _ _ O1).
  assert (forall a, In a (sid (i_exact x)) -> In a (ids x)) as IE by (intros a I; apply in_ids; tauto).
  assert (forall a, In a (sid (i_prefix x)) -> In a (ids x)) as IP by (intros a I; apply in_ids; tauto).
  assert (forall a, In a (sid (i_suffix x)) -> In a (ids x)) as IS by (intros a I; apply in_ids; tauto).
  destruct (p_exact p) as [e|] eqn:PE; cbn [phave pel] in *.
  - unfold p_simplify. rewrite PE. cbn zeta. set (l := clean_list false e) in *.
    unfold big. destruct (Nat.ltb _ _ || _ || _)%bool eqn:B.
    + (* moved to prefix and suffix *)
      destruct e1 as [sl|]; [|discriminate]. unfold add_exact. cbn [i_prefix i_suffix i_exact i_match i_can_empty].
      destruct (s_add_all grow h1 (i_prefix x) (map head2 l)) as [h2 p2] eqn:E2.
      destruct (oks_have _ _ _ _ _ _ (s_add_all_ok grow (map head2 l) h1 (i_prefix x) _ P1) E2) as (P2 & M2 & F2).
      assert (own h2 (i_suffix x) (p_suffix p)) as S2 by (eapply own_keep; [exact S1|apply dis_sym, D3|exact M2]).
      destruct (s_add_all grow h2 (i_suffix x) (map tail2 l)) as [h3 s3] eqn:E3.
      destruct (oks_have _ _ _ _ _ _ (s_add_all_ok grow (map tail2 l) h2 (i_suffix x) _ S2) E3) as (S3 & M3 & F3).
      assert (dis p2 (i_suffix x)) as D4 by (apply dis_sym; eapply dis_fresh; [exact S1|apply dis_sym, D3|exact F2]).
      assert (own h3 p2 (p_prefix p ++ map head2 l)) as P3 by (eapply own_keep; [exact P2|exact D4|exact M3]).
      assert (dis p2 s3) as D5 by (eapply dis_fresh; [exact P2|exact D4|exact F3]).
      cbn [have i_exact].
      eapply okr_trans with (h1 := h3) (B := ids (mkInfo (i_can_empty x) None p2 s3 (and_trigrams (i_match x) (elems h1 (Some sl))))).
      * eapply moves_trans; [eapply moves_weak; [exact M1|exact IE]| |].
        { eapply moves_trans; [eapply moves_weak with (B := ids x); [exact M2|exact IP]|eapply moves_weak with (B := ids x); [exact M3|exact IS]|apply fresh_refl]. }
        apply fresh_refl.
      * intros a I. rewrite in_ids in I. cbn in I. destruct I as [[]|[I|I]].
        -- destruct (F2 a I) as [J|J]; [left; auto|right]. destruct M1 as (L & _). lia.
        -- destruct (F3 a I) as [J|J]; [left; auto|right]. destruct M1 as (L & _), M2 as (L2 & _). lia.
      * apply sets_ok. split; [reflexivity|]. split; [exact P3|]. split; [exact S3|].
        split; [|split; [exact C|]].
        -- apply nodup_dis; [intros a []|intros a []|exact D5].
        -- cbn. rewrite <- M, <- (own_elems _ _ _ O1). reflexivity.
    + cbn [i_exact have]. rewrite H1. split; [|split].
      * cbn [fst snd]. split; [split; [exact H1|exact O1]|]. split; [exact P1|]. split; [exact S1|].
        split; [apply nodup_dis; assumption|]. split; [exact C|exact M].
      * eapply moves_weak; [exact M1|exact IE].
      * intros a I. rewrite in_ids in I. cbn in I. destruct I as [I|[I|I]]; [|left; auto|left; auto].
        destruct (F1 a I) as [J|J]; [left; auto|right; exact J].
  - destruct e1 as [sl|]; [discriminate|]. cbn [clean_list sort_strs dedup length min_len].
    cbn [i_exact have]. unfold p_simplify. rewrite PE.
    change (clean_list false []) with (@nil str). cbn [length min_len Nat.ltb Nat.leb max_exact orb andb i_exact have].
    eapply okr_trans with (h1 := h1) (B := ids (mkInfo (i_can_empty x) None (i_prefix x) (i_suffix x) (i_match x))).
    + eapply moves_weak; [exact M1|exact IE].
    + intros a I. rewrite in_ids in I. cbn in I. left. destruct I as [[]|[I|I]]; auto.
    + apply sets_ok. split; [rewrite PE; reflexivity|]. split; [exact P1|]. split; [exact S1|].
      split; [apply nodup_dis; [intros a []|intros a []|exact D3]|]. split; [exact C|exact M].
Qed.

Lemma oks_id : forall h s l, own h s l -> oks (fun h => (h, s)) s h l.
Proof. intros h s l O. split; [exact O|]. split; [apply moves_refl|]. split; [apply fresh_refl|reflexivity]. Qed.

Definition disj (x y : info) : Prop := forall a, In a (ids x) -> In a (ids y) -> False.

Lemma sim_exact_none : forall h x p, sim h x p -> have (i_exact x) = phave (p_exact p).
Proof. intros h x p (E & _). eapply ownx_have, E. Qed.

Lemma okr_simplify : forall A h h1 x p force, moves A h h1 -> fresh h A (ids x) -> sim h1 x p ->
  okr A h (simplify grow h1 x force) (p_simplify p force).
Proof. intros A h h1 x p force M F S. eapply okr_trans; [exact M|exact F|]. apply simplify_ok, S. Qed.

Lemma concat_ok : forall h x y p q, sim h x p -> sim h y q -> disj x y ->
  okr (ids x ++ ids y) h (concat grow h x y) (p_concat p q).
Proof.
  intros h x y p q SX SY D.
  destruct SX as (EX & PX & FX & NX & CX & MX). destruct SY as (EY & PY & FY & NY & CY & MY).
  destruct (dis_nodup _ NX) as (DX1 & DX2 & DX3). destruct (dis_nodup _ NY) as (DY1 & DY2 & DY3).
  assert (forall s t, (forall a, In a (sid s) -> In a (ids x)) -> (forall a, In a (sid t) -> In a (ids y)) -> dis s t) as DD.
  { intros s t A B a I J. exact (D a (A a I) (B a J)). }
  assert (forall a, In a (sid (i_exact x)) -> In a (ids x)) as XE by (intros a I; apply in_ids; tauto).
  assert (forall a, In a (sid (i_prefix x)) -> In a (ids x)) as XP by (intros a I; apply in_ids; tauto).
  assert (forall a, In a (sid (i_suffix x)) -> In a (ids x)) as XS by (intros a I; apply in_ids; tauto).
  assert (forall a, In a (sid (i_exact y)) -> In a (ids y)) as YE by (intros a I; apply in_ids; tauto).
  assert (forall a, In a (sid (i_prefix y)) -> In a (ids y)) as YP by (intros a I; apply in_ids; tauto).
  assert (forall a, In a (sid (i_suffix y)) -> In a (ids y)) as YS by (intros a I; apply in_ids; tauto).
  assert (forall a, In a (sid (i_prefix x)) -> In a (ids x ++ ids y)) as WP by (intros a I; apply in_or_app; left; auto).
  assert (forall a, In a (sid (i_suffix y)) -> In a (ids x ++ ids y)) as WS by (intros a I; apply in_or_app; right; auto).
  unfold concat. rewrite (ownx_have _ _ _ EX), (ownx_have _ _ _ EY), MX, MY, CX, CY.
  set (m := and_or (p_match p) (p_match q) QAnd).
  (* both exact *)
  destruct (phave (p_exact p) && phave (p_exact q))%bool eqn:BOTH.
  { destruct (p_exact p) as [e|] eqn:PE; [|discriminate]. destruct (p_exact q) as [f|] eqn:PF; [|discriminate].
    cbn [phave negb andb].
    destruct (s_cross grow h (i_exact x) (i_exact y) false) as [h1 e1] eqn:E1.
    destruct (oks_have _ None _ _ _ _ (s_cross_ok grow h _ _ e f false None (proj2 EX) (proj2 EY)) E1) as (O1 & M1 & F1).
    pose proof (s_cross_have grow h (i_exact x) (i_exact y) false) as H1. rewrite E1 in H1.
    unfold p_concat. rewrite PE, PF. fold m. apply okr_simplify.
    - eapply moves_weak; [exact M1|intros a []].
    - intros a I. rewrite in_ids in I. cbn in I. destruct I as [I|[[]|[]]].
      destruct (F1 a I) as [[]|J]. right. exact J.
    - split; [split; [exact H1|exact O1]|]. split; [reflexivity|]. split; [reflexivity|].
      split; [|split; reflexivity]. apply nodup_dis; [apply dis_none|apply dis_none|apply dis_none]. }
  (* sets *)
  set (pf := fun h => if phave (p_exact p) then s_cross grow h (i_exact x) (i_prefix y) false
             else if p_can p then s_union grow h (i_prefix x) (i_prefix y) false else (h, i_prefix x)).
  set (xy := p_concat_sets p q m).
  assert (oks pf (i_prefix x) h (p_prefix xy)) as KP.
  { unfold pf, xy, p_concat_sets. cbn [p_prefix]. destruct (p_exact p) as [e|]; cbn [phave].
    - apply s_cross_ok; [apply EX|exact PY].
    - destruct (p_can p); [apply s_union_ok; assumption|apply oks_id, PX]. }
  fold (pf h). destruct (pf h) as [h1 p1] eqn:E1.
  destruct (oks_have _ _ _ _ _ _ KP E1) as (P1 & M1 & R1). clear KP E1 pf.
  assert (own h1 (i_suffix x) (p_suffix p)) as XS1 by (eapply own_keep; [exact FX| |exact M1]; apply dis_sym, DX3).
  assert (own h1 (i_suffix y) (p_suffix q)) as YS1 by (eapply own_keep; [exact FY| |exact M1]; apply dis_sym, DD; assumption).
  assert (ownx h1 (i_exact y) (p_exact q)) as YE1 by (eapply ownx_keep; [exact EY| |exact M1]; apply dis_sym, DD; assumption).
  assert (own h1 (i_prefix y) (p_prefix q)) as YP1 by (eapply own_keep; [exact PY| |exact M1]; apply dis_sym, DD; assumption).
  set (sf := fun h => if phave (p_exact q) then s_cross grow h (i_suffix x) (i_exact y) true
             else if p_can q then s_union grow h (i_suffix y) (i_suffix x) true else (h, i_suffix y)).
  assert (oks sf (i_suffix y) h1 (p_suffix xy)) as KS.
  { unfold sf, xy, p_concat_sets. cbn [p_suffix]. destruct (p_exact q) as [e|]; cbn [phave].
    - apply s_cross_ok; [exact XS1|apply YE1].
    - destruct (p_can q); [apply s_union_ok; assumption|apply oks_id, YS1]. }
  fold (sf h1). destruct (sf h1) as [h2 s2] eqn:E2.
  destruct (oks_have _ _ _ _ _ _ KS E2) as (S2 & M2 & R2). clear KS E2 sf.
  assert (dis p1 (i_suffix y)) as D1.
  { apply dis_sym. eapply dis_fresh; [exact FY| |exact R1]; apply dis_sym, DD; assumption. }
  assert (own h2 p1 (p_prefix xy)) as P2 by (eapply own_keep; [exact P1| |exact M2]; exact D1).
  assert (dis p1 s2) as D2 by (eapply dis_fresh; [exact P1| |exact R2]; exact D1).
  assert (own h2 (i_suffix x) (p_suffix p)) as XS2 by (eapply own_keep; [exact XS1| |exact M2]; apply DD; assumption).
  assert (own h2 (i_prefix y) (p_prefix q)) as YP2 by (eapply own_keep; [exact YP1| |exact M2]; exact DY3).
  assert (moves (ids x ++ ids y) h h2) as M02.
  { eapply moves_trans; [eapply moves_weak; [exact M1|exact WP]|eapply moves_weak with (B := ids x ++ ids y); [exact M2|exact WS]|apply fresh_refl]. }
  assert (forall a, In a (sid p1) \/ In a (sid s2) -> In a (ids x ++ ids y) \/ length (st_arr h) <= a) as FR.
  { intros a [I|I].
    - destruct (R1 a I) as [J|J]; [left; auto|right; exact J].
    - destruct (R2 a I) as [J|J]; [left; auto|right]. destruct M1 as (L & _). lia. }
  rewrite (own_elems _ _ _ XS2), (own_elems _ _ _ YP2). cbn [i_can_empty i_exact i_prefix i_suffix i_match].
  assert (forall h3 mm, moves (ids x ++ ids y) h h3 -> own h3 p1 (p_prefix xy) -> own h3 s2 (p_suffix xy) ->
    okr (ids x ++ ids y) h (simplify grow h3 (mkInfo false None p1 s2 mm) false)
      (p_simplify (mkP false None (p_prefix xy) (p_suffix xy) mm) false)) as FIN.
  { intros h3 mm M03 OP OS. apply okr_simplify; [exact M03| |].
    - intros a I. rewrite in_ids in I. cbn in I. apply FR. tauto.
    - split; [reflexivity|]. split; [exact OP|]. split; [exact OS|]. split; [|split; reflexivity].
      apply nodup_dis; [intros a []|intros a []|exact D2]. }
  unfold p_concat. fold m. fold xy.
  destruct (p_exact p) as [e|]; destruct (p_exact q) as [f|]; cbn [phave negb andb] in *; try discriminate.
  - apply (FIN h2 m M02 P2 S2).
  - apply (FIN h2 m M02 P2 S2).
  - destruct (Nat.leb _ _ && _ && _)%bool.
    + destruct (s_cross grow h2 (i_suffix x) (i_prefix y) false) as [h3 c3] eqn:E3.
      destruct (oks_have _ None _ _ _ _ (s_cross_ok grow h2 _ _ _ _ false None XS2 YP2) E3) as (O3 & M3 & _).
      rewrite (own_elems _ _ _ O3). apply FIN.
      * eapply moves_trans; [exact M02|eapply moves_weak with (B := ids x ++ ids y); [exact M3|intros a []]|apply fresh_refl].
      * eapply own_keep; [exact P2| |exact M3]; apply dis_none.
      * eapply own_keep; [exact S2| |exact M3]; apply dis_none.
    + apply (FIN h2 m M02 P2 S2).
Qed.

(* the ghost flag *)
Lemma append_shared : forall h s l, st_shared (fst (append grow h s l)) = st_shared h.
Proof. intros h [sl|] l; cbn [append]; [destruct (fits _ _ _); reflexivity|destruct l; reflexivity]. Qed.
Lemma rewrite_shared : forall h s d, st_shared (fst (rewrite h s d)) = st_shared h.
Proof. intros h [sl|] d; reflexivity. Qed.
Lemma s_clean_shared : forall h s b, st_shared (fst (s_clean h s b)) = st_shared h.
Proof.
  intros h s b. unfold s_clean. destruct (rewrite h s _) as [h1 s1] eqn:E.
  rewrite rewrite_shared. apply (f_equal fst) in E. cbn in E. rewrite <- E. apply rewrite_shared.
Qed.
Lemma s_union_shared : forall h s t b, st_shared (fst (s_union grow h s t b)) = st_shared h.
Proof.
  intros h s t b. unfold s_union. destruct (append grow h s _) as [h1 s1] eqn:E.
  rewrite s_clean_shared. apply (f_equal fst) in E. cbn in E. rewrite <- E. apply append_shared.
Qed.
Lemma s_add_all_shared : forall l h s, st_shared (fst (s_add_all grow h s l)) = st_shared h.
Proof.
  unfold s_add_all. induction l as [|x l IH]; intros h s; [reflexivity|]. cbn [fold_left fst snd].
  destruct (append grow h s [x]) as [h1 s1] eqn:E. rewrite IH. apply (f_equal fst) in E. cbn in E. rewrite <- E. apply append_shared.
Qed.
Lemma s_cross_shared : forall h s t b, st_shared (fst (s_cross grow h s t b)) = st_shared h.
Proof.
  intros h s t b. unfold s_cross, literal, alloc.
  match goal with |- context [s_add_all grow ?h ?p ?l] => pose proof (s_add_all_shared l h p) as A; destruct (s_add_all grow h p l) as [h1 p1] end.
  rewrite s_clean_shared. exact A.
Qed.
Lemma s_copy_shared : forall h s, st_shared (fst (s_copy grow h s)) = st_shared h.
Proof. intros h s. unfold s_copy, literal, alloc. rewrite append_shared. reflexivity. Qed.
Lemma round_shared : forall h s b n, st_shared (fst (round h s b n)) = st_shared h.
Proof.
  intros h s b n. unfold round. destruct (rewrite h s _) as [h1 s1] eqn:E.
  rewrite s_clean_shared. apply (f_equal fst) in E. cbn in E. rewrite <- E. apply rewrite_shared.
Qed.
Lemma simplify_set_shared : forall h x b, st_shared (fst (simplify_set h x b)) = st_shared h.
Proof.
  intros h x b. unfold simplify_set.
  pose proof (s_clean_shared h (if b then i_suffix x else i_prefix x) b) as A.
  destruct (s_clean h _ b) as [h1 t1]. cbn [fst] in A.
  pose proof (round_shared h1 t1 b 3) as B. destruct (round h1 t1 b 3) as [h2 t2]. cbn [fst] in B.
  assert (forall c h t n, st_shared (fst (if c : bool then round h t b n else (h, t))) = st_shared h) as R.
  { intros [|] h' t' n; [apply round_shared|reflexivity]. }
  match goal with |- context [if ?c then round ?h ?t b 2 else _] => pose proof (R c h t 2) as C; destruct (if c then round h t b 2 else (h, t)) as [h3 t3] end.
  cbn [fst] in C.
  match goal with |- context [if ?c then round ?h ?t b 1 else _] => pose proof (R c h t 1) as D; destruct (if c then round h t b 1 else (h, t)) as [h4 t4] end.
  cbn [fst] in D.
  match goal with |- context [rewrite ?h ?t ?d] => pose proof (rewrite_shared h t d) as E; destruct (rewrite h t d) as [h5 t5] end.
  cbn [fst] in E. cbn [fst]. congruence.
Qed.
Lemma simplify_shared : forall h x force, st_shared (fst (simplify grow h x force)) = st_shared h.
Proof.
  intros h x force. unfold simplify.
  pose proof (s_clean_shared h (i_exact x) false) as A. destruct (s_clean h (i_exact x) false) as [h1 e1]. cbn [fst] in A.
  assert (forall h x, st_shared (fst (let '(h, i) := simplify_set h x false in simplify_set h i true)) = st_shared h) as T.
  { intros h' x'. pose proof (simplify_set_shared h' x' false) as B. destruct (simplify_set h' x' false) as [h2 x2].
    cbn [fst] in B. rewrite simplify_set_shared. exact B. }
  destruct (Nat.ltb _ _ || _ || _)%bool.
  - match goal with |- context [s_add_all grow ?h ?p ?l] => pose proof (s_add_all_shared l h p) as B; destruct (s_add_all grow h p l) as [h2 p2] end.
    cbn [fst] in B.
    match goal with |- context [s_add_all grow ?h ?p ?l] => pose proof (s_add_all_shared l h p) as C; destruct (s_add_all grow h p l) as [h3 p3] end.
    cbn [fst] in C. cbn [i_exact have]. rewrite T. congruence.
  - cbn [i_exact]. destruct (have e1); [exact A|]. rewrite T. exact A.
Qed.
Lemma concat_shared : forall h x y, st_shared (fst (concat grow h x y)) = st_shared h.
Proof.
  intros h x y. unfold concat. cbv zeta.
  match goal with |- context [let '(_, _) := ?t in _] =>
    assert (st_shared (fst t) = st_shared h) as A; [|destruct t as [h1 xy]] end.
  { destruct (have (i_exact x) && have (i_exact y))%bool.
    - pose proof (s_cross_shared h (i_exact x) (i_exact y) false) as B. destruct (s_cross _ _ _ _ _). exact B.
    - match goal with |- context [let '(_, _) := ?t in _] =>
        assert (st_shared (fst t) = st_shared h) as A; [|destruct t as [h1 p1]] end.
      { destruct (have (i_exact x)); [apply s_cross_shared|]. destruct (i_can_empty x); [apply s_union_shared|reflexivity]. }
      match goal with |- context [let '(_, _) := ?t in _] =>
        assert (st_shared (fst t) = st_shared h1) as B; [|destruct t as [h2 s2]] end.
      { destruct (have (i_exact y)); [apply s_cross_shared|]. destruct (i_can_empty y); [apply s_union_shared|reflexivity]. }
      cbn [fst] in *. congruence. }
  cbn [fst] in A.
  match goal with |- context [let '(_, _) := ?t in _] =>
    assert (st_shared (fst t) = st_shared h1) as B; [|destruct t as [h2 xy2]] end.
  { match goal with |- context [if ?c then _ else _] => destruct c end; [|reflexivity].
    pose proof (s_cross_shared h1 (i_suffix x) (i_prefix y) false) as B. destruct (s_cross _ _ _ _ _). exact B. }
  rewrite simplify_shared. cbn [fst] in *. congruence.
Qed.

(** When the appended strings do not fit, the operand keeps its storage. *)
Lemma append_new : forall h s l m, own h s l -> have s = true -> fits h s m = false -> oks (fun h => append grow h s m) None h (l ++ m).
Proof.
  intros h [sl|] l m O H F; [|discriminate]. unfold oks. cbn [append]. rewrite F, (own_elems _ _ _ O).
  apply (alloc_ok h _ _ None).
Qed.
Lemma s_union_new : forall h s t l m b, own h s l -> own h t m -> have s = true -> fits h s m = false ->
  oks (fun h => s_union grow h s t b) None h (union_list b l m).
Proof.
  intros h s t l m b O T H F. unfold s_union, oks. rewrite (own_elems _ _ _ T).
  pose proof (oks_bind (fun h => append grow h s m) (fun h s => s_clean h s b) None h (l ++ m) (union_list b l m)) as B.
  unfold oks in B. apply B; [apply append_new; assumption|]. intros h1 s1 _ O1. apply s_clean_ok, O1.
Qed.

Lemma alternate_ok : forall h x y p q, sim h x p -> sim h y q -> disj x y ->
  st_shared (fst (alternate grow h x y)) = false ->
  okr (ids x ++ ids y) h (alternate grow h x y) (p_alternate p q).
Proof.
  intros h x y p q SX SY D SH.
  destruct SX as (EX & PX & FX & NX & CX & MX). destruct SY as (EY & PY & FY & NY & CY & MY).
  destruct (dis_nodup _ NX) as (DX1 & DX2 & DX3). destruct (dis_nodup _ NY) as (DY1 & DY2 & DY3).
  assert (forall s t, (forall a, In a (sid s) -> In a (ids x)) -> (forall a, In a (sid t) -> In a (ids y)) -> dis s t) as DD.
  { intros s t A B a I J. exact (D a (A a I) (B a J)). }
  assert (forall a, In a (sid (i_exact x)) -> In a (ids x)) as XE by (intros a I; apply in_ids; tauto).
  assert (forall a, In a (sid (i_prefix x)) -> In a (ids x)) as XP by (intros a I; apply in_ids; tauto).
  assert (forall a, In a (sid (i_suffix x)) -> In a (ids x)) as XS by (intros a I; apply in_ids; tauto).
  assert (forall a, In a (sid (i_exact y)) -> In a (ids y)) as YE by (intros a I; apply in_ids; tauto).
  assert (forall a, In a (sid (i_prefix y)) -> In a (ids y)) as YP by (intros a I; apply in_ids; tauto).
  assert (forall a, In a (sid (i_suffix y)) -> In a (ids y)) as YS by (intros a I; apply in_ids; tauto).
  assert (forall a, In a (ids x) -> In a (ids x ++ ids y)) as WX by (intros a I; apply in_or_app; left; exact I).
  (* finish: prefix and suffix come from x or are new *)
  assert (forall h3 pr su P S e m, moves (ids x ++ ids y) h h3 -> own h3 pr P -> own h3 su S -> dis pr su ->
    fresh h (ids x) (sid pr) -> fresh h (ids x) (sid su) ->
    okr (ids x ++ ids y) h (simplify grow h3 (mkInfo e None pr su m) false) (p_simplify (mkP e None P S m) false)) as FIN.
  { intros h3 pr su P S e m M3 OP OS DP F1 F2. apply okr_simplify; [exact M3| |].
    - intros a I. rewrite in_ids in I. cbn in I. destruct I as [[]|[I|I]].
      + destruct (F1 a I); [left; auto|right; assumption].
      + destruct (F2 a I); [left; auto|right; assumption].
    - split; [reflexivity|]. split; [exact OP|]. split; [exact OS|]. split; [|split; reflexivity].
      apply nodup_dis; [intros a []|intros a []|exact DP]. }
  unfold alternate in *. unfold p_alternate.
  rewrite (ownx_have _ _ _ EX), (ownx_have _ _ _ EY) in *. rewrite CX, CY in *. cbv zeta in *.
  destruct (p_exact p) as [e|] eqn:PE; destruct (p_exact q) as [f|] eqn:PF; cbn [phave andb pel] in *.
  - destruct (s_union grow h (i_exact x) (i_exact y) false) as [h1 e1] eqn:E1.
    destruct EX as (HX & EX). destruct EY as (HY & EY).
    destruct (oks_have _ _ _ _ _ _ (s_union_ok grow h _ _ e f false EX EY) E1) as (O1 & M1 & F1).
    pose proof (s_union_have grow h (i_exact x) (i_exact y) false HX) as H1. rewrite E1 in H1.
    rewrite MX, MY. apply okr_simplify.
    + eapply moves_weak; [exact M1|]. auto.
    + intros a I. rewrite in_ids in I. cbn in I. destruct I as [I|[[]|[]]].
      destruct (F1 a I) as [J|J]; [left; auto|right; exact J].
    + split; [split; [exact H1|exact O1]|]. split; [reflexivity|]. split; [reflexivity|].
      split; [|split; reflexivity]. apply nodup_dis; apply dis_none.
  - (* x exact, y not *)
    destruct EX as (HX & EX). rewrite (own_elems _ _ _ PY) in *.
    destruct (s_union grow h (i_exact x) (i_prefix y) false) as [h1 p1] eqn:E1.
    destruct (s_union grow h1 (i_exact x) (i_suffix y) true) as [h2 s2] eqn:E2.
    rewrite simplify_shared in SH. cbn [st_shared] in SH. apply orb_false_iff in SH. destruct SH as (SH & B2).
    apply orb_false_iff in SH. destruct SH as (_ & B1).
    destruct (oks_have _ None _ _ _ _ (s_union_new h _ _ e _ false EX PY HX B1) E1) as (O1 & M1 & F1).
    assert (own h1 (i_exact x) e) as EX1. { eapply own_keep; [exact EX| |exact M1]; apply dis_none. }
    assert (own h1 (i_suffix y) (p_suffix q)) as YS1. { eapply own_keep; [exact FY| |exact M1]; apply dis_none. }
    rewrite (own_elems _ _ _ YS1) in B2.
    destruct (oks_have _ None _ _ _ _ (s_union_new h1 _ _ e _ true EX1 YS1 HX B2) E2) as (O2 & M2 & F2).
    assert (own h2 (i_exact x) e) as EX2. { eapply own_keep; [exact EX1| |exact M2]; apply dis_none. }
    assert (own h2 p1 (union_list false e (p_prefix q))) as P2. { eapply own_keep; [exact O1| |exact M2]; apply dis_none. }
    set (h3 := mkStore (st_arr h2) (st_shared h2 || fits h (i_exact x) (p_prefix q) || fits h1 (i_exact x) (elems h1 (i_suffix y)))).
    unfold add_exact. destruct (i_exact x) as [sl|] eqn:IX; [|discriminate]. cbn [i_match].
    change (elems h3 (Some sl)) with (elems h2 (Some sl)). rewrite (own_elems _ _ _ EX2), MX, MY.
    unfold p_add_exact. rewrite PE. apply FIN.
    + split; [destruct M1, M2; cbn; lia|]. intros a La Na. destruct M1 as (L1 & M1), M2 as (L2 & M2).
      change (arr h3 a) with (arr h2 a). rewrite M2; [apply M1; [exact La|intros []]|lia|intros []].
    + exact P2.
    + exact O2.
    + eapply dis_fresh; [exact O1|apply dis_none|exact F2].
    + eapply fresh_weak; [exact F1|intros a []].
    + intros a I. destruct (F2 a I) as [[]|J]. right. destruct M1. lia.
  - (* y exact, x not *)
    destruct EY as (HY & EY).
    destruct (s_union grow h (i_prefix x) (i_exact y) false) as [h1 p1] eqn:E1.
    destruct (oks_have _ _ _ _ _ _ (s_union_ok grow h _ _ _ _ false PX EY) E1) as (O1 & M1 & F1).
    assert (own h1 (i_exact y) f) as EY1. { eapply own_keep; [exact EY| |exact M1]; apply dis_sym, DD; assumption. }
    assert (own h1 (i_suffix x) (p_suffix p)) as XS1. { eapply own_keep; [exact FX| |exact M1]; apply dis_sym, DX3. }
    assert (dis p1 (i_suffix x)) as DP1. { apply dis_sym. eapply dis_fresh; [exact FX| |exact F1]. apply dis_sym, DX3. }
    destruct (s_copy grow h1 (i_exact y)) as [h2 c2] eqn:E2.
    destruct (oks_have _ None _ _ _ _ (s_copy_ok grow h1 _ _ None EY1) E2) as (O2 & M2 & F2).
    assert (own h2 (i_exact y) f) as EY2. { eapply own_keep; [exact EY1| |exact M2]; apply dis_none. }
    assert (own h2 (i_suffix x) (p_suffix p)) as XS2. { eapply own_keep; [exact XS1| |exact M2]; apply dis_none. }
    assert (own h2 p1 (union_list false (p_prefix p) f)) as P2. { eapply own_keep; [exact O1| |exact M2]; apply dis_none. }
    destruct (s_union grow h2 (i_suffix x) c2 true) as [h3 s3] eqn:E3.
    destruct (oks_have _ _ _ _ _ _ (s_union_ok grow h2 _ _ _ _ true XS2 O2) E3) as (O3 & M3 & F3).
    assert (own h3 (i_exact y) f) as EY3. { eapply own_keep; [exact EY2| |exact M3]; apply dis_sym, DD; assumption. }
    assert (own h3 p1 (union_list false (p_prefix p) f)) as P3. { eapply own_keep; [exact P2| |exact M3]; exact DP1. }
    unfold add_exact. destruct (i_exact y) as [sl|] eqn:IY; [|discriminate]. cbn [i_match].
    rewrite (own_elems _ _ _ EY3), MX, MY. unfold p_add_exact. rewrite PF. apply FIN.
    + eapply moves_trans; [eapply moves_weak; [exact M1|]; auto| |apply fresh_refl].
      eapply moves_trans; [eapply moves_weak; [exact M2|intros a []]| |apply fresh_refl].
      eapply moves_weak; [exact M3|]. auto.
    + exact P3.
    + exact O3.
    + eapply dis_fresh; [exact P2|exact DP1|exact F3].
    + eapply fresh_weak; [exact F1|auto].
    + intros a I. destruct (F3 a I) as [J|J]; [left; auto|right]. destruct M1, M2. lia.
  - destruct (s_union grow h (i_prefix x) (i_prefix y) false) as [h1 p1] eqn:E1.
    destruct (oks_have _ _ _ _ _ _ (s_union_ok grow h _ _ _ _ false PX PY) E1) as (O1 & M1 & F1).
    assert (own h1 (i_suffix y) (p_suffix q)) as YS1. { eapply own_keep; [exact FY| |exact M1]; apply dis_sym, DD; assumption. }
    assert (own h1 (i_suffix x) (p_suffix p)) as XS1. { eapply own_keep; [exact FX| |exact M1]; apply dis_sym, DX3. }
    assert (dis p1 (i_suffix x)) as DP1. { apply dis_sym. eapply dis_fresh; [exact FX| |exact F1]. apply dis_sym, DX3. }
    destruct (s_union grow h1 (i_suffix x) (i_suffix y) true) as [h2 s2] eqn:E2.
    destruct (oks_have _ _ _ _ _ _ (s_union_ok grow h1 _ _ _ _ true XS1 YS1) E2) as (O2 & M2 & F2).
    rewrite MX, MY. apply FIN.
    + eapply moves_trans; [eapply moves_weak; [exact M1|]; auto| |apply fresh_refl].
      eapply moves_weak; [exact M2|]. auto.
    + eapply own_keep; [exact O1|exact DP1|exact M2].
    + exact O2.
    + eapply dis_fresh; [exact O1|exact DP1|exact F2].
    + eapply fresh_weak; [exact F1|auto].
    + intros a I. destruct (F2 a I) as [J|J]; [left; auto|right]. destruct M1. lia.
Qed.

Lemma alternate_shared : forall h x y, st_shared h = true -> st_shared (fst (alternate grow h x y)) = true.
Proof.
  intros h x y H. unfold alternate. cbv zeta.
  match goal with |- context [let '(_, _) := ?t in _] =>
    assert (st_shared (fst t) = true) as A; [|destruct t as [h1 xy]; rewrite simplify_shared; exact A] end.
  destruct (have (i_exact x) && have (i_exact y))%bool; [|destruct (have (i_exact x)); [|destruct (have (i_exact y))]].
  - pose proof (s_union_shared h (i_exact x) (i_exact y) false) as B. destruct (s_union _ _ _ _ _). cbn [fst] in *. congruence.
  - pose proof (s_union_shared h (i_exact x) (i_prefix y) false) as B. destruct (s_union grow h _ _ false) as [h1 p1]. cbn [fst] in *.
    pose proof (s_union_shared h1 (i_exact x) (i_suffix y) true) as C. destruct (s_union grow h1 _ _ true) as [h2 s2]. cbn [fst st_shared] in *.
    rewrite C, B, H. reflexivity.
  - pose proof (s_union_shared h (i_prefix x) (i_exact y) false) as B. destruct (s_union grow h _ _ false) as [h1 p1]. cbn [fst] in *.
    pose proof (s_copy_shared h1 (i_exact y)) as C. destruct (s_copy grow h1 _) as [h2 c2]. cbn [fst] in *.
    pose proof (s_union_shared h2 (i_suffix x) c2 true) as E. destruct (s_union grow h2 _ _ true) as [h3 s3]. cbn [fst] in *. congruence.
  - pose proof (s_union_shared h (i_prefix x) (i_prefix y) false) as B. destruct (s_union grow h _ _ false) as [h1 p1]. cbn [fst] in *.
    pose proof (s_union_shared h1 (i_suffix x) (i_suffix y) true) as C. destruct (s_union grow h1 _ _ true) as [h2 s2]. cbn [fst] in *. congruence.
Qed.

(* analyze *)
Variable simple_fold : N -> N.
Variable orbit_max : nat.

Lemma literal_ok : forall h l A, own (fst (literal h l)) (snd (literal h l)) l /\ moves A h (fst (literal h l)) /\
  fresh h A (sid (snd (literal h l))) /\ have (snd (literal h l)) = true /\ st_shared (fst (literal h l)) = st_shared h.
Proof.
  intros h l A. pose proof (alloc_ok h (length l) l None) as K. unfold oks in K. unfold literal.
  destruct (alloc h (length l) l) as [h1 s1] eqn:E. destruct K as (O & M & F & S).
  cbn [fst snd]. split; [exact O|]. split; [eapply moves_weak; [exact M|intros a []]|].
  split; [eapply fresh_weak; [exact F|intros a []]|]. split; [|exact S].
  unfold alloc in E. injection E as <- <-. reflexivity.
Qed.

Lemma exact_sim : forall h s l e m, own h s l -> have s = true -> sim h (mkInfo e s None None m) (mkP e (Some l) [] [] m).
Proof.
  intros h s l e m O H. split; [split; assumption|]. split; [reflexivity|]. split; [reflexivity|].
  split; [|split; reflexivity]. apply nodup_dis; apply dis_none.
Qed.

Lemma empty_ok : forall h, okr [] h (empty_string h) p_empty /\ st_shared (fst (empty_string h)) = st_shared h.
Proof.
  intros h. unfold empty_string. destruct (literal_ok h [[]] []) as (O & M & F & H & S).
  destruct (literal h [[]]) as [h1 s1]. cbn [fst snd] in *. split; [|exact S]. split; [|split].
  - apply exact_sim; assumption.
  - exact M.
  - intros a I. rewrite in_ids in I. cbn in I. apply F. tauto.
Qed.

Lemma any_ok : forall e h, okr [] h (any_of e h) (p_any e) /\ st_shared (fst (any_of e h)) = st_shared h.
Proof.
  intros e h. unfold any_of. destruct (literal_ok h [[]] []) as (O & M & F & H & S).
  destruct (literal h [[]]) as [h1 s1]. cbn [fst snd] in *.
  destruct (literal_ok h1 [[]] []) as (O2 & M2 & F2 & H2 & S2). destruct (literal h1 [[]]) as [h2 s2]. cbn [fst snd] in *.
  split; [|congruence]. split; [|split]; cbn [fst snd].
  - split; [reflexivity|]. split; [eapply own_keep; [exact O|apply dis_none|exact M2]|]. split; [exact O2|].
    split; [|split; reflexivity]. apply nodup_dis; [intros a []|intros a []|].
    eapply dis_fresh; [exact O|apply dis_none|exact F2].
  - eapply moves_trans; [exact M|exact M2|apply fresh_refl].
  - intros a I. rewrite in_ids in I. cbn in I. destruct I as [[]|[I|I]]; [apply F, I|].
    destruct (F2 a I) as [[]|J]. right. destruct M. lia.
Qed.

Lemma none_ok : forall h, okr [] h (no_match h) p_none /\ st_shared (fst (no_match h)) = st_shared h.
Proof.
  intros h. split; [|reflexivity]. split; [|split]; cbn [fst snd no_match].
  - split; [reflexivity|]. split; [reflexivity|]. split; [reflexivity|]. split; [constructor|split; reflexivity].
  - apply moves_refl.
  - intros a [].
Qed.

Lemma exact_ok : forall h h1 s l m force, own h1 s l -> have s = true -> moves [] h h1 -> fresh h [] (sid s) ->
  okr [] h (simplify grow h1 (mkInfo false s None None m) force) (p_simplify (mkP false (Some l) [] [] m) force).
Proof.
  intros h h1 s l m force O H M F. apply okr_simplify; [exact M| |apply exact_sim; assumption].
  intros a I. rewrite in_ids in I. cbn in I. apply F. tauto.
Qed.

Lemma class_ok : forall rs h, okr [] h (char_class grow h rs) (p_class rs) /\ st_shared (fst (char_class grow h rs)) = st_shared h.
Proof.
  intros [|r [|r2 rs]] h; unfold char_class, p_class.
  - apply none_ok.
  - destruct (literal_ok h [encode_rune r] []) as (O & M & F & H & S). destruct (literal h _) as [h1 s1]. cbn [fst snd] in *.
    split; [apply exact_ok; assumption|]. rewrite simplify_shared. exact S.
  - destruct (Z.ltb 100 _); [apply any_ok|].
    destruct (literal_ok h [] []) as (O & M & F & H & S). destruct (literal h []) as [h1 s1]. cbn [fst snd] in *.
    set (l := map encode_rune (class_runes (r :: r2 :: rs))).
    pose proof (s_add_all_shared l h1 s1) as S2. pose proof (s_add_all_have grow l h1 s1 H) as H2.
    destruct (s_add_all grow h1 s1 l) as [h2 s2] eqn:E2. cbn [fst snd] in *.
    destruct (oks_have _ _ _ _ _ _ (s_add_all_ok grow l h1 s1 [] O) E2) as (O2 & M2 & F2). cbn [app] in O2.
    split; [|rewrite simplify_shared; congruence]. apply exact_ok; [exact O2|exact H2| |].
    + eapply moves_trans; [exact M|exact M2|exact F].
    + eapply fresh_trans; [exact F|exact F2|apply M].
Qed.

Lemma okr_disj : forall h x p r q, sim h x p -> okr [] h r q -> sim (fst r) x p /\ disj x (snd r) /\ sim (fst r) (snd r) q.
Proof.
  intros h x p r q S (S2 & M & F). split; [|split; [|exact S2]].
  - eapply sim_move; [exact S|exact M|intros a _ []].
  - intros a I J. destruct (F a J) as [[]|K]. pose proof (sim_lt _ _ _ a S I). lia.
Qed.

(** Sequencing: x is analysed first, then y, then they are combined. *)
Lemma okr_two : forall h h1 x p h2 y q r pr, okr [] h (h1, x) p -> okr [] h1 (h2, y) q ->
  okr (ids x ++ ids y) h2 r pr -> okr [] h r pr.
Proof.
  intros h h1 x p h2 y q r pr (S1 & M1 & F1) (S2 & M2 & F2) K. cbn [fst snd] in *.
  eapply okr_trans; [| |exact K].
  - eapply moves_trans; [exact M1|exact M2|apply fresh_refl].
  - intros a I. apply in_app_or in I. destruct I as [I|I]; [apply F1, I|].
    destruct (F2 a I) as [[]|J]. right. destruct M1. lia.
Qed.

Lemma concat_two : forall h h1 x p h2 y q, okr [] h (h1, x) p -> okr [] h1 (h2, y) q ->
  okr [] h (concat grow h2 x y) (p_concat p q).
Proof.
  intros h h1 x p h2 y q K1 K2. eapply okr_two; [exact K1|exact K2|].
  destruct (okr_disj _ _ _ _ _ (proj1 K1) K2) as (A & B & C). apply concat_ok; assumption.
Qed.
Lemma alternate_two : forall h h1 x p h2 y q, okr [] h (h1, x) p -> okr [] h1 (h2, y) q ->
  st_shared (fst (alternate grow h2 x y)) = false ->
  okr [] h (alternate grow h2 x y) (p_alternate p q).
Proof.
  intros h h1 x p h2 y q K1 K2 SH. eapply okr_two; [exact K1|exact K2|].
  destruct (okr_disj _ _ _ _ _ (proj1 K1) K2) as (A & B & C). apply alternate_ok; assumption.
Qed.

Lemma folded_ok : forall rs h, okr [] h (folded_literal grow simple_fold orbit_max h rs) (p_folded simple_fold orbit_max rs) /\
  st_shared (fst (folded_literal grow simple_fold orbit_max h rs)) = st_shared h.
Proof.
  assert (forall rs h0 h i p, okr [] h0 (h, i) p ->
    okr [] h0 (fold_left (fun hi r => let '(h, i) := folded_rune grow simple_fold orbit_max (fst hi) r in concat grow h (snd hi) i) rs (h, i))
      (fold_left (fun i r => p_concat i (p_folded_rune simple_fold orbit_max r)) rs p) /\
    st_shared (fst (fold_left (fun hi r => let '(h, i) := folded_rune grow simple_fold orbit_max (fst hi) r in concat grow h (snd hi) i) rs (h, i))) = st_shared h) as L.
  { induction rs as [|r rs IH]; intros h0 h i p K; cbn [fold_left fst snd]; [split; [exact K|reflexivity]|].
    destruct (class_ok (r :: r :: flat_map (fun x => [x; x]) (orbit simple_fold orbit_max r r)) h) as (C & S).
    fold (folded_rune grow simple_fold orbit_max h r) in C, S. fold (p_folded_rune simple_fold orbit_max r) in C.
    destruct (folded_rune grow simple_fold orbit_max h r) as [h1 i1]. cbn [fst] in S.
    pose proof (concat_two _ _ _ _ _ _ _ K C) as K2. pose proof (concat_shared h1 i i1) as S2.
    destruct (concat grow h1 i i1) as [h2 i2]. cbn [fst] in S2.
    destruct (IH _ _ _ _ K2) as (A & B). split; [exact A|]. congruence. }
  intros rs h. unfold folded_literal, p_folded. destruct rs as [|r [|r2 rs]].
  - apply empty_ok.
  - apply class_ok.
  - destruct (empty_ok h) as (K & S). destruct (empty_string h) as [h1 i1] eqn:E. cbn [fst] in S.
    destruct (L (r :: r2 :: rs) h h1 i1 p_empty K) as (A & B). split; [exact A|]. congruence.
Qed.

Definition good (h : store) (r : store * info) (p : pinfo) : Prop :=
  (st_shared h = true -> st_shared (fst r) = true) /\ (st_shared (fst r) = false -> okr [] h r p).

Lemma good_of : forall h r p, okr [] h r p /\ st_shared (fst r) = st_shared h -> good h r p.
Proof. intros h r p (K & S). split; [congruence|intros _; exact K]. Qed.

Lemma plus_ok : forall h h1 i p, good h (h1, i) p ->
  good h (if have (i_exact i) then
      let '(h2, s) := s_copy grow h1 (i_exact i) in
      simplify grow h2 (mkInfo (i_can_empty i) None (i_exact i) s (i_match i)) false
    else simplify grow h1 i false) (p_plus p).
Proof.
  intros h h1 i p (G1 & G2). cbn [fst] in *. unfold good.
  assert (st_shared (fst (if have (i_exact i) then
      let '(h2, s) := s_copy grow h1 (i_exact i) in
      simplify grow h2 (mkInfo (i_can_empty i) None (i_exact i) s (i_match i)) false
    else simplify grow h1 i false)) = st_shared h1) as SH.
  { destruct (have (i_exact i)); [|apply simplify_shared].
    pose proof (s_copy_shared h1 (i_exact i)) as A. destruct (s_copy grow h1 (i_exact i)) as [h2 s2].
    rewrite simplify_shared. exact A. }
  rewrite SH. split; [exact G1|]. intros S. destruct (G2 S) as (SI & M & F). cbn [fst snd] in *.
  pose proof SI as (E & P & Q & N & C & MM). rewrite (ownx_have _ _ _ E). unfold p_plus.
  destruct (p_exact p) as [e|] eqn:PE; cbn [phave].
  - destruct (s_copy grow h1 (i_exact i)) as [h2 s2] eqn:E2. destruct E as (HE & E).
    destruct (oks_have _ None _ _ _ _ (s_copy_ok grow h1 _ _ None E) E2) as (O2 & M2 & F2).
    apply okr_simplify.
    + eapply moves_trans; [exact M|exact M2|apply fresh_refl].
    + intros a I. rewrite in_ids in I. cbn in I. destruct I as [[]|[I|I]].
      * apply F. apply in_ids. tauto.
      * destruct (F2 a I) as [[]|J]. right. destruct M. lia.
    + split; [reflexivity|]. split; [eapply own_keep; [exact E|apply dis_none|exact M2]|]. split; [exact O2|].
      split; [|split; assumption]. apply nodup_dis; [intros a []|intros a []|].
      eapply dis_fresh; [exact E|apply dis_none|exact F2].
  - apply okr_simplify; [exact M|exact F|exact SI].
Qed.

(** The list traversal of fold (regexp.go:543-555) as a separate function. *)
Definition fold_all (ana : regexp -> store -> store * info) :=
  fix fold (f : store -> info -> info -> store * info) (acc : option info)
           (l : list regexp) (h : store) {struct l} : store * option info :=
    match l with
    | [] => (h, acc)
    | r :: l' =>
        let '(h, i) := ana r h in
        match acc with
        | None => fold f (Some i) l' h
        | Some x => let '(h, xy) := f h x i in fold f (Some xy) l' h
        end
    end.

Notation ana := (analyze grow simple_fold orbit_max).
Notation pana := (p_analyze simple_fold orbit_max).

Lemma analyze_concat : forall rs h, ana (RConcat rs) h =
  match fold_all ana (concat grow) None rs h with (h, Some i) => (h, i) | (h, None) => empty_string h end.
Proof. reflexivity. Qed.
Lemma analyze_alternate : forall rs h, ana (RAlternate rs) h =
  match fold_all ana (alternate grow) None rs h with (h, Some i) => (h, i) | (h, None) => no_match h end.
Proof. reflexivity. Qed.

Lemma fold_ok : forall f pf,
  (forall h0 h1 x p h2 y q, okr [] h0 (h1, x) p -> okr [] h1 (h2, y) q -> st_shared (fst (f h2 x y)) = false -> okr [] h0 (f h2 x y) (pf p q)) ->
  (forall h x y, st_shared h = true -> st_shared (fst (f h x y)) = true) ->
  forall rs, Forall (fun r => forall h, good h (ana r h) (pana r)) rs ->
  forall h0 h acc pacc,
  (match acc, pacc with
   | None, None => h0 = h
   | Some x, Some p => st_shared h = false -> okr [] h0 (h, x) p
   | _, _ => False
   end) ->
  let r := fold_all ana f acc rs h in
  (st_shared h = true -> st_shared (fst r) = true) /\
  (st_shared (fst r) = false ->
   match snd r, p_fold pf pacc (map pana rs) with
   | None, None => h0 = fst r
   | Some x, Some p => okr [] h0 (fst r, x) p
   | _, _ => False
   end).
Proof.
  intros f pf F1 F2. induction rs as [|r rs IH]; intros G h0 h acc pacc K; cbv zeta.
  - cbn [fold_all map fst snd p_fold fold_left]. split; [auto|]. intros S.
    destruct acc as [x|], pacc as [p|]; try contradiction; auto.
  - inversion G as [|? ? G1 G2]; subst. cbn [fold_all map]. unfold p_fold. cbn [fold_left]. fold (fold_all ana).
    destruct (G1 h) as (A1 & A2). destruct (ana r h) as [h1 i1]. cbn [fst] in A1, A2.
    destruct acc as [x|], pacc as [p|]; try contradiction.
    + pose proof (F2 h1 x i1) as B. pose proof (F1 h0 h x p h1 i1 (pana r)) as C.
      destruct (f h1 x i1) as [h2 xy]. cbn [fst] in B, C.
      assert (st_shared h2 = false -> st_shared h1 = false) as D by (destruct (st_shared h1); auto; intros; rewrite B in *; auto).
      assert (st_shared h1 = false -> st_shared h = false) as E by (destruct (st_shared h); auto; intros; rewrite A1 in *; auto).
      destruct (IH G2 h0 h2 (Some xy) (Some (pf p (pana r)))) as (I1 & I2).
      { intros S. apply C; [apply K; auto|apply A2; auto|exact S]. }
      split; [intros S; apply I1, B, A1, S|exact I2].
    + subst h0. destruct (IH G2 h h1 (Some i1) (Some (pana r)) A2) as (I1 & I2).
      split; [intros S; apply I1, A1, S|exact I2].
Qed.

Theorem analyze_ok : forall re h, good h (ana re h) (pana re).
Proof.
  induction re using regexp_ind'; intros h; try (apply good_of; first [apply none_ok|apply empty_ok|apply any_ok|apply class_ok]).
  - destruct f; [apply good_of; apply folded_ok|]. cbn [analyze p_analyze].
    destruct (literal_ok h [encode_runes rs] []) as (O & M & F & H & S). destruct (literal h _) as [h1 s1]. cbn [fst snd] in *.
    apply good_of. split; [apply exact_ok; assumption|]. rewrite simplify_shared. exact S.
  - apply IHre.
  - cbn [analyze p_analyze]. specialize (IHre h). destruct (ana re h) as [h1 i1]. apply plus_ok, IHre.
  - cbn [analyze p_analyze]. destruct (IHre h) as (G1 & G2). destruct (ana re h) as [h1 i1]. cbn [fst] in *.
    destruct (empty_ok h1) as (K & S). destruct (empty_string h1) as [h2 e2]. cbn [fst] in S.
    split.
    + intros T. apply alternate_shared. rewrite S. auto.
    + intros T. eapply alternate_two; [apply G2|exact K|exact T].
      destruct (st_shared h1) eqn:X; [|reflexivity]. rewrite alternate_shared in T; [discriminate|congruence].
  - cbn [analyze p_analyze]. destruct (Nat.eqb a 0); [apply good_of, any_ok|].
    specialize (IHre h). destruct (ana re h) as [h1 i1]. apply plus_ok, IHre.
  - rewrite analyze_concat. cbn [p_analyze].
    destruct (fold_ok (concat grow) p_concat) with (rs := rs) (h0 := h) (h := h) (acc := @None info) (pacc := @None pinfo) as (A & B); auto.
    { intros. eapply concat_two; eassumption. }
    { intros. rewrite concat_shared. assumption. }
    destruct (fold_all ana (concat grow) None rs h) as [h1 [i1|]]; cbn [fst snd] in *; split.
    + exact A.
    + cbn [fst]. intros S. specialize (B S). destruct (p_fold _ _ _); [exact B|contradiction].
    + intros T. rewrite (proj2 (empty_ok h1)). auto.
    + intros S. rewrite (proj2 (empty_ok h1)) in S. specialize (B S). destruct (p_fold _ _ _); [contradiction|]. subst h. apply empty_ok.
  - rewrite analyze_alternate. cbn [p_analyze].
    destruct (fold_ok (alternate grow) p_alternate) with (rs := rs) (h0 := h) (h := h) (acc := @None info) (pacc := @None pinfo) as (A & B); auto.
    { intros. eapply alternate_two; eassumption. }
    { intros. apply alternate_shared. assumption. }
    destruct (fold_all ana (alternate grow) None rs h) as [h1 [i1|]]; cbn [fst snd] in *; split.
    + exact A.
    + cbn [fst]. intros S. specialize (B S). destruct (p_fold _ _ _); [exact B|contradiction].
    + exact A.
    + intros S. cbn in S. specialize (B S). destruct (p_fold _ _ _); [contradiction|]. subst h. apply none_ok.
Qed.

Theorem query_ok : forall re, let '(h, q) := regexp_query grow simple_fold orbit_max re in
  st_shared h = false -> q = p_query simple_fold orbit_max re.
Proof.
  intros re. unfold regexp_query. destruct (analyze_ok re (mkStore [] false)) as (_ & B).
  destruct (ana re (mkStore [] false)) as [h1 i1]. cbn [fst] in B.
  pose proof (simplify_shared h1 i1 true) as S. pose proof (simplify_ok h1 i1 (pana re) true) as K.
  destruct (simplify grow h1 i1 true) as [h2 i2]. cbn [fst] in S. intros T. rewrite S in T.
  destruct (B T) as (SI & _). destruct (K SI) as (SI2 & _). cbn [fst snd] in SI2.
  destruct SI2 as (E & _ & _ & _ & _ & M). unfold add_exact, p_query, p_add_exact.
  destruct (p_exact (p_simplify (pana re) true)) as [e|]; cbn in E.
  - destruct E as (H & O). destruct (i_exact i2) as [sl|]; [|discriminate]. cbn [i_match]. rewrite (own_elems _ _ _ O), M. reflexivity.
  - rewrite E. exact M.
Qed.
End Grow.
