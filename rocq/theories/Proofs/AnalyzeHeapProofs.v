(** The analysis with queries in memory computes the queries of the analysis on trees,
    in new memory only. *)
From Verif Require Import Model.Base Model.Query Model.Utf8 Model.Syntax Model.QueryHeap Spec.QuerySpec Spec.QueryHeapSpec.
From Verif Require Import Proofs.ListLemmas Proofs.QueryProofs Proofs.QueryHeapBase Proofs.QueryHeapOps
  Proofs.QueryHeapFactor Proofs.QueryHeapCombine Proofs.QueryHeapTrigrams.
From Verif Require Import Model.Analyze Model.AnalyzeHeap Proofs.AnalyzeSim.
Local Open Scope nat_scope.

Definition hinfo_of (i : info) (p : nat) : hinfo :=
  mkHInfo (i_can_empty i) (i_exact i) (i_prefix i) (i_suffix i) p.

(** A query in hand. *)
Definition hold (h : heap) (p : nat) (q : query) (F : list nat) : Prop := glob h /\ rep h p q F /\ owned h F.

(** [f] makes [q] at [p] in [h'] out of what is in [F] and new memory. *)
Definition made (h : heap) (F : list nat) (h' : heap) (p : nat) (q : query) : Prop :=
  exists F', hold h' p q F' /\ within h F F' /\ frame h h' F.

Definition ires (h : heap) (F : list nat) (f : nat -> option state) (r : store * info) : Prop :=
  exists h' p, runs_to f (fst r, h', hinfo_of (snd r) p) /\ made h F h' p (i_match (snd r)).

Lemma made_refl : forall h p q F, hold h p q F -> made h F h p q.
Proof. intros h p q F H. exists F. split; [exact H | split; [apply within_refl | apply frame_refl]]. Qed.

Lemma made_of : forall h F h' p q, result h F h' p q -> glob h' -> made h F h' p q.
Proof. intros h F h' p q [F' [A [B [C D]]]] G. exists F'. split; [split; [exact G | split; [exact A | exact B]] | split; assumption]. Qed.

Lemma made_trans : forall h F h1 p1 q1 h2 p2 q2,
  (exists F1, (hold h1 p1 q1 F1 /\ within h F F1 /\ frame h h1 F) /\ made h1 F1 h2 p2 q2) -> made h F h2 p2 q2.
Proof.
  intros h F h1 p1 q1 h2 p2 q2 [F1 [[A [B C]] [F2 [D [E G]]]]].
  assert (next h <= next h1) as L by apply C.
  exists F2. split; [exact D | split].
  - intros x I. destruct (E x I) as [K | K]; [apply B; exact K | right; lia].
  - eapply frame_trans; [exact C | exact G | exact B].
Qed.

Lemma ires_ret : forall h F p st i, hold h p (i_match i) F ->
  ires h F (fun _ => Some (st, h, hinfo_of i p)) (st, i).
Proof. intros h F p st i H. exists h, p. split; [exists 0; reflexivity | apply made_refl; exact H]. Qed.

Lemma ires_bind : forall h F f st1 i1 (k : nat -> store -> heap -> hinfo -> option state) r,
  ires h F f (st1, i1) ->
  (forall h1 p1 F1, hold h1 p1 (i_match i1) F1 -> ires h1 F1 (fun fuel => k fuel st1 h1 (hinfo_of i1 p1)) r) ->
  ires h F (fun fuel => bind (f fuel) (fun x => let '(st, h, i) := x in k fuel st h i)) r.
Proof.
  intros h F f st1 i1 k r [h1 [p1 [[n1 A] [F1 [B C]]]]] K.
  destruct (K h1 p1 F1 B) as [h2 [p2 [[n2 D] E]]]. exists h2, p2. split.
  - exists (n1 + n2). intros fuel L. rewrite A by lia. cbn [bind fst snd]. apply D. lia.
  - eapply made_trans. exists F1. split; [split; [exact B | exact C] | exact E].
Qed.

(** Binding a combination of queries. *)
Lemma ires_query : forall h F (f : nat -> option (heap * nat)) q (k : nat -> heap -> nat -> option state) r,
  (exists h1 p1, runs_to f (h1, p1) /\ made h F h1 p1 q) ->
  (forall h1 p1 F1, hold h1 p1 q F1 -> ires h1 F1 (fun fuel => k fuel h1 p1) r) ->
  ires h F (fun fuel => bind (f fuel) (fun x => let '(h, p) := x in k fuel h p)) r.
Proof.
  intros h F f q k r [h1 [p1 [[n1 A] [F1 [B C]]]]] K.
  destruct (K h1 p1 F1 B) as [h2 [p2 [[n2 D] E]]]. exists h2, p2. split.
  - exists (n1 + n2). intros fuel L. rewrite A by lia. cbn [bind]. apply D. lia.
  - eapply made_trans. exists F1. split; [split; [exact B | exact C] | exact E].
Qed.

Lemma ires_ext : forall h F f g r, (forall fuel, f fuel = g fuel) -> ires h F f r -> ires h F g r.
Proof.
  intros h F f g r E [h1 [p1 [[n A] B]]]. exists h1, p1. split; [| exact B].
  exists n. intros fuel L. rewrite <- E. apply A. exact L.
Qed.

Section Proofs.
Variable grow : nat -> nat -> nat.
Variable simple_fold : N -> N.
Variable orbit_max : nat.

Lemma tri_made : forall h p q F l, hold h p q F ->
  exists h1 p1, runs_to (fun fuel => and_trigrams_h grow fuel h p l) (h1, p1) /\ made h F h1 p1 (and_trigrams q l).
Proof.
  intros h p q F l [G [R O]]. destruct (and_trigrams_ref grow h p q F l G R O) as [h1 [p1 [A [B C]]]].
  exists h1, p1. split; [exact A | apply made_of; assumption].
Qed.

Definition hold2 (h : heap) (p r : nat) (q1 q2 : query) (F1 F2 : list nat) : Prop :=
  glob h /\ rep h p q1 F1 /\ rep h r q2 F2 /\ owned h (F1 ++ F2).

Lemma op_made : forall h p r q1 q2 F1 F2 op, (op = QAnd \/ op = QOr) -> hold2 h p r q1 q2 F1 F2 ->
  exists h1 p1, runs_to (fun fuel => and_or_h grow fuel h p r op) (h1, p1) /\ made h (F1 ++ F2) h1 p1 (and_or q1 q2 op).
Proof.
  intros h p r q1 q2 F1 F2 op Hop [G [R1 [R2 O]]].
  destruct (and_or_ref grow h p r q1 q2 F1 F2 op Hop G R1 R2 O) as [h1 [p1 [A [B C]]]].
  exists h1, p1. split; [exact A | apply made_of; assumption].
Qed.

Lemma add_exact_ref : forall st h p i F (k : nat -> heap -> hinfo -> option state) r, hold h p (i_match i) F ->
  (forall h1 p1 F1, hold h1 p1 (i_match (add_exact st i)) F1 ->
    ires h1 F1 (fun fuel => k fuel h1 (hinfo_of (add_exact st i) p1)) r) ->
  ires h F (fun fuel => bind (add_exact_h grow fuel st h (hinfo_of i p)) (fun x => let '(h, i) := x in k fuel h i)) r.
Proof.
  intros st h p i F k r H K. unfold add_exact_h, add_exact in *. cbn [hi_exact hinfo_of hi_match hi_can_empty hi_prefix hi_suffix].
  destruct (i_exact i) as [e|] eqn:E.
  - destruct (tri_made h p (i_match i) F (elems st (Some e)) H) as [h1 [p1 [[n A] [F1 [B C]]]]].
    destruct (K h1 p1 F1 B) as [h2 [p2 [[m D] G]]]. exists h2, p2. split.
    + exists (n + m). intros fuel L. rewrite A by lia. cbn [bind].
      rewrite <- (D fuel) by lia. reflexivity.
    + eapply made_trans. exists F1. split; [split; [exact B | exact C] | exact G].
  - destruct (K h p F H) as [h2 [p2 [[m D] G]]]. exists h2, p2. split; [| exact G].
    exists m. intros fuel L. cbn [bind]. rewrite <- (D fuel) by lia. unfold hinfo_of. rewrite E. reflexivity.
Qed.

Lemma simplify_set_ref : forall st h p i F sfx, hold h p (i_match i) F ->
  ires h F (fun fuel => simplify_set_h grow fuel st h (hinfo_of i p) sfx) (simplify_set st i sfx).
Proof.
  intros st h p i F sfx H. unfold simplify_set_h, simplify_set. cbn [hinfo_of hi_exact hi_match hi_can_empty hi_prefix hi_suffix].
  destruct (s_clean st (if sfx then i_suffix i else i_prefix i) sfx) as [st1 t1].
  eapply ires_query; [apply tri_made; exact H |]. intros h1 p1 F1 H1.
  destruct (round st1 t1 sfx 3) as [st2 t2].
  destruct (if Nat.ltb max_set (length (elems st2 t2)) then round st2 t2 sfx 2 else (st2, t2)) as [st3 t3].
  destruct (if Nat.ltb max_set (length (elems st3 t3)) then round st3 t3 sfx 1 else (st3, t3)) as [st4 t4].
  destruct (rewrite st4 t4 (drop_longer sfx None (elems st4 t4))) as [st5 t5].
  destruct sfx.
  - apply (ires_ret h1 F1 p1 st5 (mkInfo (i_can_empty i) (i_exact i) (i_prefix i) t5 (and_trigrams (i_match i) (elems st1 t1)))). exact H1.
  - apply (ires_ret h1 F1 p1 st5 (mkInfo (i_can_empty i) (i_exact i) t5 (i_suffix i) (and_trigrams (i_match i) (elems st1 t1)))). exact H1.
Qed.

Lemma simplify_ref : forall st h p i F force, hold h p (i_match i) F ->
  ires h F (fun fuel => simplify_h grow fuel st h (hinfo_of i p) force) (simplify grow st i force).
Proof.
  intros st h p i F force H. unfold simplify_h, simplify. cbn [hinfo_of hi_exact hi_match hi_can_empty hi_prefix hi_suffix].
  destruct (s_clean st (i_exact i) false) as [st1 e].
  set (i1 := mkInfo (i_can_empty i) e (i_prefix i) (i_suffix i) (i_match i)).
  cbv zeta.
  set (c := Nat.ltb max_exact (length (elems st1 e)) || (Nat.leb 3 (min_len (elems st1 e)) && force) || Nat.leb 4 (min_len (elems st1 e))).
  assert (exists st2 i2, (if c then
      let i := add_exact st1 i1 in
      let '(sx, p) := s_add_all grow st1 (i_prefix i) (map head2 (elems st1 e)) in
      let '(sy, s) := s_add_all grow sx (i_suffix i) (map tail2 (elems st1 e)) in
      (sy, mkInfo (i_can_empty i) None p s (i_match i))
    else (st1, i1)) = (st2, i2)) as [st2 [i2 Es]].
  { destruct (if c then _ else _) as [a b]. eauto. }
  cbv zeta in Es. rewrite Es.
  assert (forall st h p F, hold h p (i_match i2) F ->
    ires h F (fun fuel => if have (hi_exact (hinfo_of i2 p)) then Some (st, h, hinfo_of i2 p)
      else bind (simplify_set_h grow fuel st h (hinfo_of i2 p) false)
             (fun x => let '(st, h, i) := x in simplify_set_h grow fuel st h i true))
      (if have (i_exact i2) then (st, i2)
       else let '(h0, i0) := simplify_set st i2 false in simplify_set h0 i0 true)) as Tail.
  { intros st' h' p' F' H'. cbn [hi_exact hinfo_of]. destruct (have (i_exact i2)).
    - apply ires_ret. exact H'.
    - pose proof (simplify_set_ref st' h' p' i2 F' false H') as A.
      destruct (simplify_set st' i2 false) as [st3 i3].
      eapply (ires_bind _ _ _ st3 i3 (fun fuel st h i => simplify_set_h grow fuel st h i true)); [exact A |].
      intros h1 p1 F1 H1. apply simplify_set_ref. exact H1. }
  eapply (ires_bind h F _ st2 i2 (fun fuel st h i => if have (hi_exact i) then Some (st, h, i)
      else bind (simplify_set_h grow fuel st h i false)
             (fun x => let '(st, h, i) := x in simplify_set_h grow fuel st h i true))).
  2:{ intros h1 p1 F1 H1. apply Tail. exact H1. }
  destruct c.
  - eapply (add_exact_ref st1 h p i1 F (fun fuel h i =>
       let '(st, p) := s_add_all grow st1 (hi_prefix i) (map head2 (elems st1 e)) in
       let '(st, s) := s_add_all grow st (hi_suffix i) (map tail2 (elems st1 e)) in
       Some (st, h, mkHInfo (hi_can_empty i) None p s (hi_match i)))).
    + exact H.
    + intros h1 p1 F1 H1. cbn [hi_prefix hi_suffix hi_can_empty hi_match hinfo_of].
      destruct (s_add_all grow st1 (i_prefix (add_exact st1 i1)) (map head2 (elems st1 e))) as [st3 p3].
      destruct (s_add_all grow st3 (i_suffix (add_exact st1 i1)) (map tail2 (elems st1 e))) as [st4 s4].
      injection Es as <- <-.
      apply (ires_ret h1 F1 p1 st4 (mkInfo (i_can_empty (add_exact st1 i1)) None p3 s4 (i_match (add_exact st1 i1)))). exact H1.
  - injection Es as <- <-. apply (ires_ret h F p st1 i1). exact H.
Qed.

Lemma made_step : forall h F h1 G h2 p q, within h F G -> frame h h1 F -> made h1 G h2 p q -> made h F h2 p q.
Proof.
  intros h F h1 G h2 p q W Fr [F2 [A [B C]]]. assert (next h <= next h1) as L by apply Fr.
  exists F2. split; [exact A | split].
  - intros x I. destruct (B x I) as [K | K]; [apply W; exact K | right; lia].
  - eapply frame_trans; eassumption.
Qed.

Lemma hold2_left : forall h p r q1 q2 F1 F2 h1 p1 q1', hold2 h p r q1 q2 F1 F2 -> made h F1 h1 p1 q1' ->
  exists G, hold2 h1 p1 r q1' q2 G F2 /\ within h (F1 ++ F2) (G ++ F2) /\ frame h h1 (F1 ++ F2).
Proof.
  intros h p r q1 q2 F1 F2 h1 p1 q1' [G [R1 [R2 Ow]]] [G1 [[A1 [A2 A3]] [B C]]].
  apply (proj1 (owned_app _ _ _)) in Ow. destruct Ow as [O1 [O2 Ap]].
  assert (next h <= next h1) as L by apply C.
  exists G1. split; [split; [exact A1 | split; [exact A2 | split]] | split].
  - eapply rep_frame; [exact R2 | exact C | | exact O2]. intros x I J. exact (Ap x J I).
  - rewrite owned_app. split; [exact A3 | split; [eapply owned_le; eassumption |]].
    intros x I J. destruct (B x I) as [K | K]; [exact (Ap x K J) |]. apply O2 in J. lia.
  - intros x I. apply in_app_or in I. destruct I as [I | I].
    + destruct (B x I) as [K | K]; [left; apply in_or_app; left; exact K | right; exact K].
    + left. apply in_or_app. right. exact I.
  - eapply frame_weaken; [exact C |]. intros x I. apply in_or_app. left. exact I.
Qed.

Lemma hold2_swap : forall h p r q1 q2 F1 F2, hold2 h p r q1 q2 F1 F2 -> hold2 h r p q2 q1 F2 F1.
Proof. intros h p r q1 q2 F1 F2 [A [B [C D]]]. split; [exact A | split; [exact C | split; [exact B | apply owned_swap; exact D]]]. Qed.

Lemma add_exact_made : forall st h p i F, hold h p (i_match i) F ->
  exists h1 p1, runs_to (fun fuel => add_exact_h grow fuel st h (hinfo_of i p)) (h1, hinfo_of (add_exact st i) p1) /\
    made h F h1 p1 (i_match (add_exact st i)).
Proof.
  intros st h p i F H. unfold add_exact_h, add_exact. cbn [hi_exact hinfo_of hi_match hi_can_empty hi_prefix hi_suffix].
  destruct (i_exact i) as [e|] eqn:E.
  - destruct (tri_made h p (i_match i) F (elems st (Some e)) H) as [h1 [p1 [[n A] B]]].
    exists h1, p1. split; [| exact B]. exists n. intros fuel L. rewrite A by exact L. reflexivity.
  - exists h, p. split; [| apply made_refl; exact H]. exists 0. intros. unfold hinfo_of. rewrite E. reflexivity.
Qed.

Lemma hold2_fst : forall h p r q1 q2 F1 F2, hold2 h p r q1 q2 F1 F2 -> hold h p q1 F1.
Proof. intros h p r q1 q2 F1 F2 [A [B [C D]]]. apply (proj1 (owned_app _ _ _)) in D. split; [exact A | split; [exact B | apply D]]. Qed.

Lemma concat_ref : forall st h p r x y F1 F2, hold2 h p r (i_match x) (i_match y) F1 F2 ->
  ires h (F1 ++ F2) (fun fuel => concat_h grow fuel st h (hinfo_of x p) (hinfo_of y r)) (concat grow st x y).
Proof.
  intros st h p r x y F1 F2 H. unfold concat_h, concat. cbn [hinfo_of hi_exact hi_match hi_can_empty hi_prefix hi_suffix].
  eapply ires_query; [apply op_made; [left; reflexivity | exact H] |]. intros h1 p1 G1 H1. cbv zeta.
  set (m := and_or (i_match x) (i_match y) QAnd) in *.
  assert (exists st1 xy, (if have (i_exact x) && have (i_exact y) then
      let '(h, e) := s_cross grow st (i_exact x) (i_exact y) false in
      (h, mkInfo false e None None m)
    else
      let '(h, p) :=
        if have (i_exact x) then s_cross grow st (i_exact x) (i_prefix y) false
        else if i_can_empty x then s_union grow st (i_prefix x) (i_prefix y) false
        else (st, i_prefix x) in
      let '(h, s) :=
        if have (i_exact y) then s_cross grow h (i_suffix x) (i_exact y) true
        else if i_can_empty y then s_union grow h (i_suffix y) (i_suffix x) true
        else (h, i_suffix y) in
      (h, mkInfo false None p s m)) = (st1, xy) /\ i_match xy = m /\
    (if have (i_exact x) && have (i_exact y) then
      let '(h, e) := s_cross grow st (i_exact x) (i_exact y) false in
      (h, mkHInfo false e None None p1)
    else
      let '(h, p) :=
        if have (i_exact x) then s_cross grow st (i_exact x) (i_prefix y) false
        else if i_can_empty x then s_union grow st (i_prefix x) (i_prefix y) false
        else (st, i_prefix x) in
      let '(h, s) :=
        if have (i_exact y) then s_cross grow h (i_suffix x) (i_exact y) true
        else if i_can_empty y then s_union grow h (i_suffix y) (i_suffix x) true
        else (h, i_suffix y) in
      (h, mkHInfo false None p s p1)) = (st1, hinfo_of xy p1)) as [st1 [xy [E1 [E2 E3]]]].
  { destruct (have (i_exact x) && have (i_exact y)).
    - destruct (s_cross grow st (i_exact x) (i_exact y) false) as [sa ea]. do 2 eexists. split; [reflexivity | split; reflexivity].
    - destruct (if have (i_exact x) then s_cross grow st (i_exact x) (i_prefix y) false
        else if i_can_empty x then s_union grow st (i_prefix x) (i_prefix y) false
        else (st, i_prefix x)) as [sa pa].
      destruct (if have (i_exact y) then s_cross grow sa (i_suffix x) (i_exact y) true
        else if i_can_empty y then s_union grow sa (i_suffix y) (i_suffix x) true
        else (sa, i_suffix y)) as [sb pb].
      do 2 eexists. split; [reflexivity | split; reflexivity]. }
  rewrite E1. rewrite <- E2 in *. clear E1 E2.
  eapply ires_ext; [intros fuel; rewrite E3; reflexivity |]. clear E3.
  set (c := negb (have (i_exact x)) && negb (have (i_exact y))
       && Nat.leb (length (elems st1 (i_suffix x))) max_set && Nat.leb (length (elems st1 (i_prefix y))) max_set
       && Nat.leb 3 (min_len (elems st1 (i_suffix x)) + min_len (elems st1 (i_prefix y)))).
  destruct c.
  - destruct (s_cross grow st1 (i_suffix x) (i_prefix y) false) as [st2 e2].
    cbn [hinfo_of hi_exact hi_match hi_can_empty hi_prefix hi_suffix].
    eapply (ires_bind _ _ _ st2 (mkInfo (i_can_empty xy) (i_exact xy) (i_prefix xy) (i_suffix xy)
                                   (and_trigrams (i_match xy) (elems st2 e2)))
              (fun fuel st h i => simplify_h grow fuel st h i false)).
    + eapply (ires_query _ _ _ _ (fun fuel h m => Some (st2, h, mkHInfo (i_can_empty xy) (i_exact xy) (i_prefix xy) (i_suffix xy) m)));
        [apply tri_made; exact H1 |].
      intros h2 p2 G2 H2.
      apply (ires_ret h2 G2 p2 st2 (mkInfo (i_can_empty xy) (i_exact xy) (i_prefix xy) (i_suffix xy) _)). exact H2.
    + intros h2 p2 G2 H2. apply simplify_ref. exact H2.
  - eapply (ires_bind _ _ _ st1 xy (fun fuel st h i => simplify_h grow fuel st h i false)).
    + apply ires_ret. exact H1.
    + intros h2 p2 G2 H2. apply simplify_ref. exact H2.
Qed.

Lemma or_ret : forall st h p r q1 q2 F1 F2 e ex pr su, hold2 h p r q1 q2 F1 F2 ->
  ires h (F1 ++ F2) (fun fuel => bind (and_or_h grow fuel h p r QOr)
      (fun x => let '(h, m) := x in Some (st, h, mkHInfo e ex pr su m)))
    (st, mkInfo e ex pr su (and_or q1 q2 QOr)).
Proof.
  intros. eapply (ires_query _ _ _ _ (fun fuel h m => Some (st, h, mkHInfo e ex pr su m)));
    [apply op_made; [right; reflexivity | eassumption] |].
  intros h1 p1 G1 H1. apply (ires_ret h1 G1 p1 st (mkInfo e ex pr su (and_or q1 q2 QOr))). exact H1.
Qed.

Lemma ires_step : forall h F h1 G f r, within h F G -> frame h h1 F -> ires h1 G f r -> ires h F f r.
Proof. intros h F h1 G f r W Fr [h2 [p [A B]]]. exists h2, p. split; [exact A | eapply made_step; eassumption]. Qed.

Lemma alternate_ref : forall st h p r x y F1 F2, hold2 h p r (i_match x) (i_match y) F1 F2 ->
  ires h (F1 ++ F2) (fun fuel => alternate_h grow fuel st h (hinfo_of x p) (hinfo_of y r)) (alternate grow st x y).
Proof.
  intros st h p r x y F1 F2 H. unfold alternate_h, alternate. cbv zeta.
  cbn [hinfo_of hi_exact hi_match hi_can_empty hi_prefix hi_suffix].
  destruct (have (i_exact x) && have (i_exact y)).
  { destruct (s_union grow st (i_exact x) (i_exact y) false) as [st1 s1].
    eapply (ires_bind _ _ _ st1 (mkInfo _ _ _ _ _) (fun fuel st h i => simplify_h grow fuel st h i false)).
    - apply or_ret. exact H.
    - intros h2 p2 G2 H2. apply simplify_ref. exact H2. }
  destruct (have (i_exact x)).
  { destruct (s_union grow st (i_exact x) (i_prefix y) false) as [st1 p1].
    destruct (s_union grow st1 (i_exact x) (i_suffix y) true) as [st2 s2].
    set (st3 := mkStore _ _).
    eapply (ires_bind _ _ _ st3 (mkInfo _ _ _ _ _) (fun fuel st h i => simplify_h grow fuel st h i false)).
    2:{ intros h2 p3 G2 H2. apply simplify_ref. exact H2. }
    change (mkHInfo (i_can_empty x) (i_exact x) (i_prefix x) (i_suffix x) p) with (hinfo_of x p).
    destruct (add_exact_made st3 h p x F1 (hold2_fst _ _ _ _ _ _ _ H)) as [h1 [p3 [[n A] B]]].
    destruct (hold2_left _ _ _ _ _ _ _ _ _ _ H B) as [G1 [H1 [W Fr]]].
    destruct (or_ret st3 _ _ _ _ _ _ _ (i_can_empty x || i_can_empty y) None p1 s2 H1) as [h2 [p4 [[m C] D]]].
    exists h2, p4. split.
    - exists (n + m). intros fuel L. rewrite A by lia. cbn [bind hinfo_of hi_match]. apply C. lia.
    - eapply made_step; eassumption. }
  destruct (have (i_exact y)).
  { destruct (s_union grow st (i_prefix x) (i_exact y) false) as [st1 p1].
    destruct (s_copy grow st1 (i_exact y)) as [st2 c2].
    destruct (s_union grow st2 (i_suffix x) c2 true) as [st3 s3].
    eapply (ires_bind _ _ _ st3 (mkInfo _ _ _ _ _) (fun fuel st h i => simplify_h grow fuel st h i false)).
    2:{ intros h2 p3 G2 H2. apply simplify_ref. exact H2. }
    change (mkHInfo (i_can_empty y) (i_exact y) (i_prefix y) (i_suffix y) r) with (hinfo_of y r).
    destruct (add_exact_made st3 h r y F2 (hold2_fst _ _ _ _ _ _ _ (hold2_swap _ _ _ _ _ _ _ H))) as [h1 [p3 [[n A] B]]].
    destruct (hold2_left _ _ _ _ _ _ _ _ _ _ (hold2_swap _ _ _ _ _ _ _ H) B) as [G1 [H1 [W Fr]]].
    destruct (or_ret st3 _ _ _ _ _ _ _ (i_can_empty x || i_can_empty y) None p1 s3 (hold2_swap _ _ _ _ _ _ _ H1)) as [h2 [p4 [[m C] D]]].
    exists h2, p4. split.
    - exists (n + m). intros fuel L. rewrite A by lia. cbn [bind hinfo_of hi_match]. apply C. lia.
    - eapply (made_step h _ h1 (F1 ++ G1)); [| | exact D].
      + intros z I. rewrite in_app_iff in *. destruct (W z) as [K | K]; [rewrite in_app_iff; tauto | | right; exact K].
        rewrite in_app_iff in K. tauto.
      + eapply frame_weaken; [exact Fr |]. intros z I. rewrite in_app_iff in *. tauto. }
  destruct (s_union grow st (i_prefix x) (i_prefix y) false) as [st1 p1].
  destruct (s_union grow st1 (i_suffix x) (i_suffix y) true) as [st2 s2].
  eapply (ires_bind _ _ _ st2 (mkInfo _ _ _ _ _) (fun fuel st h i => simplify_h grow fuel st h i false)).
  - apply or_ret. exact H.
  - intros h2 p2 G2 H2. apply simplify_ref. exact H2.
Qed.

(** Starting from nothing in hand. *)
Definition fresh_res (h : heap) (f : nat -> option state) (r : store * info) : Prop := ires h [] f r.

Lemma hold_all : forall h, glob h -> hold h p_all all_query [].
Proof. intros h G. split; [exact G | split; [constructor | split; [constructor | intros x []]]]. Qed.
Lemma hold_none : forall h, glob h -> hold h p_none none_query [].
Proof. intros h G. split; [exact G | split; [constructor | split; [constructor | intros x []]]]. Qed.

Lemma any_ref : forall b st h, glob h -> ires h [] (fun _ => Some (any_of_h b st h)) (any_of b st).
Proof.
  intros b st h G. unfold any_of_h, any_of. destruct (literal st [[]]) as [st1 p1].
  destruct (literal st1 [[]]) as [st2 s2].
  apply (ires_ret h [] p_all st2 (mkInfo b None p1 s2 all_query)). apply hold_all. exact G.
Qed.
Lemma none_ref : forall st h, glob h -> ires h [] (fun _ => Some (no_match_h st h)) (no_match st).
Proof. intros st h G. apply (ires_ret h [] p_none st (mkInfo false None None None none_query)). apply hold_none. exact G. Qed.
Lemma empty_ref : forall st h, glob h -> ires h [] (fun _ => Some (empty_string_h st h)) (empty_string st).
Proof.
  intros st h G. unfold empty_string_h, empty_string. destruct (literal st [[]]) as [st1 e1].
  apply (ires_ret h [] p_all st1 (mkInfo true e1 None None all_query)). apply hold_all. exact G.
Qed.
Lemma exact_ref : forall st h e, glob h ->
  ires h [] (fun fuel => simplify_h grow fuel st h (mkHInfo false e None None p_all) false)
    (simplify grow st (mkInfo false e None None all_query) false).
Proof.
  intros st h e G. apply (simplify_ref st h p_all (mkInfo false e None None all_query) [] false).
  apply hold_all. exact G.
Qed.

Lemma class_ref : forall rs st h, glob h ->
  ires h [] (fun fuel => char_class_h grow fuel st h rs) (char_class grow st rs).
Proof.
  intros rs st h G. destruct rs as [| r1 [| r2 rs]]; cbn [char_class_h char_class].
  - apply none_ref. exact G.
  - destruct (literal st [encode_rune r1]) as [st1 e1]. apply exact_ref. exact G.
  - destruct (Z.ltb 100 (class_size (r1 :: r2 :: rs))); [apply any_ref; exact G |].
    destruct (literal st []) as [st1 e1].
    destruct (s_add_all grow st1 e1 (map encode_rune (class_runes (r1 :: r2 :: rs)))) as [st2 e2].
    apply exact_ref. exact G.
Qed.

(** Combining what is in hand with what comes next. *)
Lemma hold2_next : forall h p q F h1 p1 q1, hold h p q F -> made h [] h1 p1 q1 ->
  exists F1, hold2 h1 p p1 q q1 F F1 /\ within h F (F ++ F1) /\ frame h h1 F.
Proof.
  intros h p q F h1 p1 q1 [G [R O]] [F1 [[A1 [A2 A3]] [B C]]].
  assert (next h <= next h1) as L by apply C.
  exists F1. split; [split; [exact A1 | split; [| split; [exact A2 |]]] | split].
  - eapply rep_frame; [exact R | exact C | intros x _ [] | exact O].
  - rewrite owned_app. split; [eapply owned_le; eassumption | split; [exact A3 |]].
    intros x I J. apply O in I. destruct (B x J) as [[] | K]. lia.
  - intros x I. apply in_app_or in I. destruct I as [I | I]; [left; exact I |].
    destruct (B x I) as [[] | K]. right. exact K.
  - eapply frame_weaken; [exact C | intros x []].
Qed.

Lemma pair_ref : forall h p F x st y (f : nat -> option state) (g : nat -> store -> heap -> hinfo -> option state) r,
  hold h p (i_match x) F -> ires h [] f (st, y) ->
  (forall h1 p1 F1, hold2 h1 p p1 (i_match x) (i_match y) F F1 ->
     ires h1 (F ++ F1) (fun fuel => g fuel st h1 (hinfo_of y p1)) r) ->
  ires h F (fun fuel => bind (f fuel) (fun z => let '(st, h, i) := z in g fuel st h i)) r.
Proof.
  intros h p F x st y f g r H [h1 [p1 [[n A] B]]] K.
  destruct (hold2_next _ _ _ _ _ _ _ H B) as [F1 [H1 [W Fr]]].
  destruct (K h1 p1 F1 H1) as [h2 [p2 [[m C] D]]]. exists h2, p2. split.
  - exists (n + m). intros fuel L. rewrite A by lia. cbn [bind fst snd]. apply C. lia.
  - eapply made_step; eassumption.
Qed.

Lemma folded_runes_ref : forall rs st h x p F, hold h p (i_match x) F ->
  ires h F (fun fuel => folded_runes_h grow simple_fold orbit_max fuel rs (st, h, hinfo_of x p))
    (fold_left (fun hi r => let '(h, i) := folded_rune grow simple_fold orbit_max (fst hi) r in concat grow h (snd hi) i) rs (st, x)).
Proof.
  induction rs as [| c rs IH]; intros st h x p F H; cbn [folded_runes_h fold_left fst snd].
  - apply ires_ret. exact H.
  - unfold folded_rune_h, folded_rune in *.
    pose proof (class_ref (c :: c :: flat_map (fun x => [x; x]) (orbit simple_fold orbit_max c c)) st h (proj1 H)) as A.
    destruct (char_class grow st (c :: c :: flat_map (fun x => [x; x]) (orbit simple_fold orbit_max c c))) as [st1 y].
    eapply (pair_ref h p F x st1 y); [exact H | exact A |]. intros h1 p1 F1 H1.
    pose proof (concat_ref st1 h1 p p1 x y F F1 H1) as B. destruct (concat grow st1 x y) as [st2 xy].
    destruct B as [h2 [p2 [[n B1] [G2 [B2 [B3 B4]]]]]].
    destruct (IH st2 h2 xy p2 G2 B2) as [h3 [p3 [[m C] D]]].
    exists h3, p3. split.
    + exists (n + m). intros fuel L. cbn [fst snd] in B1. rewrite B1 by lia. cbn [bind]. apply C. lia.
    + eapply made_step; [exact B3 | exact B4 | exact D].
Qed.

Lemma folded_ref : forall rs st h, glob h ->
  ires h [] (fun fuel => folded_literal_h grow simple_fold orbit_max fuel st h rs)
    (folded_literal grow simple_fold orbit_max st rs).
Proof.
  intros rs st h G. destruct rs as [| r1 [| r2 rs]]; unfold folded_literal_h, folded_literal.
  - apply empty_ref. exact G.
  - apply class_ref. exact G.
  - unfold empty_string_h, empty_string. destruct (literal st [[]]) as [st1 e1].
    change (mkHInfo true e1 None None p_all) with (hinfo_of (mkInfo true e1 None None all_query) p_all).
    apply folded_runes_ref. apply hold_all. exact G.
Qed.

Definition fold_all_h (ana : regexp -> store -> heap -> option state) :=
  fix fold (f : store -> heap -> hinfo -> hinfo -> option state) (acc : option hinfo)
               (l : list regexp) (st : store) (h : heap) {struct l} : option (store * heap * option hinfo) :=
    match l with
    | [] => Some (st, h, acc)
    | r :: l' =>
        '(st, h, i) <- ana r st h ;;
        match acc with
        | None => fold f (Some i) l' st h
        | Some x => '(st, h, xy) <- f st h x i ;; fold f (Some xy) l' st h
        end
    end.

Notation ana := (analyze grow simple_fold orbit_max).
Notation anah := (fun fuel => analyze_h grow simple_fold orbit_max fuel).

Section Fold.
Variable f : store -> info -> info -> store * info.
Variable fh : nat -> store -> heap -> hinfo -> hinfo -> option state.
Hypothesis f_ref : forall st h p r x y F1 F2, hold2 h p r (i_match x) (i_match y) F1 F2 ->
  ires h (F1 ++ F2) (fun fuel => fh fuel st h (hinfo_of x p) (hinfo_of y r)) (f st x y).

Lemma fold_some : forall rs, Forall (fun r => forall st h, glob h -> ires h [] (fun fuel => anah fuel r st h) (ana r st)) rs ->
  forall st h x p F, hold h p (i_match x) F ->
  exists h' p' st' x', runs_to (fun fuel => fold_all_h (anah fuel) (fh fuel) (Some (hinfo_of x p)) rs st h)
      (st', h', Some (hinfo_of x' p')) /\
    fold_all ana f (Some x) rs st = (st', Some x') /\ made h F h' p' (i_match x').
Proof.
  intros rs A. induction A as [| r rs A1 A2 IH]; intros st h x p F H; cbn [fold_all_h fold_all].
  - exists h, p, st, x. split; [exists 0; reflexivity | split; [reflexivity | apply made_refl; exact H]].
  - fold (fold_all ana). pose proof (A1 st h (proj1 H)) as B. destruct (ana r st) as [st1 y].
    destruct B as [h1 [p1 [[n1 B1] B2]]]. destruct (hold2_next _ _ _ _ _ _ _ H B2) as [F1 [H1 [W Fr]]].
    pose proof (f_ref st1 h1 p p1 x y F F1 H1) as C. destruct (f st1 x y) as [st2 xy].
    destruct C as [h2 [p2 [[n2 C1] [G2 [C2 [C3 C4]]]]]].
    destruct (IH st2 h2 xy p2 G2 C2) as [h3 [p3 [st3 [x3 [[n3 D1] [D2 D3]]]]]].
    exists h3, p3, st3, x3. split; [| split; [exact D2 |]].
    + exists (n1 + n2 + n3). intros fuel L. cbn [fst snd] in *. rewrite B1 by lia. cbn [bind].
      rewrite C1 by lia. cbn [bind]. apply D1. lia.
    + eapply made_step; [exact W | exact Fr |]. eapply made_step; [exact C3 | exact C4 | exact D3].
Qed.

Lemma fold_none : forall rs, Forall (fun r => forall st h, glob h -> ires h [] (fun fuel => anah fuel r st h) (ana r st)) rs ->
  forall st h z zh, glob h ->
  (forall st h, glob h -> ires h [] (fun _ => Some (zh st h)) (z st)) ->
  ires h [] (fun fuel => '(st, h, i) <- fold_all_h (anah fuel) (fh fuel) None rs st h ;;
               match i with Some i => Some (st, h, i) | None => Some (zh st h) end)
    (match fold_all ana f None rs st with (h, Some i) => (h, i) | (h, None) => z h end).
Proof.
  intros rs A st h z zh G Z. destruct A as [| r rs A1 A2]; cbn [fold_all_h fold_all].
  - cbn [bind]. apply Z. exact G.
  - fold (fold_all ana). pose proof (A1 st h G) as B. destruct (ana r st) as [st1 y].
    destruct B as [h1 [p1 [[n1 B1] [F1 [B2 [B3 B4]]]]]].
    destruct (fold_some rs A2 st1 h1 y p1 F1 B2) as [h3 [p3 [st3 [x3 [[n3 D1] [D2 D3]]]]]].
    rewrite D2. exists h3, p3. split.
    + exists (n1 + n3). intros fuel L. cbn [fst snd] in *. rewrite B1 by lia. cbn [bind].
      rewrite D1 by lia. reflexivity.
    + eapply made_step; [exact B3 | exact B4 | exact D3].
Qed.
End Fold.

Lemma plus_ref : forall re, (forall st h, glob h -> ires h [] (fun fuel => anah fuel re st h) (ana re st)) ->
  forall st h, glob h ->
  ires h [] (fun fuel => '(st, h, i) <- anah fuel re st h ;;
      if have (hi_exact i) then
        let '(st, s) := s_copy grow st (hi_exact i) in
        simplify_h grow fuel st h (mkHInfo (hi_can_empty i) None (hi_exact i) s (hi_match i)) false
      else simplify_h grow fuel st h i false)
    (let '(h, i) := ana re st in
     if have (i_exact i) then
       let '(h, s) := s_copy grow h (i_exact i) in
       simplify grow h (mkInfo (i_can_empty i) None (i_exact i) s (i_match i)) false
     else simplify grow h i false).
Proof.
  intros re IH st h G. pose proof (IH st h G) as A. destruct (ana re st) as [st1 i].
  eapply (ires_bind _ _ _ st1 i (fun fuel st h i =>
      if have (hi_exact i) then
        let '(st, s) := s_copy grow st (hi_exact i) in
        simplify_h grow fuel st h (mkHInfo (hi_can_empty i) None (hi_exact i) s (hi_match i)) false
      else simplify_h grow fuel st h i false)); [exact A |].
  intros h1 p1 F1 H1. cbn [hinfo_of hi_exact hi_match hi_can_empty hi_prefix hi_suffix].
  destruct (have (i_exact i)).
  - destruct (s_copy grow st1 (i_exact i)) as [st2 s2].
    apply (simplify_ref st2 h1 p1 (mkInfo (i_can_empty i) None (i_exact i) s2 (i_match i)) F1 false). exact H1.
  - apply (simplify_ref st1 h1 p1 i F1 false). exact H1.
Qed.

Theorem analyze_ref : forall re st h, glob h -> ires h [] (fun fuel => anah fuel re st h) (ana re st).
Proof.
  induction re using regexp_ind'; intros st h G.
  - apply none_ref. exact G.
  - apply empty_ref. exact G.
  - destruct f; [apply folded_ref; exact G |]. cbn [analyze analyze_h].
    destruct (literal st [encode_runes rs]) as [st1 e1]. apply exact_ref. exact G.
  - apply any_ref. exact G.
  - apply any_ref. exact G.
  - apply class_ref. exact G.
  - apply IHre. exact G.
  - apply any_ref. exact G.
  - apply (plus_ref re IHre st h G).
  - cbn [analyze analyze_h]. pose proof (IHre st h G) as A. destruct (ana re st) as [st1 i].
    eapply (ires_bind _ _ _ st1 i (fun fuel st h i => let '(st, h, e) := empty_string_h st h in alternate_h grow fuel st h i e)); [exact A |].
    intros h1 p1 F1 H1. unfold empty_string_h, empty_string. destruct (literal st1 [[]]) as [st2 e2].
    change (mkHInfo true e2 None None p_all) with (hinfo_of (mkInfo true e2 None None all_query) p_all).
    eapply ires_step with (h1 := h1) (G := F1 ++ []); [| apply frame_refl | apply alternate_ref].
    + rewrite app_nil_r. apply within_refl.
    + destruct H1 as [B1 [B2 B3]]. split; [exact B1 | split; [exact B2 | split; [constructor | rewrite app_nil_r; exact B3]]].
  - cbn [analyze analyze_h]. destruct (Nat.eqb a 0); [apply any_ref; exact G |]. apply (plus_ref re IHre st h G).
  - rewrite analyze_concat.
    apply (fold_none (concat grow) (fun fuel => concat_h grow fuel) concat_ref rs H st h empty_string empty_string_h G).
    intros. apply empty_ref. assumption.
  - rewrite analyze_alternate.
    apply (fold_none (alternate grow) (fun fuel => alternate_h grow fuel) alternate_ref rs H st h no_match no_match_h G).
    intros. apply none_ref. assumption.
Qed.

Theorem regexp_query_ref : forall re h, glob h ->
  exists h' p, runs_to (fun fuel => regexp_query_h grow simple_fold orbit_max fuel re h) (h', p) /\
    made h [] h' p (snd (regexp_query grow simple_fold orbit_max re)).
Proof.
  intros re h G. unfold regexp_query_h, regexp_query.
  pose proof (analyze_ref re (mkStore [] false) h G) as A. destruct (ana re (mkStore [] false)) as [st1 i1].
  destruct A as [h1 [p1 [[n1 A1] [F1 [A2 [A3 A4]]]]]]. cbn [fst snd] in *.
  pose proof (simplify_ref st1 h1 p1 i1 F1 true A2) as B. destruct (simplify grow st1 i1 true) as [st2 i2].
  destruct B as [h2 [p2 [[n2 B1] [F2 [B2 [B3 B4]]]]]]. cbn [fst snd] in *.
  destruct (add_exact_made st2 h2 p2 i2 F2 B2) as [h3 [p3 [[n3 C1] C2]]].
  exists h3, p3. split.
  - exists (n1 + n2 + n3). intros fuel L. rewrite A1 by lia. cbn [bind]. rewrite B1 by lia. cbn [bind].
    rewrite C1 by lia. reflexivity.
  - eapply made_step; [exact A3 | exact A4 |]. eapply made_step; [exact B3 | exact B4 | exact C2].
Qed.

End Proofs.
