(** Pages in dev mode. *)
From Verif Require Import Model.Base Model.DevPages Spec.DevSpec.
From Coq Require Import Lia.

Section Dev.
Context {T : Type}.
Implicit Types (v w : option T) (es a b c : list (event T)) (s : state T).

Lemma run_snoc : forall v es e, dev_run v (es ++ [e]) = (s <- dev_run v es ;; dev_step s e).
Proof. intros v es e. unfold dev_run. rewrite fold_left_app. reflexivity. Qed.
Lemma run_app : forall v a b s, dev_run v (a ++ b) = Some s -> exists s0, dev_run v a = Some s0 /\ fold_left (fun o e => x <- o ;; dev_step x e) b (Some s0) = Some s.
Proof.
  intros v a b s E. unfold dev_run in *. rewrite fold_left_app in E. destruct (fold_left _ a _) as [s0|] eqn:X; [exists s0; auto|].
  exfalso. clear - E. induction b as [|e b IH]; [discriminate|]. exact (IH E).
Qed.
Lemma disk_ok : forall v es s, dev_run v es = Some s -> on_disk v es (file s).
Proof.
  intros v es. induction es as [|e es IH] using rev_ind; intros s E; [injection E as <-; constructor|].
  rewrite run_snoc in E. destruct (dev_run v es) as [s0|]; [|discriminate]. cbn [bind] in E. specialize (IH s0 eq_refl).
  destruct e as [w|i|i|i]; cbn [dev_step] in E.
  - injection E as <-. cbn [file]. apply (disk_edit v es w _ IH).
  - destruct (reqs s0 i); try discriminate. injection E as <-. cbn [file]. apply disk_other; [exact IH|discriminate].
  - destruct (reqs s0 i); try discriminate. injection E as <-. cbn [file]. apply disk_other; [exact IH|discriminate].
  - destruct (reqs s0 i); try discriminate. injection E as <-. cbn [file]. apply disk_other; [exact IH|discriminate].
Qed.
Lemma disk_fun : forall v es w w', on_disk v es w -> on_disk v es w' -> w = w'.
Proof.
  intros v es w w' D. revert w'. induction D as [|es w x D IH|es e w D IH NE]; intros w' D'.
  - inversion D' as [|es w0 x D0 E|es e w0 D0 NE E]; [reflexivity| |]; destruct es; discriminate.
  - inversion D' as [E|es' w0 x' D0 E|es' e w0 D0 NE E]; [destruct es; discriminate| |].
    + apply app_inj_tail in E. destruct E as (_ & E). congruence.
    + apply app_inj_tail in E. destruct E as (_ & E). exfalso. exact (NE _ E).
  - inversion D' as [E|es' w0 x' D0 E|es' e' w0 D0 NE' E]; [destruct es; discriminate| |].
    + apply app_inj_tail in E. destruct E as (_ & E). exfalso. exact (NE _ (eq_sym E)).
    + apply app_inj_tail in E. destruct E as (-> & _). auto.
Qed.

(** What each request has done. *)
Definition stored_last (es : list (event T)) (o : option (option T)) (v : option T) : Prop :=
  match o with
  | None => forall j, ~ In (Store j) es
  | Some w => exists j a c, es = a ++ Store j :: c /\ (forall k, ~ In (Store k) c) /\ begins v a j w
  end.
Definition did (v : option T) (es : list (event T)) (i : nat) (p : phase T) : Prop :=
  match p with
  | New => ~ In (Parse i) es /\ ~ In (Store i) es
  | Parsed w => begins v es i w /\ ~ In (Store i) es
  | Stored => exists t, begins v es i (Some t) /\ In (Store i) es
  | Done Failed => begins v es i None
  | Done (Page t) => exists a c, es = a ++ Execute i :: c /\ stored_last a (Some (Some t)) v /\ In (Store i) a /\ exists t0, begins v a i (Some t0)
  | Done NoTemplate => exists a c, es = a ++ Execute i :: c /\ stored_last a (Some None) v /\ In (Store i) a /\ exists t0, begins v a i (Some t0)
  end.
Record inv (v : option T) (es : list (event T)) (s : state T) : Prop := {
  in_disk : on_disk v es (file s); in_tpl : stored_last es (c_tpl s) v; in_did : forall i, did v es i (reqs s i) }.

Lemma begins_more : forall v a i w e, begins v a i w -> begins v (a ++ [e]) i w.
Proof. intros v a i w e (a1 & a2 & -> & D). exists a1, (a2 ++ [e]). split; [rewrite <- app_assoc; reflexivity|exact D]. Qed.
Lemma stored_more : forall es o v e, stored_last es o v -> (forall j, e <> Store j) -> stored_last (es ++ [e]) o v.
Proof.
  intros es [w|] v e S NE; cbn [stored_last] in *.
  - destruct S as (j & a & c & -> & NS & B). exists j, a, (c ++ [e]). split; [rewrite <- app_assoc; reflexivity|]. split; [|exact B].
    intros k I. apply in_app_iff in I. destruct I as [I|[I|[]]]; [exact (NS k I)|exact (NE k I)].
  - intros j I. apply in_app_iff in I. destruct I as [I|[I|[]]]; [exact (S j I)|exact (NE j I)].
Qed.
Lemma did_more : forall v es i p e, did v es i p -> e <> Parse i -> e <> Store i -> did v (es ++ [e]) i p.
Proof.
  intros v es i p e D N1 N2. assert (NI : forall x, ~ In x es -> e <> x -> ~ In x (es ++ [e])) by (intros x A B I; apply in_app_iff in I; destruct I as [I|[I|[]]]; [exact (A I)|exact (B I)]).
  destruct p as [|w| |[t| |]]; cbn [did] in *.
  - destruct D. auto.
  - destruct D as (B & NS). split; [apply begins_more; exact B|auto].
  - destruct D as (t & B & S). exists t. split; [apply begins_more; exact B|apply in_app_iff; left; exact S].
  - destruct D as (a & c & -> & X). exists a, (c ++ [e]). split; [rewrite <- app_assoc; reflexivity|exact X].
  - apply begins_more. exact D.
  - destruct D as (a & c & -> & X). exists a, (c ++ [e]). split; [rewrite <- app_assoc; reflexivity|exact X].
Qed.
Lemma inv_run : forall v es s, dev_run v es = Some s -> inv v es s.
Proof.
  intros v es. induction es as [|e es IH] using rev_ind; intros s E.
  { injection E as <-. constructor; [constructor|intros j []|]. intros i. split; intros []. }
  pose proof (disk_ok _ _ _ E) as DK. rewrite run_snoc in E. destruct (dev_run v es) as [s0|]; [|discriminate]. cbn [bind] in E. destruct (IH s0 eq_refl) as [D0 T0 P0]. clear IH.
  destruct e as [w|i|i|i]; cbn [dev_step] in E.
  - injection E as <-. constructor; [exact DK|apply stored_more; [exact T0|discriminate]|]. intros k. apply did_more; [apply P0|discriminate|discriminate].
  - pose proof (P0 i) as Pi. destruct (reqs s0 i) eqn:R; try discriminate. injection E as <-. constructor; cbn [c_tpl reqs]; [exact DK|apply stored_more; [exact T0|discriminate]|].
    intros k. unfold at_phase. destruct (Nat.eqb_spec k i) as [-> |N]; [|apply did_more; [apply P0|congruence|discriminate]].
    cbn [did] in *. destruct Pi as (_ & NS). split; [exists es, []; split; [reflexivity|exact D0]|]. intros I. apply in_app_iff in I. destruct I as [I|[I|[]]]; [exact (NS I)|discriminate].
  - pose proof (P0 i) as Pi. destruct (reqs s0 i) as [|w| |r] eqn:R; try discriminate. injection E as <-. cbn [did] in Pi. destruct Pi as (B & NS). constructor; cbn [c_tpl reqs]; [exact DK| |].
    + exists i, es, []. split; [reflexivity|]. split; [intros k []|exact B].
    + intros k. unfold at_phase. destruct (Nat.eqb_spec k i) as [-> |N]; [|apply did_more; [apply P0|discriminate|congruence]].
      destruct w as [t|]; cbn [did]; [exists t; split; [apply begins_more; exact B|apply in_app_iff; right; left; reflexivity]|apply begins_more; exact B].
  - pose proof (P0 i) as Pi. destruct (reqs s0 i) as [|w| |r] eqn:R; try discriminate. injection E as <-. cbn [did] in Pi. destruct Pi as (t0 & B & SI). constructor; cbn [c_tpl reqs]; [exact DK|apply stored_more; [exact T0|discriminate]|].
    intros k. unfold at_phase. destruct (Nat.eqb_spec k i) as [-> |N]; [|apply did_more; [apply P0|discriminate|discriminate]].
    destruct (c_tpl s0) as [[t|]|] eqn:C.
    + exists es, []. split; [reflexivity|]. split; [exact T0|]. split; [exact SI|exists t0; exact B].
    + exists es, []. split; [reflexivity|]. split; [exact T0|]. split; [exact SI|exists t0; exact B].
    + exfalso. exact (T0 i SI).
Qed.

(** A request happens once. *)
Lemma parse_once : forall v a b i s, dev_run v (a ++ Parse i :: b) = Some s -> ~ In (Parse i) a /\ ~ In (Parse i) b.
Proof.
  intros v a b i s E.
  assert (PRE : forall x y, a ++ Parse i :: b = x ++ Parse i :: y -> ~ In (Parse i) x).
  { intros x y Q. rewrite Q in E. destruct (run_app _ x _ _ E) as (s0 & R & X). cbn [fold_left bind dev_step] in X. pose proof (in_did _ _ _ (inv_run _ _ _ R) i) as D.
    destruct (reqs s0 i) eqn:Y; [apply D| | |]; exfalso; clear - X; induction y as [|e y IH]; try discriminate; exact (IH X). }
  split; [exact (PRE a b eq_refl)|]. intros I. apply in_split in I. destruct I as (b1 & b2 & ->).
  apply (PRE (a ++ Parse i :: b1) b2); [rewrite <- app_assoc; reflexivity|]. apply in_app_iff. right. left. reflexivity.
Qed.
Lemma begins_fun : forall v es i w w' s, dev_run v es = Some s -> begins v es i w -> begins v es i w' -> w = w'.
Proof.
  intros v es i w w' s R (a1 & a2 & E & D) (b1 & b2 & E' & D'). rewrite E in R. destruct (parse_once _ _ _ _ _ R) as (N1 & N2).
  assert (a1 = b1); [|subst b1; exact (disk_fun _ _ _ _ D D')]. rewrite E in E'. clear - E' N1 N2.
  revert b1 E' ; induction a1 as [|x a1 IH]; intros [|y b1] E'.
  - reflexivity.
  - injection E' as <- E'. exfalso. apply N2. rewrite E'. apply in_app_iff. right. left. reflexivity.
  - injection E' as -> E'. exfalso. apply N1. left. reflexivity.
  - injection E' as <- E'. f_equal. apply IH; [intros I; apply N1; right; exact I|exact E'].
Qed.
(** What was stored last by [i] is what [i] read. *)
Lemma last_own : forall v a i c o, stored_last (a ++ Store i :: c) (Some o) v -> (forall k, ~ In (Store k) c) -> begins v a i o.
Proof.
  intros v a i c o (j & b & d & E & NS & B) NC.
  assert (X : i = j /\ a = b); [|destruct X as (<- & <-); exact B]. clear B. revert b E. induction a as [|x a IH]; intros [|y b] E.
  - injection E as <- _. auto.
  - injection E as <- E. exfalso. apply (NC j). rewrite E. apply in_app_iff. right. left. reflexivity.
  - injection E as -> E. exfalso. apply (NS i). rewrite <- E. apply in_app_iff. right. left. reflexivity.
  - injection E as <- E. destruct (IH b E) as (-> & ->). auto.
Qed.

Theorem alone : forall v a b i c s, dev_run v (a ++ Parse i :: b ++ Store i :: c ++ [Execute i]) = Some s -> (forall k, ~ In (Store k) c) ->
  exists t, on_disk v a (Some t) /\ reqs s i = Done (Page t).
Proof.
  intros v a b i c s R NS. set (es := a ++ Parse i :: b ++ Store i :: c) in *.
  assert (EQ : a ++ Parse i :: b ++ Store i :: c ++ [Execute i] = es ++ [Execute i]) by (unfold es; rewrite <- app_assoc; cbn [app]; rewrite <- app_assoc; reflexivity).
  rewrite EQ in R. rewrite run_snoc in R. destruct (dev_run v es) as [s0|] eqn:R0; [|discriminate]. cbn [bind dev_step] in R.
  pose proof (inv_run _ _ _ R0) as [D T0 P]. specialize (P i). destruct (reqs s0 i) as [|w| |r] eqn:RI; try discriminate. injection R as <-. cbn [reqs]. unfold at_phase. rewrite Nat.eqb_refl.
  destruct P as (t0 & B & SI). destruct (run_app v a _ _ R0) as (sa & Ra & _). pose proof (disk_ok _ _ _ Ra) as DA.
  assert (B' : begins v es i (file sa)) by (exists a, (b ++ Store i :: c); split; [reflexivity|exact DA]).
  pose proof (begins_fun _ _ _ _ _ _ R0 B B') as F. exists t0. split; [rewrite F; exact DA|].
  destruct (c_tpl s0) as [o|] eqn:C; [|exfalso; exact (T0 i SI)].
  assert (ES : es = (a ++ Parse i :: b) ++ Store i :: c) by (unfold es; rewrite <- app_assoc; reflexivity).
  rewrite ES in T0. pose proof (last_own _ _ _ _ _ T0 NS) as BO.
  assert (o = Some t0).
  { apply (begins_fun v es i o (Some t0) s0 R0); [|exact B]. destruct BO as (x & y & E & Dx). exists x, (y ++ Store i :: c). split; [|exact Dx]. rewrite ES, E, <- app_assoc. reflexivity. }
  subst o. reflexivity.
Qed.
Theorem someones : forall v es s i t, dev_run v es = Some s -> reqs s i = Done (Page t) ->
  exists a j b c, es = a ++ Store j :: b ++ Execute i :: c /\ begins v a j (Some t) /\ In (Store i) (a ++ [Store j]) /\ (forall k, ~ In (Store k) b).
Proof.
  intros v es s i t R RI. pose proof (in_did _ _ _ (inv_run _ _ _ R) i) as D. rewrite RI in D. destruct D as (a & c & -> & (j & a1 & b & -> & NS & B) & SI & _).
  exists a1, j, b, c. split; [rewrite <- app_assoc; reflexivity|]. split; [exact B|]. split; [|exact NS].
  apply in_app_iff in SI. apply in_app_iff. destruct SI as [SI|[SI|SI]]; [left; exact SI|right; left; exact SI|exfalso; exact (NS i SI)].
Qed.
Theorem failed_own : forall v es s i, dev_run v es = Some s -> (reqs s i = Done Failed <-> begins v es i None /\ In (Store i) es).
Proof.
  intros v es s i R. pose proof (in_did _ _ _ (inv_run _ _ _ R) i) as D. split.
  - intros RI. rewrite RI in D. cbn [did] in D. split; [exact D|].
    (* by induction: only Store makes it *)
    clear D. revert s R RI. induction es as [|e es IH] using rev_ind; intros s R RI; [injection R as <-; discriminate|].
    rewrite run_snoc in R. destruct (dev_run v es) as [s0|] eqn:R0; [|discriminate]. cbn [bind] in R. apply in_app_iff.
    destruct e as [w|k|k|k]; cbn [dev_step] in R.
    + injection R as <-. left. exact (IH s0 eq_refl RI).
    + destruct (reqs s0 k) eqn:RK; try discriminate. injection R as <-. cbn [reqs] in RI. unfold at_phase in RI. destruct (Nat.eqb_spec i k); [discriminate|]. left. exact (IH s0 eq_refl RI).
    + destruct (reqs s0 k) eqn:RK; try discriminate. injection R as <-. cbn [reqs] in RI. unfold at_phase in RI. destruct (Nat.eqb_spec i k) as [-> |N]; [right; left; reflexivity|]. left. exact (IH s0 eq_refl RI).
    + destruct (reqs s0 k) eqn:RK; try discriminate. injection R as <-. cbn [reqs] in RI. unfold at_phase in RI. destruct (Nat.eqb_spec i k); [destruct (c_tpl s0) as [[?|]|]; discriminate|]. left. exact (IH s0 eq_refl RI).
  - intros (B & SI). destruct (reqs s i) as [|w| |[t| |]] eqn:RI; cbn [did] in D.
    + destruct D as (_ & NS). contradiction.
    + destruct D as (_ & NS). contradiction.
    + destruct D as (t & B' & _). pose proof (begins_fun _ _ _ _ _ _ R B B'). discriminate.
    + destruct D as (x & y & E & _ & _ & t0 & B'). assert (Z : begins v es i (Some t0)) by (destruct B' as (p & q & -> & Dp); exists p, (q ++ Execute i :: y); split; [rewrite E, <- app_assoc; reflexivity|exact Dp]).
      pose proof (begins_fun _ _ _ _ _ _ R B Z). discriminate.
    + reflexivity.
    + destruct D as (x & y & E & _ & _ & t0 & B'). assert (Z : begins v es i (Some t0)) by (destruct B' as (p & q & -> & Dp); exists p, (q ++ Execute i :: y); split; [rewrite E, <- app_assoc; reflexivity|exact Dp]).
      pose proof (begins_fun _ _ _ _ _ _ R B Z). discriminate.
Qed.
Theorem always_goes_on : forall v es s i, dev_run v es = Some s -> (forall r, reqs s i <> Done r) -> exists e s', dev_step s e = Some s' /\ e <> Edit None /\ reqs s' i <> reqs s i.
Proof.
  intros v es s i R ND. destruct (reqs s i) as [|w| |r] eqn:RI; [| | |destruct (ND r eq_refl)].
  - exists (Parse i). eexists. cbn [dev_step]. rewrite RI. split; [reflexivity|]. split; [discriminate|]. cbn [reqs]. unfold at_phase. rewrite Nat.eqb_refl. discriminate.
  - exists (Store i). eexists. cbn [dev_step]. rewrite RI. split; [reflexivity|]. split; [discriminate|]. cbn [reqs]. unfold at_phase. rewrite Nat.eqb_refl. destruct w; discriminate.
  - exists (Execute i). eexists. cbn [dev_step]. rewrite RI. split; [reflexivity|]. split; [discriminate|]. cbn [reqs]. unfold at_phase. rewrite Nat.eqb_refl. discriminate.
Qed.
End Dev.
