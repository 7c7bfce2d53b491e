From Verif Require Import Model.Base Model.Startup Spec.StartupSpec.
From Coq Require Import Lia.

Lemma set_same : forall {A} (f : nat -> A) d a, set f d a d = a.
Proof. intros. unfold set. rewrite Nat.eqb_refl. reflexivity. Qed.
Lemma set_other : forall {A} (f : nat -> A) d a e, e <> d -> set f d a e = f e.
Proof. intros. unfold set. destruct (Nat.eqb_spec e d); congruence. Qed.
Ltac scase e d := destruct (Nat.eq_dec e d) as [->|?NE]; [rewrite ?set_same in *|rewrite ?set_other in * by assumption].

(** ** Builds *)
Definition staged (W : world) (u r : str) (o : nat) (ops : list op) (x : dir) : Prop :=
  exists dn, builds W u r o (dn ++ ops) /\ x = fold_left apply dn empty_dir.

Definition no_man (w : op) : Prop := match w with SetMan _ => False | _ => True end.
Lemma fold_no_man : forall ops x, Forall no_man ops -> man (fold_left apply ops x) = man x.
Proof.
  induction ops as [|w ops IH]; intros x F; [reflexivity|]. cbn. rewrite IH by apply (Forall_inv_tail F).
  pose proof (Forall_inv F) as Q. destruct w; cbn in *; tauto.
Qed.
Lemma fold_raw : forall l x, l <> [] -> fold_left apply (map SetRaw l) x = mkDir (Some (last l [])) (tri x) (excl x) (man x).
Proof.
  induction l as [|a l IH]; intros x NE; [congruence|]. destruct l as [|b l]; [reflexivity|].
  change (fold_left apply (map SetRaw (b :: l)) (apply x (SetRaw a)) = mkDir (Some (last (b :: l) [])) (tri x) (excl x) (man x)).
  rewrite IH by discriminate. reflexivity.
Qed.
Lemma fold_tri : forall l x, l <> [] -> fold_left apply (map SetTri l) x = mkDir (raw x) (Some (last l [])) (excl x) (man x).
Proof.
  induction l as [|a l IH]; intros x NE; [congruence|]. destruct l as [|b l]; [reflexivity|].
  change (fold_left apply (map SetTri (b :: l)) (apply x (SetTri a)) = mkDir (raw x) (Some (last (b :: l) [])) (excl x) (man x)).
  rewrite IH by discriminate. reflexivity.
Qed.
Lemma fold_excl : forall l x, l <> [] -> fold_left apply (map SetExcl l) x = mkDir (raw x) (tri x) (Some (last l [])) (man x).
Proof.
  induction l as [|a l IH]; intros x NE; [congruence|]. destruct l as [|b l]; [reflexivity|].
  change (fold_left apply (map SetExcl (b :: l)) (apply x (SetExcl a)) = mkDir (raw x) (tri x) (Some (last (b :: l) [])) (man x)).
  rewrite IH by discriminate. reflexivity.
Qed.
Lemma fold_man : forall l x, l <> [] -> fold_left apply (map SetMan l) x = mkDir (raw x) (tri x) (excl x) (Some (last l [])).
Proof.
  induction l as [|a l IH]; intros x NE; [congruence|]. destruct l as [|b l]; [reflexivity|].
  change (fold_left apply (map SetMan (b :: l)) (apply x (SetMan a)) = mkDir (raw x) (tri x) (excl x) (Some (last (b :: l) []))).
  rewrite IH by discriminate. reflexivity.
Qed.
Lemma snoc_ne : forall {A} (l : list A) a, l ++ [a] <> [].
Proof. intros A [|b l] a; discriminate. Qed.

Definition head_ops (W : world) u r o rs es ts : list op :=
  SetRaw [] :: SetTri [] :: SetExcl [] :: map SetRaw (rs ++ [raw_of W u r o]) ++
  map SetExcl (es ++ [excl_of W u r o]) ++ map SetTri (ts ++ [tri_of W (raw_of W u r o)]).

Lemma head_result : forall W u r o rs es ts,
  fold_left apply (head_ops W u r o rs es ts) empty_dir =
  mkDir (Some (raw_of W u r o)) (Some (tri_of W (raw_of W u r o))) (Some (excl_of W u r o)) None.
Proof.
  intros. unfold head_ops. cbn [fold_left]. rewrite !fold_left_app.
  rewrite fold_raw, fold_excl, fold_tri by apply snoc_ne. cbn. rewrite !last_last. reflexivity.
Qed.
Lemma head_no_man : forall W u r o rs es ts, Forall no_man (head_ops W u r o rs es ts).
Proof.
  intros. unfold head_ops. repeat (constructor; [exact I|]). rewrite !Forall_app. repeat split;
  apply Forall_forall; intros w Hw; apply in_map_iff in Hw; destruct Hw as (y & <- & _); exact I.
Qed.
Lemma builds_head : forall W u r o ops, builds W u r o ops -> exists rs es ts ms,
  Forall (fun p => exists q, enc W u r o = p ++ q) ms /\ ops = head_ops W u r o rs es ts ++ map SetMan (ms ++ [enc W u r o]).
Proof.
  intros W u r o ops (rs & es & ts & ms & F & ->). exists rs, es, ts, ms. split; [exact F|]. unfold head_ops.
  rewrite !map_app. cbn [map]. cbn [app]. rewrite <- !app_assoc. cbn [app]. reflexivity.
Qed.

Lemma app_split : forall {A} (a b c d : list A), a ++ b = c ++ d ->
  (exists l, c = a ++ l /\ b = l ++ d) \/ (exists l, a = c ++ l /\ d = l ++ b).
Proof.
  induction a as [|x a IH]; intros b c d H; cbn in H.
  - left. exists c. auto.
  - destruct c as [|y c]; cbn in H.
    + right. exists (x :: a). auto.
    + injection H as -> H. destruct (IH _ _ _ H) as [(l & -> & ->)|(l & -> & ->)]; [left|right]; exists l; auto.
Qed.
Lemma map_app_inv : forall {A B} (f : A -> B) l p q, map f l = p ++ q -> exists a b, l = a ++ b /\ p = map f a /\ q = map f b.
Proof.
  intros A B f l. induction l as [|x l IH]; intros p q H; cbn in H.
  - destruct p; [|discriminate]. destruct q; [|discriminate]. exists [], []. auto.
  - destruct p as [|y p]; cbn in H.
    + exists [], (x :: l). auto.
    + injection H as <- H. destruct (IH _ _ H) as (a & b & -> & -> & ->). exists (x :: a), b. auto.
Qed.

Lemma staged_cases : forall W u r o ops x, staged W u r o ops x ->
  man x = None \/ exists p q, enc W u r o = p ++ q /\
    x = mkDir (Some (raw_of W u r o)) (Some (tri_of W (raw_of W u r o))) (Some (excl_of W u r o)) (Some p).
Proof.
  intros W u r o ops x (dn & BU & ->). apply builds_head in BU. destruct BU as (rs & es & ts & ms & F & E).
  pose proof (head_no_man W u r o rs es ts) as NM. pose proof (head_result W u r o rs es ts) as HR.
  destruct (app_split _ _ _ _ E) as [(l & E1 & E2)|(l & E1 & E2)].
  - left. rewrite fold_no_man; [reflexivity|]. rewrite E1 in NM. apply Forall_app in NM. apply NM.
  - apply map_app_inv in E2. destruct E2 as (a & b & E3 & -> & _). rewrite E1, fold_left_app, HR.
    destruct a as [|a0 a]; [left; reflexivity|]. right. rewrite fold_man by discriminate.
    assert (FA : Forall (fun p => exists q, enc W u r o = p ++ q) (ms ++ [enc W u r o])).
    { apply Forall_app. split; [exact F|]. constructor; [exists []; rewrite app_nil_r; reflexivity|constructor]. }
    rewrite E3 in FA. apply Forall_app in FA. destruct FA as (FA & _). rewrite Forall_forall in FA.
    assert (LI : In (last (a0 :: a) []) (a0 :: a)).
    { clear. revert a0. induction a as [|a1 a IH]; intros a0; [left; reflexivity|]. change (last (a0 :: a1 :: a) []) with (last (a1 :: a) (@nil byte)). right. apply IH. }
    destruct (FA _ LI) as (q & Eq). exists (last (a0 :: a) []), q. split; [exact Eq|reflexivity].
Qed.
Lemma staged_read : forall W u r o ops x q, staged W u r o ops x -> read_man W x = Some q -> q = (u, r) /\ complete W u r o x.
Proof.
  intros W u r o ops x q ST RD. destruct (staged_cases _ _ _ _ _ _ ST) as [E|(p & t & E & ->)]; unfold read_man in RD.
  - rewrite E in RD. discriminate.
  - cbn in RD. destruct t as [|b t].
    + rewrite app_nil_r in E. subst p. rewrite dec_enc in RD. split; [congruence|]. repeat split.
    + rewrite (dec_cut W _ _ _ _ _ _ E) in RD. discriminate.
Qed.
Lemma staged_end : forall W u r o x, staged W u r o [] x -> complete W u r o x.
Proof.
  intros W u r o x (dn & BU & ->). rewrite app_nil_r in BU. apply builds_head in BU. destruct BU as (rs & es & ts & ms & F & ->).
  rewrite fold_left_app, head_result, fold_man by apply snoc_ne. cbn. rewrite last_last. repeat split.
Qed.
Lemma staged_start : forall W u r o ops, builds W u r o ops -> staged W u r o ops empty_dir.
Proof. intros W u r o ops BU. exists []. split; [exact BU|reflexivity]. Qed.
Lemma staged_next : forall W u r o w ops x, staged W u r o (w :: ops) x -> staged W u r o ops (apply x w).
Proof. intros W u r o w ops x (dn & BU & ->). exists (dn ++ [w]). split; [rewrite <- app_assoc; exact BU|rewrite fold_left_app; reflexivity]. Qed.
Lemma complete_read : forall W u r o x, complete W u r o x -> read_man W x = Some (u, r).
Proof. intros W u r o x (_ & _ & _ & E). unfold read_man. rewrite E. apply dec_enc. Qed.

(** ** Traces *)
Lemma hurt_app : forall d a b, hurt d (a ++ b) = fold_left (hurt_by d) b (hurt d a).
Proof. intros. unfold hurt. apply fold_left_app. Qed.
Lemma hurt_quiet : forall d es b, (forall e, In e es -> e <> Removing d /\ e <> Removed d) -> fold_left (hurt_by d) es b = b.
Proof.
  induction es as [|e es IH]; intros b Q; [reflexivity|]. cbn. rewrite IH by (intros; apply Q; right; assumption).
  destruct (Q e (or_introl eq_refl)) as (Q1 & Q2). destruct e; try reflexivity; cbn; destruct (Nat.eqb_spec d0 d); congruence.
Qed.
Lemma configured_app : forall u o a b, configured u o a -> configured u o (a ++ b).
Proof. intros u o a b (cfg & f & I & J). exists cfg, f. split; [apply in_or_app; auto|exact J]. Qed.
Lemma interrupted_app : forall d a b, interrupted d a -> interrupted d (a ++ b).
Proof. intros d a b (t1 & t2 & -> & H). exists t1, (t2 ++ b). split; [rewrite <- app_assoc; reflexivity|exact H]. Qed.

(** ** The invariant *)
Definition builds_at (j : job) (d : nat) (r : str) (ops : list op) : Prop :=
  match j with
  | JBuild e q l => d = e /\ r = q /\ ops = l
  | JUpd _ _ e q l => d = e /\ r = q /\ ops = l
  | _ => False end.
Definition apart (j : job) : Prop :=
  match j with JUpd d _ e _ _ => d <> e | JOld d _ e => d <> e | _ => True end.
Definition fits (ph : phase) (within : bool) (j : job) : Prop :=
  match ph, j with
  | Starting, (JUpd _ _ _ _ _ | JOld _ _ _) => False
  | Cleaning _, (JBuild _ _ _ | JUpd _ _ _ _ _ | JOld _ _ _) => False
  | Serving, JBuild _ _ _ => False
  | (Cleaning _ | Serving), JNew => within = false
  | _, _ => True end.

Record pinv (W : world) (tr : list event) (dk : nat -> option dir) (p : process) : Prop := {
  q_cfg : exists f, In (Start (config p) f) tr;
  q_out : forall i, length (config p) <= i -> jobs p i = JNew;
  q_build : forall i d r ops, builds_at (jobs p i) d r ops ->
    (exists u o x, nth_error (config p) i = Some (u, o) /\ dk d = Some x /\ staged W u r o ops x) /\
    forall j, j <> i -> ~ mentions (jobs p j) d;
  q_ne : forall i, apart (jobs p i);
  q_old : forall i d r old, jobs p i = JOld d r old -> hurt old tr = true \/ dk old = None;
  q_fits : forall i, fits (at_phase p) (Nat.ltb i (length (config p))) (jobs p i);
  q_refs : at_phase p = Starting -> forall d q, refs p d = Some q -> exists x, dk d = Some x /\ read_ref W x = q;
  q_new : at_phase p = Starting -> forall i d r ops, jobs p i = JBuild d r ops -> refs p d = None;
  q_cur : forall e, at_phase p = Cleaning (Some e) -> refs p e <> None /\ claimed p e = false /\ hurt e tr = true;
  q_live : at_phase p <> Serving -> forall i d r, jobs p i = JLive d r -> (refs p d = None \/ claimed p d = true) /\ dk d <> None;
  q_claim : at_phase p <> Serving -> forall d, claimed p d = true -> refs p d <> None /\ dk d <> None }.

Definition up_at (s : state) (ph : phase) : Prop := exists p, proc s = Some p /\ at_phase p = ph.
Record inv (W : world) (tr : list event) (s : state) : Prop := {
  i_disk : forall d x u r, disk s d = Some x -> read_man W x = Some (u, r) ->
    hurt d tr = true \/ exists o, configured u o tr /\ complete W u r o x;
  i_int : proc s = None \/ up_at s Starting -> forall d, hurt d tr = true -> interrupted d tr;
  i_proc : forall p, proc s = Some p -> pinv W tr (disk s) p }.

Lemma builds_mention : forall j d r ops, builds_at j d r ops -> mentions j d.
Proof. intros j d r ops H. destruct j; cbn in *; tauto. Qed.

Definition quiet (es : list event) : Prop := forall e, In e es -> match e with Removing _ | Removed _ | Start _ _ => False | _ => True end.
Lemma quiet_hurt : forall d tr es, quiet es -> hurt d (tr ++ es) = hurt d tr.
Proof.
  intros d tr es Q. rewrite hurt_app. apply hurt_quiet. intros e I. specialize (Q e I). split; intros ->; exact Q.
Qed.

(** One job changes, and perhaps one directory no other job uses. *)
Lemma frame : forall W tr es dk dk' p i j' cl t, pinv W tr dk p -> quiet es -> i < length (config p) ->
  (forall e, e <> t -> dk' e = dk e) ->
  (dk' t = dk t \/ ((forall j, j <> i -> ~ mentions (jobs p j) t) /\ (at_phase p <> Serving -> refs p t = None) /\ dk' t <> None)) ->
  (forall d, cl d = true -> claimed p d = true \/ (refs p d <> None /\ dk d <> None)) ->
  (forall d, claimed p d = true -> cl d = true) ->
  (forall e, at_phase p = Cleaning (Some e) -> cl e = false) ->
  (forall d r ops, builds_at j' d r ops -> (exists u o x, nth_error (config p) i = Some (u, o) /\ dk' d = Some x /\ staged W u r o ops x) /\
     forall j, j <> i -> ~ mentions (jobs p j) d) ->
  (forall d, mentions j' d -> forall k r ops, k <> i -> ~ builds_at (jobs p k) d r ops) ->
  apart j' -> (forall d r old, j' = JOld d r old -> hurt old tr = true \/ dk' old = None) ->
  fits (at_phase p) true j' ->
  (at_phase p = Starting -> forall d r ops, j' = JBuild d r ops -> refs p d = None) ->
  (at_phase p <> Serving -> forall d r, j' = JLive d r -> (refs p d = None \/ cl d = true) /\ dk' d <> None) ->
  pinv W (tr ++ es) dk' (mkProcess (config p) (refs p) cl (at_phase p) (set (jobs p) i j')).
Proof.
  intros W tr es dk dk' p i j' cl t [Q1 Q2 Q3 Q4 Q5 Q6 Q7 Q8 Q9 Q10 Q11] QU LT D1 D2 C1 C2 C3 N1 N6 N2 N3 N4 N5 N7.
  assert (DD : forall e, dk' e = dk e \/ e = t) by (intros e; destruct (Nat.eq_dec e t); [right; assumption|left; apply D1; assumption]).
  assert (NN : forall e, dk e <> None -> dk' e <> None).
  { intros e X. destruct (DD e) as [->|E]; [exact X|]. subst e. destruct D2 as [D2|(_ & _ & D2)]; [rewrite D2; exact X|exact D2]. }
  split; cbn [config refs claimed at_phase jobs].
  - destruct Q1 as (f & Q1). exists f. apply in_or_app. auto.
  - intros k L. scase k i; [lia|auto].
  - intros k d r ops B. destruct (Nat.eq_dec k i) as [->|NE].
    + rewrite set_same in B. destruct (N1 d r ops B) as (N & M). split; [exact N|]. intros j J. rewrite set_other by exact J. apply M. exact J.
    + rewrite set_other in B by exact NE. destruct (Q3 k d r ops B) as ((u & o & x & A1 & A2 & A3) & M). split.
      * exists u, o, x. split; [exact A1|]. split; [|exact A3]. destruct (DD d) as [->|E]; [exact A2|]. subst d.
        destruct D2 as [D2|(D2 & _)]; [rewrite D2; exact A2|]. destruct (D2 k NE). apply (builds_mention _ _ _ _ B).
      * intros j J. destruct (Nat.eq_dec j i) as [->|NE']; [rewrite set_same|rewrite set_other by exact NE'; apply M; exact J].
        intros X. apply (N6 d X k r ops NE B).
  - intros k. scase k i; auto.
  - intros k d r old E. rewrite (quiet_hurt _ _ _ QU). destruct (Nat.eq_dec k i) as [->|NE].
    + rewrite set_same in E. apply (N3 _ _ _ E).
    + rewrite set_other in E by exact NE. destruct (Q5 k d r old E) as [X|X]; [left; exact X|].
      destruct (DD old) as [Y|Y]; [right; rewrite Y; exact X|]. subst old. destruct D2 as [D2|(D2 & _)]; [right; rewrite D2; exact X|].
      exfalso. apply (D2 k NE). rewrite E. cbn. auto.
  - intros k. destruct (Nat.eq_dec k i) as [->|NE]; [rewrite set_same|rewrite set_other by exact NE; apply Q6].
    replace (i <? length (config p)) with true by (symmetry; apply Nat.ltb_lt; exact LT). exact N4.
  - intros E d q R. destruct (Q7 E d q R) as (x & X1 & X2). exists x. split; [|exact X2]. destruct (DD d) as [->|Y]; [exact X1|]. subst d.
    destruct D2 as [D2|(_ & D2 & _)]; [rewrite D2; exact X1|]. rewrite D2 in R by (rewrite E; discriminate). discriminate.
  - intros E k d r ops B. destruct (Nat.eq_dec k i) as [->|NE].
    + rewrite set_same in B. apply (N5 E _ _ _ B).
    + rewrite set_other in B by exact NE. apply (Q8 E _ _ _ _ B).
  - intros e E. destruct (Q9 e E) as (A1 & A2 & A3). split; [exact A1|]. split; [apply C3; exact E|]. rewrite (quiet_hurt _ _ _ QU). exact A3.
  - intros E k d r L. destruct (Nat.eq_dec k i) as [->|NE].
    + rewrite set_same in L. apply (N7 E _ _ L).
    + rewrite set_other in L by exact NE. destruct (Q10 E k d r L) as ([A|A] & B); (split; [|apply NN; exact B]); [left; exact A|right; apply C2; exact A].
  - intros E d C. destruct (C1 d C) as [A|(A & B)]; [destruct (Q11 E d A) as (A1 & A2); split; [exact A1|apply NN; exact A2]|split; [exact A|apply NN; exact B]].
Qed.

(** Nothing but a shrinking or vanishing directory that is being removed. *)
Lemma frame_remove : forall W tr es dk p d y, pinv W tr dk p -> 
  (es = [] /\ y <> None \/ es = [Removed d] /\ y = None) ->
  (forall i r ops, ~ builds_at (jobs p i) d r ops) ->
  (at_phase p <> Serving -> at_phase p = Cleaning (Some d)) ->
  (y <> None -> hurt d tr = true) ->
  (es = [] \/ at_phase p = Serving) ->
  pinv W (tr ++ es) (set dk d y) p.
Proof.
  intros W tr es dk p d y [Q1 Q2 Q3 Q4 Q5 Q6 Q7 Q8 Q9 Q10 Q11] ES NB PH HU EP.
  assert (NC : at_phase p <> Serving -> refs p d <> None /\ claimed p d = false).
  { intros X. destruct (Q9 d (PH X)) as (A & B & _). auto. }
  split; auto.
  - destruct Q1 as (f & Q1). exists f. apply in_or_app. auto.
  - intros k e r ops B. destruct (Q3 k e r ops B) as ((u & o & x & A1 & A2 & A3) & M). split; [|exact M]. exists u, o, x.
    split; [exact A1|]. split; [|exact A3]. rewrite set_other; [exact A2|]. intros ->. apply (NB _ _ _ B).
  - intros k e r old E. destruct (Nat.eq_dec old d) as [->|NE].
    + rewrite set_same. destruct ES as [(-> & Y)|(-> & ->)]; [|right; reflexivity]. rewrite app_nil_r. left. apply HU. exact Y.
    + rewrite set_other by exact NE. destruct (Q5 k e r old E) as [X|X]; [left|right; exact X].
      destruct ES as [(-> & _)|(-> & _)]; [rewrite app_nil_r; exact X|]. rewrite hurt_app. cbn. destruct (Nat.eqb_spec d old); [congruence|exact X].
  - intros E. assert (X : at_phase p = Cleaning (Some d)) by (apply PH; rewrite E; discriminate). congruence.
  - intros e E. destruct (Q9 e E) as (A1 & A2 & A3). destruct EP as [->|X]; [|congruence]. rewrite app_nil_r. auto.
  - intros E k e r L. destruct (Q10 E k e r L) as (A & B). split; [exact A|]. rewrite set_other; [exact B|]. intros ->.
    destruct (NC E) as (X & Y). destruct A; congruence.
  - intros E e C. destruct (Q11 E e C) as (A & B). split; [exact A|]. rewrite set_other; [exact B|]. intros ->. destruct (NC E); congruence.
Qed.

Lemma inv_quiet_disk : forall W tr es dk dk' t, quiet es ->
  (forall d x u r, dk d = Some x -> read_man W x = Some (u, r) -> hurt d tr = true \/ exists o, configured u o tr /\ complete W u r o x) ->
  (forall e, e <> t -> dk' e = dk e) ->
  (forall x u r, dk' t = Some x -> read_man W x = Some (u, r) -> hurt t tr = true \/ exists o, configured u o tr /\ complete W u r o x) ->
  forall d x u r, dk' d = Some x -> read_man W x = Some (u, r) -> hurt d (tr ++ es) = true \/ exists o, configured u o (tr ++ es) /\ complete W u r o x.
Proof.
  intros W tr es dk dk' t QU ID D1 DT d x u r E R. rewrite (quiet_hurt _ _ _ QU).
  assert (X : hurt d tr = true \/ exists o, configured u o tr /\ complete W u r o x).
  { destruct (Nat.eq_dec d t) as [->|NE]; [apply DT; assumption|]. rewrite D1 in E by exact NE. apply (ID d x u r E R). }
  destruct X as [X|(o & X & Y)]; [left; exact X|right; exists o; split; [apply configured_app; exact X|exact Y]].
Qed.

Lemma int_quiet : forall tr es s s', quiet es ->
  (proc s = None \/ up_at s Starting -> forall d, hurt d tr = true -> interrupted d tr) ->
  (proc s' = None \/ up_at s' Starting -> proc s = None \/ up_at s Starting) ->
  (proc s' = None \/ up_at s' Starting -> forall d, hurt d (tr ++ es) = true -> interrupted d (tr ++ es)).
Proof.
  intros tr es s s' QU H1 H2 P d X. rewrite (quiet_hurt _ _ _ QU) in X. apply interrupted_app. apply H1; auto.
Qed.
Lemma up_set : forall s dk p i j, proc s = Some p ->
  proc (mkState dk (Some (set_job p i j))) = None \/ up_at (mkState dk (Some (set_job p i j))) Starting -> proc s = None \/ up_at s Starting.
Proof. intros s dk p i j E [X|(q & X & Y)]; [discriminate|]. right. exists p. split; [exact E|]. cbn in X. injection X as <-. exact Y. Qed.
Lemma up_claim : forall s dk p d i j, proc s = Some p ->
  proc (mkState dk (Some (set_claimed p d i j))) = None \/ up_at (mkState dk (Some (set_claimed p d i j))) Starting -> proc s = None \/ up_at s Starting.
Proof. intros s dk p d i j E [X|(q & X & Y)]; [discriminate|]. right. exists p. split; [exact E|]. cbn in X. injection X as <-. exact Y. Qed.
Lemma not_up : forall dk p ph tr, at_phase p = ph -> ph <> Starting ->
  proc (mkState dk (Some p)) = None \/ up_at (mkState dk (Some p)) Starting -> forall d, hurt d tr = true -> interrupted d tr.
Proof. intros dk p ph tr E NE [X|(q & X & Y)]; [discriminate|]. cbn in X. injection X as <-. congruence. Qed.

Ltac quiet_tac := intros ?e ?I; cbn in I; repeat (destruct I as [<-|I]; [exact Logic.I|]); contradiction.

Section Step.
Context (W : world).

Lemma new_starting : forall tr dk p i, pinv W tr dk p -> i < length (config p) -> jobs p i = JNew -> at_phase p = Starting.
Proof.
  intros tr dk p i PI LT E. pose proof (q_fits _ _ _ _ PI i) as F. rewrite E in F.
  assert (X : (i <? length (config p)) = true) by (apply Nat.ltb_lt; exact LT). rewrite X in F. destruct (at_phase p); auto; discriminate.
Qed.
Lemma job_in : forall tr dk p i, pinv W tr dk p -> jobs p i <> JNew -> i < length (config p).
Proof. intros tr dk p i PI NE. destruct (Nat.lt_ge_cases i (length (config p))) as [L|G]; [exact L|]. destruct NE. apply (q_out _ _ _ _ PI). exact G. Qed.
Lemma build_starting : forall tr dk p i d r ops, pinv W tr dk p -> jobs p i = JBuild d r ops -> at_phase p = Starting.
Proof. intros tr dk p i d r ops PI E. pose proof (q_fits _ _ _ _ PI i) as F. rewrite E in F. destruct (at_phase p); auto; destruct F. Qed.
Lemma upd_serving : forall tr dk p i d r d' r' ops, pinv W tr dk p -> jobs p i = JUpd d r d' r' ops -> at_phase p = Serving.
Proof. intros tr dk p i d r d' r' ops PI E. pose proof (q_fits _ _ _ _ PI i) as F. rewrite E in F. destruct (at_phase p); auto; destruct F. Qed.
Lemma old_serving : forall tr dk p i d r old, pinv W tr dk p -> jobs p i = JOld d r old -> at_phase p = Serving.
Proof. intros tr dk p i d r old PI E. pose proof (q_fits _ _ _ _ PI i) as F. rewrite E in F. destruct (at_phase p); auto; destruct F. Qed.
Lemma not_built : forall tr dk p d, pinv W tr dk p -> refs p d <> None -> at_phase p = Starting ->
  forall k r ops, ~ builds_at (jobs p k) d r ops.
Proof.
  intros tr dk p d PI R E k r ops B. pose proof (q_fits _ _ _ _ PI k) as F. rewrite E in F. destruct (jobs p k) eqn:EJ; try contradiction.
  cbn in B. destruct B as (-> & _). apply R. apply (q_new _ _ _ _ PI E k _ _ _ EJ).
Qed.
Lemma mine : forall tr dk p i d r ops, pinv W tr dk p -> builds_at (jobs p i) d r ops ->
  forall k e q l, mentions (jobs p i) e -> k <> i -> ~ builds_at (jobs p k) e q l.
Proof. intros tr dk p i d r ops PI B k e q l M NE B'. apply (proj2 (q_build _ _ _ _ PI k e q l B') i); auto. Qed.
Lemma nobody : forall tr dk p i e, pinv W tr dk p -> mentions (jobs p i) e -> forall k q l, k <> i -> ~ builds_at (jobs p k) e q l.
Proof. intros tr dk p i e PI M k q l NE B'. apply (proj2 (q_build _ _ _ _ PI k e q l B') i); auto. Qed.

Lemma inv_step : forall tr s es s', inv W tr s -> step W s es s' -> inv W (tr ++ es) s'.
Proof.
  intros tr s es s' [ID II IP] ST. destruct ST.
  - (* start *)
    assert (HE : forall d, hurt d (tr ++ [Start cfg (disk s)]) = hurt d tr) by (intros d; rewrite hurt_app; reflexivity).
    split; cbn [disk proc].
    + intros d x u r E R. rewrite HE. destruct (ID d x u r E R) as [X|(o & X & Y)]; [left; exact X|right; exists o; split; [apply configured_app; exact X|exact Y]].
    + intros _ d X. rewrite HE in X. apply interrupted_app. apply II; auto.
    + intros p X. injection X as <-. split; cbn [config refs claimed at_phase jobs]; try discriminate; auto; try (intros; contradiction).
      * exists (disk s). apply in_or_app. right. left. reflexivity.
      * intros i. exact I.
      * intros i. cbn. exact I.
      * intros _ d q E. destruct (disk s d) as [x|]; [|discriminate]. cbn in E. exists x. split; [reflexivity|congruence].
  - (* nopull *)
    rename H into PS. pose proof (IP _ PS) as PI. pose proof (new_starting _ _ _ _ PI H0 H1) as PH.
    assert (QU : quiet []) by quiet_tac. split; cbn [disk].
    + apply (inv_quiet_disk W tr [] (disk s) (disk s) 0); auto.
    + apply (int_quiet tr [] s); auto. apply up_set. exact PS.
    + intros q X. injection X as <-. apply (frame W tr [] (disk s) (disk s) p i JFail (claimed p) 0); auto; cbn; try tauto; try discriminate.
      * rewrite PH. discriminate.
      * rewrite PH. exact I.
  - (* new *)
    rename H into PS. pose proof (IP _ PS) as PI. assert (LT : i < length (config p)) by (apply nth_error_Some; congruence).
    pose proof (new_starting _ _ _ _ PI LT H1) as PH. destruct H3 as (FR1 & FR2).
    assert (QU : quiet [Pulled i u r]) by quiet_tac.
    assert (RN : refs p d = None).
    { destruct (refs p d) as [q|] eqn:E; [|reflexivity]. destruct (q_refs _ _ _ _ PI PH d q E) as (x & X & _). congruence. }
    split; cbn [disk].
    + apply (inv_quiet_disk W tr _ (disk s) _ d); auto.
      * intros e NE. apply set_other. exact NE.
      * intros x u' r' E R. rewrite set_same in E. injection E as <-. discriminate.
    + apply (int_quiet tr _ s); auto. apply up_set. exact PS.
    + intros q X. injection X as <-. apply (frame W tr _ (disk s) _ p i (JBuild d r ops) (claimed p) d); auto; cbn [apart fits]; try exact I; try discriminate; try (intros ? ? ? []; fail); try (intros ? []; fail).
      * intros e NE. apply set_other. exact NE.
      * right. rewrite set_same. split; [intros; apply FR2|]. split; [auto|discriminate].
      * intros e X. congruence.
      * intros d0 r0 ops0 (-> & -> & ->). split; [|intros; apply FR2]. exists u, o, empty_dir. rewrite set_same. repeat split; auto. apply staged_start. exact H4.
      * intros d0 -> k r0 ops0 NE B. apply (FR2 k). apply (builds_mention _ _ _ _ B).
      * rewrite PH. exact I.
      * intros _ d0 r0 ops0 X. congruence.
  - (* reuse *)
    rename H into PS. pose proof (IP _ PS) as PI. assert (LT : i < length (config p)) by (apply nth_error_Some; congruence).
    pose proof (new_starting _ _ _ _ PI LT H1) as PH.
    assert (QU : quiet [Pulled i u r; Reused i d]) by quiet_tac.
    split; cbn [disk].
    + apply (inv_quiet_disk W tr _ (disk s) _ d); auto.
    + apply (int_quiet tr _ s); auto. apply up_claim. exact PS.
    + intros q X. injection X as <-. unfold set_claimed. apply (frame W tr _ (disk s) _ p i (JLive d r) (set (claimed p) d true) d); auto; cbn [apart fits]; try exact I; try discriminate; try (intros ? ? ? []; fail); try (intros ? []; fail).
      * intros e. scase e d; [intros _; right; split; congruence|auto].
      * intros e. scase e d; auto.
      * intros e X. congruence.
      * intros d0 -> k r0 ops0 NE. apply (not_built _ _ _ _ PI); auto. congruence.
      * rewrite PH. exact I.
      * intros _ d0 r0 X. injection X as <- <-. rewrite set_same. split; [auto|congruence].
  - (* reuse_bad *)
    rename H into PS. pose proof (IP _ PS) as PI. assert (LT : i < length (config p)) by (apply nth_error_Some; congruence).
    pose proof (new_starting _ _ _ _ PI LT H1) as PH.
    assert (QU : quiet [Pulled i u r; Failed d]) by quiet_tac.
    split; cbn [disk].
    + apply (inv_quiet_disk W tr _ (disk s) _ d); auto.
    + apply (int_quiet tr _ s); auto. apply up_claim. exact PS.
    + intros q X. injection X as <-. unfold set_claimed. apply (frame W tr _ (disk s) _ p i JFail (set (claimed p) d true) d); auto; cbn [apart fits]; try exact I; try discriminate; try (intros ? ? ? []; fail); try (intros ? []; fail).
      * intros e. scase e d; [intros _; right; split; congruence|auto].
      * intros e. scase e d; auto.
      * intros e X. congruence.
      * rewrite PH. exact I.
  - (* reuse_fatal *)
    split; cbn [disk proc]; [| |discriminate].
    + intros e y u' r' E R. assert (QU : quiet [Pulled i u r; Crash]) by quiet_tac. rewrite (quiet_hurt _ _ _ QU).
      destruct (ID e y u' r' E R) as [X|(o' & X & Y)]; [left; exact X|right; exists o'; split; [apply configured_app; exact X|exact Y]].
    + intros _ e X. exists (tr ++ [Pulled i u r]), []. split; [rewrite <- app_assoc; reflexivity|]. rewrite quiet_hurt by quiet_tac.
      rewrite quiet_hurt in X by quiet_tac. exact X.
  - (* rebuild *)
    exfalso. pose proof (IP _ H) as PI. assert (LT : i < length (config p)) by (apply nth_error_Some; congruence).
    pose proof (new_starting _ _ _ _ PI LT H1) as PH. destruct (q_refs _ _ _ _ PI PH d _ H2) as (x & X & _). congruence.
  - (* write *)
    rename H into PS. pose proof (IP _ PS) as PI. assert (B : builds_at (jobs p i) d r (w :: ops)) by (rewrite H0; cbn; auto).
    pose proof (build_starting _ _ _ _ _ _ _ PI H0) as PH. pose proof (job_in _ _ _ i PI ltac:(rewrite H0; discriminate)) as LT.
    destruct (q_build _ _ _ _ PI i d r _ B) as ((u & o & y & A1 & A2 & A3) & M). rewrite A2 in H1. injection H1 as ->.
    apply staged_next in A3. assert (QU : quiet []) by quiet_tac. split; cbn [disk].
    + apply (inv_quiet_disk W tr _ (disk s) _ d); auto.
      * intros e NE. apply set_other. exact NE.
      * intros x0 u' r' E R. rewrite set_same in E. injection E as <-. destruct (staged_read _ _ _ _ _ _ _ A3 R) as (E & C). injection E as -> ->.
        right. exists o. split; [|exact C]. destruct (q_cfg _ _ _ _ PI) as (f & F). exists (config p), f. split; [exact F|]. apply (nth_error_In _ _ A1).
    + apply (int_quiet tr _ s); auto. apply up_set. exact PS.
    + intros q X. injection X as <-. apply (frame W tr _ (disk s) _ p i (JBuild d r ops) (claimed p) d); auto; cbn [apart fits]; try exact I; try discriminate; try (intros ? ? ? []; fail); try (intros ? []; fail).
      * intros e NE. apply set_other. exact NE.
      * right. rewrite set_same. split; [exact M|]. split; [intros _; apply (q_new _ _ _ _ PI PH _ _ _ _ H0)|discriminate].
      * intros e X. congruence.
      * intros d0 r0 ops0 (-> & -> & ->). split; [|exact M]. exists u, o, (apply x w). rewrite set_same. auto.
      * intros d0 -> k r0 ops0 NE. apply (nobody _ _ _ i _ PI); [rewrite H0; reflexivity|exact NE].
      * rewrite PH. exact I.
      * intros _ d0 r0 ops0 X. injection X as <- <- <-. apply (q_new _ _ _ _ PI PH _ _ _ _ H0).
  - (* build_fail *)
    rename H into PS. pose proof (IP _ PS) as PI. pose proof (build_starting _ _ _ _ _ _ _ PI H0) as PH. pose proof (job_in _ _ _ i PI ltac:(rewrite H0; discriminate)) as LT.
    assert (QU : quiet [Failed d]) by quiet_tac. split; cbn [disk].
    + apply (inv_quiet_disk W tr _ (disk s) _ d); auto.
    + apply (int_quiet tr _ s); auto. apply up_set. exact PS.
    + intros q X. injection X as <-. apply (frame W tr _ (disk s) _ p i JFail (claimed p) d); auto; cbn [apart fits]; try exact I; try discriminate; try (intros ? ? ? []; fail); try (intros ? []; fail).
      * intros e X. congruence.
      * rewrite PH. exact I.
  - (* built *)
    rename H into PS. pose proof (IP _ PS) as PI. pose proof (build_starting _ _ _ _ _ _ _ PI H0) as PH. pose proof (job_in _ _ _ i PI ltac:(rewrite H0; discriminate)) as LT.
    assert (B : builds_at (jobs p i) d r []) by (rewrite H0; cbn; auto).
    destruct (q_build _ _ _ _ PI i d r _ B) as ((u & o & y & A1 & A2 & A3) & M).
    assert (QU : quiet [Live i d]) by quiet_tac. split; cbn [disk].
    + apply (inv_quiet_disk W tr _ (disk s) _ d); auto.
    + apply (int_quiet tr _ s); auto. apply up_set. exact PS.
    + intros q X. injection X as <-. apply (frame W tr _ (disk s) _ p i (JLive d r) (claimed p) d); auto; cbn [apart fits]; try exact I; try discriminate; try (intros ? ? ? []; fail); try (intros ? []; fail).
      * intros e X. congruence.
      * intros d0 -> k r0 ops0 NE. apply (nobody _ _ _ i _ PI); [rewrite H0; reflexivity|exact NE].
      * rewrite PH. exact I.
      * intros _ d0 r0 X. injection X as <- <-. split; [left; apply (q_new _ _ _ _ PI PH _ _ _ _ H0)|congruence].
  - (* clean *)
    rename H into PS. pose proof (IP _ PS) as PI. destruct PI as [Q1 Q2 Q3 Q4 Q5 Q6 Q7 Q8 Q9 Q10 Q11].
    rewrite app_nil_r. split; cbn [disk]; [exact ID|apply (not_up _ _ (Cleaning None)); [reflexivity|discriminate]|].
    intros q X. injection X as <-. split; cbn [set_phase config refs claimed at_phase jobs]; auto; try discriminate.
    + intros i. destruct (Nat.lt_ge_cases i (length (config p))) as [L|G].
      * destruct (H1 i L) as [->|(d & r & ->)]; exact I.
      * rewrite (Q2 i G). cbn. apply Nat.ltb_ge. exact G.
    + intros _. apply Q10. congruence.
    + intros _. apply Q11. congruence.
  - (* clean_begin *)
    rename H into PS. pose proof (IP _ PS) as PI. destruct PI as [Q1 Q2 Q3 Q4 Q5 Q6 Q7 Q8 Q9 Q10 Q11].
    assert (HM : forall e, hurt e tr = true -> hurt e (tr ++ [Removing d]) = true).
    { intros e X. rewrite hurt_app. cbn. rewrite X. destruct (Nat.eqb d e); reflexivity. }
    split; cbn [disk]; [|apply (not_up _ _ (Cleaning (Some d))); [reflexivity|discriminate]|].
    + intros e x u r E R. destruct (ID e x u r E R) as [X|(o & X & Y)]; [left; apply HM; exact X|right; exists o; split; [apply configured_app; exact X|exact Y]].
    + intros q X. injection X as <-. split; cbn [set_phase config refs claimed at_phase jobs]; auto; try discriminate.
      * destruct Q1 as (f & Q1). exists f. apply in_or_app. auto.
      * intros i e r old E. destruct (Q5 i e r old E); auto.
      * intros i. specialize (Q6 i). rewrite H0 in Q6. exact Q6.
      * intros e X. injection X as <-. split; [exact H1|]. split; [exact H2|]. rewrite hurt_app. cbn. rewrite Nat.eqb_refl. reflexivity.
      * intros _. apply Q10. congruence.
      * intros _. apply Q11. congruence.
  - (* clean_part *)
    rename H into PS. pose proof (IP _ PS) as PI. destruct (q_cur _ _ _ _ PI d H0) as (A1 & A2 & A3).
    assert (QU : quiet []) by quiet_tac. split; cbn [disk].
    + apply (inv_quiet_disk W tr _ (disk s) _ d); auto. intros e NE. apply set_other. exact NE.
    + apply (not_up _ _ (Cleaning (Some d))); [exact H0|discriminate].
    + intros q X. injection X as <-. apply frame_remove; auto.
      * left. split; [reflexivity|discriminate].
      * intros i r ops B. pose proof (q_fits _ _ _ _ PI i) as F. rewrite H0 in F. destruct (jobs p i); try contradiction.
  - (* clean_end *)
    rename H into PS. pose proof (IP _ PS) as PI. pose proof PI as [Q1 Q2 Q3 Q4 Q5 Q6 Q7 Q8 Q9 Q10 Q11]. destruct (Q9 d H0) as (A1 & A2 & A3).
    assert (HM : forall e, e <> d -> hurt e (tr ++ [Removed d]) = hurt e tr).
    { intros e X. rewrite hurt_app. cbn. destruct (Nat.eqb_spec d e); [congruence|reflexivity]. }
    split; cbn [disk]; [|apply (not_up _ _ (Cleaning None)); [reflexivity|discriminate]|].
    + intros e x u r E R. scase e d; [discriminate|]. rewrite HM by assumption.
      destruct (ID e x u r E R) as [X|(o & X & Y)]; [left; exact X|right; exists o; split; [apply configured_app; exact X|exact Y]].
    + intros q X. injection X as <-. split; cbn [set_phase config refs claimed at_phase jobs]; auto; try discriminate.
      * destruct Q1 as (f & Q1). exists f. apply in_or_app. auto.
      * intros i e r ops B. pose proof (Q6 i) as F. rewrite H0 in F. destruct (jobs p i); contradiction.
      * intros i e r old E. pose proof (Q6 i) as F. rewrite H0, E in F. destruct F.
      * intros i. specialize (Q6 i). rewrite H0 in Q6. exact Q6.
      * intros _ i e r E. destruct (Q10 ltac:(congruence) i e r E) as (B1 & B2). split; [exact B1|]. rewrite set_other; [exact B2|].
        intros ->. destruct B1; congruence.
      * intros _ e C. destruct (Q11 ltac:(congruence) e C) as (B1 & B2). split; [exact B1|]. rewrite set_other; [exact B2|]. congruence.
  - (* ready *)
    rename H into PS. pose proof (IP _ PS) as PI. pose proof PI as [Q1 Q2 Q3 Q4 Q5 Q6 Q7 Q8 Q9 Q10 Q11].
    assert (QU : quiet [Ready]) by quiet_tac.
    split; cbn [disk]; [|apply (not_up _ _ Serving); [reflexivity|discriminate]|].
    + apply (inv_quiet_disk W tr _ (disk s) _ 0); auto.
    + intros q X. injection X as <-. split; cbn [set_phase config refs claimed at_phase jobs]; auto; try discriminate; try congruence.
      * destruct Q1 as (f & Q1). exists f. apply in_or_app. auto.
      * intros i d r old E. rewrite (quiet_hurt _ _ _ QU). apply (Q5 i d r old E).
      * intros i. specialize (Q6 i). rewrite H0 in Q6. destruct (jobs p i); cbn in *; tauto.
  - (* update *)
    rename H into PS. pose proof (IP _ PS) as PI. assert (LT : i < length (config p)) by (apply nth_error_Some; congruence).
    destruct H4 as (FR1 & FR2). rewrite app_nil_r. split; cbn [disk].
    + intros e x u' r0 E R. scase e d'; [injection E as <-; discriminate|]. apply (ID e x u' r0 E R).
    + apply (not_up _ _ Serving); [exact H0|discriminate].
    + intros q X. injection X as <-. rewrite <- (app_nil_r tr).
      apply (frame W tr [] (disk s) _ p i (JUpd d r d' r' ops) (claimed p) d'); auto; try (rewrite H0; try discriminate; try congruence); cbn [apart fits]; try discriminate; try exact I; try (intros ? ? ? []; fail); try (intros ? []; fail).
      * intros e NE. apply set_other. exact NE.
      * right. rewrite set_same. split; [intros; apply FR2|]. split; [congruence|discriminate].
      * intros d0 r0 ops0 (-> & -> & ->). split; [|intros; apply FR2]. exists u, o, empty_dir. rewrite set_same. split; [exact H1|]. split; [reflexivity|]. apply staged_start. exact H5.
      * intros d0 M k r0 ops0 NE B. destruct M as [->| ->].
        -- apply (nobody _ _ _ i d PI ltac:(rewrite H2; reflexivity) k r0 ops0 NE B).
        -- apply (FR2 k). apply (builds_mention _ _ _ _ B).
      * intros X. apply (FR2 i). rewrite H2. cbn. congruence.
  - (* update_write *)
    rename H into PS. pose proof (IP _ PS) as PI. assert (B : builds_at (jobs p i) d' r' (w :: ops)) by (rewrite H0; cbn; auto).
    pose proof (upd_serving _ _ _ _ _ _ _ _ _ PI H0) as PH. pose proof (job_in _ _ _ i PI ltac:(rewrite H0; discriminate)) as LT.
    destruct (q_build _ _ _ _ PI i d' r' _ B) as ((u & o & y & A1 & A2 & A3) & M). rewrite A2 in H1. injection H1 as ->.
    apply staged_next in A3. assert (QU : quiet []) by quiet_tac. split; cbn [disk].
    + apply (inv_quiet_disk W tr _ (disk s) _ d'); auto.
      * intros e NE. apply set_other. exact NE.
      * intros x0 u' r0 E R. rewrite set_same in E. injection E as <-. destruct (staged_read _ _ _ _ _ _ _ A3 R) as (E & C). injection E as -> ->.
        right. exists o. split; [|exact C]. destruct (q_cfg _ _ _ _ PI) as (f & F). exists (config p), f. split; [exact F|]. apply (nth_error_In _ _ A1).
    + apply (not_up _ _ Serving); [exact PH|discriminate].
    + intros q X. injection X as <-.
      apply (frame W tr [] (disk s) _ p i (JUpd d r d' r' ops) (claimed p) d'); auto; try (rewrite PH; try discriminate; try congruence); cbn [apart fits]; try discriminate; try exact I; try (intros ? ? ? []; fail); try (intros ? []; fail).
      * intros e NE. apply set_other. exact NE.
      * right. rewrite set_same. split; [exact M|]. split; [congruence|discriminate].
      * intros d0 r0 ops0 (-> & -> & ->). split; [|exact M]. exists u, o, (apply x w). rewrite set_same. auto.
      * intros d0 MM k r0 ops0 NE. apply (nobody _ _ _ i d0 PI); [rewrite H0; exact MM|exact NE].
      * pose proof (q_ne _ _ _ _ PI i) as X. rewrite H0 in X. exact X.
  - (* update_fail *)
    rename H into PS. pose proof (IP _ PS) as PI.
    pose proof (upd_serving _ _ _ _ _ _ _ _ _ PI H0) as PH. pose proof (job_in _ _ _ i PI ltac:(rewrite H0; discriminate)) as LT.
    assert (QU : quiet [Failed d']) by quiet_tac. split; cbn [disk].
    + apply (inv_quiet_disk W tr _ (disk s) _ d'); auto.
    + apply (not_up _ _ Serving); [exact PH|discriminate].
    + intros q X. injection X as <-.
      apply (frame W tr [Failed d'] (disk s) _ p i (JLive d r) (claimed p) d'); auto; try (rewrite PH; try discriminate; try congruence); cbn [apart fits]; try discriminate; try exact I; try (intros ? ? ? []; fail); try (intros ? []; fail).
      * intros d0 MM k r0 ops0 NE. apply (nobody _ _ _ i d0 PI); [rewrite H0; left; exact MM|exact NE].
  - (* swap *)
    rename H into PS. pose proof (IP _ PS) as PI. pose proof (upd_serving _ _ _ _ _ _ _ _ _ PI H0) as PH.
    pose proof (job_in _ _ _ i PI ltac:(rewrite H0; discriminate)) as LT. pose proof PI as [Q1 Q2 Q3 Q4 Q5 Q6 Q7 Q8 Q9 Q10 Q11].
    assert (HM : forall e, hurt e tr = true -> hurt e (tr ++ [Live i d'; Removing d]) = true).
    { intros e X. rewrite hurt_app. cbn. rewrite X. destruct (Nat.eqb d e); reflexivity. }
    assert (HD : hurt d (tr ++ [Live i d'; Removing d]) = true) by (rewrite hurt_app; cbn; rewrite Nat.eqb_refl; reflexivity).
    split; cbn [disk]; [|apply (not_up _ _ Serving); [exact PH|discriminate]|].
    + intros e x u r0 E R. destruct (ID e x u r0 E R) as [X|(o & X & Y)]; [left; apply HM; exact X|right; exists o; split; [apply configured_app; exact X|exact Y]].
    + intros q X. injection X as <-. split; cbn [set_job config refs claimed at_phase jobs]; auto; try (intros; congruence).
      * destruct Q1 as (f & Q1). exists f. apply in_or_app. auto.
      * intros k L. scase k i; [lia|auto].
      * intros k e r0 ops B. destruct (Nat.eq_dec k i) as [->|NE]; [rewrite set_same in B; destruct B|rewrite set_other in B by exact NE].
        destruct (Q3 k e r0 ops B) as (A & M). split; [exact A|]. intros j J. destruct (Nat.eq_dec j i) as [->|NE']; [rewrite set_same|rewrite set_other by exact NE'; apply M; exact J].
        intros MM. apply (M i J). rewrite H0. cbn in *. tauto.
      * intros k. destruct (Nat.eq_dec k i) as [->|NE]; [rewrite set_same|rewrite set_other by exact NE; apply Q4].
        specialize (Q4 i). rewrite H0 in Q4. cbn in *. congruence.
      * intros k e r0 old E. destruct (Nat.eq_dec k i) as [->|NE]; [rewrite set_same in E|rewrite set_other in E by exact NE].
        -- injection E as <- <- <-. auto.
        -- destruct (Q5 k e r0 old E); auto.
      * intros k. rewrite PH. destruct (Nat.eq_dec k i) as [->|NE]; [rewrite set_same; exact I|rewrite set_other by exact NE; rewrite <- PH; apply Q6].
  - (* old_part *)
    rename H into PS. pose proof (IP _ PS) as PI. pose proof (old_serving _ _ _ _ _ _ _ PI H0) as PH.
    assert (HU : hurt old tr = true) by (destruct (q_old _ _ _ _ PI i d r old H0); [assumption|congruence]).
    assert (QU : quiet []) by quiet_tac. split; cbn [disk].
    + apply (inv_quiet_disk W tr _ (disk s) _ old); auto. intros e NE. apply set_other. exact NE.
    + apply (not_up _ _ Serving); [exact PH|discriminate].
    + intros q X. injection X as <-. apply frame_remove; auto.
      * left. split; [reflexivity|discriminate].
      * intros k r0 ops B. destruct (Nat.eq_dec k i) as [->|NE]; [rewrite H0 in B; destruct B|].
        apply (nobody _ _ _ i old PI ltac:(rewrite H0; cbn; auto) k r0 ops NE B).
      * congruence.
  - (* old_end *)
    rename H into PS. pose proof (IP _ PS) as PI. pose proof (old_serving _ _ _ _ _ _ _ PI H0) as PH. pose proof (job_in _ _ _ i PI ltac:(rewrite H0; discriminate)) as LT.
    assert (NB : forall k r0 ops, ~ builds_at (jobs p k) old r0 ops).
    { intros k r0 ops B. destruct (Nat.eq_dec k i) as [->|NE]; [rewrite H0 in B; destruct B|].
      apply (nobody _ _ _ i old PI ltac:(rewrite H0; cbn; auto) k r0 ops NE B). }
    assert (HM : forall e, e <> old -> hurt e (tr ++ [Removed old]) = hurt e tr).
    { intros e X. rewrite hurt_app. cbn. destruct (Nat.eqb_spec old e); [congruence|reflexivity]. }
    split; cbn [disk]; [|apply (not_up _ _ Serving); [exact PH|discriminate]|].
    + intros e x u r0 E R. scase e old; [discriminate|]. rewrite HM by assumption.
      destruct (ID e x u r0 E R) as [X|(o & X & Y)]; [left; exact X|right; exists o; split; [apply configured_app; exact X|exact Y]].
    + intros q X. injection X as <-.
      assert (PR : pinv W (tr ++ [Removed old]) (set (disk s) old None) p).
      { apply frame_remove; auto; congruence. }
      rewrite <- (app_nil_r (tr ++ [Removed old])).
      apply (frame W _ [] (set (disk s) old None) _ p i (JLive d r) (claimed p) 0 PR); auto; try (rewrite PH; try discriminate; try congruence); cbn [apart fits]; try discriminate; try exact I; try (intros ? ? ? []; fail); try (intros ? []; fail).
      * intros d0 MM k r0 ops0 NE. apply (nobody _ _ _ i d0 PI); [rewrite H0; left; exact MM|exact NE].
  - (* crash *)
    assert (QU : quiet [Crash]) by quiet_tac. split; cbn [disk proc]; [| |discriminate].
    + apply (inv_quiet_disk W tr _ (disk s) _ 0); auto.
    + intros _ e X. exists tr, []. split; [reflexivity|]. rewrite (quiet_hurt _ _ _ QU) in X. exact X.
Qed.

Lemma runs_inv : forall tr s, runs W tr s -> inv W tr s.
Proof.
  intros tr s R. induction R.
  - split; cbn; try discriminate.
  - apply (inv_step tr s es s'); assumption.
Qed.
End Step.
