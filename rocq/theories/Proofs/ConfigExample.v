(** A codec that meets [codec_ok] (not JSON, but with its properties), to show that the
    hypotheses of C40 and C42 can be met, and a configuration to run it on. *)
From Verif Require Import Model.Base Model.Config Spec.ConfigSpec Proofs.StrLemmas Proofs.ConfigProofs Proofs.ConfigSecrets.
Local Open Scope N_scope.

Definition enc_str (s : str) : bytes := nlen s :: s.
Fixpoint enc (j : json) : bytes :=
  match j with
  | JNull => [0]
  | JBool b => [1; if b then 1 else 0]
  | JNum n => [2; n]
  | JStr s => 3 :: enc_str s
  | JArr l => 4 :: nlen l :: concat (map enc l)
  | JObj l => 5 :: nlen l :: concat (map (fun e => enc_str (fst e) ++ enc (snd e)) l)
  end.

Definition dec_str (b : bytes) : option (str * bytes) :=
  match b with
  | [] => None
  | n :: r => Some (firstn (N.to_nat n) r, skipn (N.to_nat n) r)
  end.
Fixpoint repeat_dec {A} (d : bytes -> option (A * bytes)) (n : nat) (b : bytes) : option (list A * bytes) :=
  match n with
  | O => Some ([], b)
  | S n => '(x, b) <- d b ;; '(l, b) <- repeat_dec d n b ;; Some (x :: l, b)
  end.
Fixpoint dec (fuel : nat) (b : bytes) : option (json * bytes) :=
  match fuel with
  | O => None
  | S fuel =>
      match b with
      | 0 :: r => Some (JNull, r)
      | 1 :: x :: r => Some (JBool (x =? 1), r)
      | 2 :: n :: r => Some (JNum n, r)
      | 3 :: r => '(s, r) <- dec_str r ;; Some (JStr s, r)
      | 4 :: n :: r => '(l, r) <- repeat_dec (dec fuel) (N.to_nat n) r ;; Some (JArr l, r)
      | 5 :: n :: r =>
          '(l, r) <- repeat_dec (fun b => '(k, b) <- dec_str b ;; '(v, b) <- dec fuel b ;; Some ((k, v), b))
                       (N.to_nat n) r ;; Some (JObj l, r)
      | _ => None
      end
  end.

Fixpoint height (j : json) : nat :=
  match j with
  | JArr l => S (fold_right (fun j n => Nat.max (height j) n) O l)
  | JObj l => S (fold_right (fun e n => Nat.max (height (snd e)) n) O l)
  | _ => O
  end.

Lemma dec_str_enc : forall s r, dec_str (enc_str s ++ r) = Some (s, r).
Proof.
  intros s r. unfold enc_str, nlen. cbn [dec_str app]. rewrite Nnat.Nat2N.id.
  rewrite firstn_app, Nat.sub_diag, firstn_O, app_nil_r, firstn_all, skipn_app, Nat.sub_diag, skipn_O, skipn_all.
  reflexivity.
Qed.

Lemma dec_enc : forall fuel j r, (height j < fuel)%nat -> dec fuel (enc j ++ r) = Some (j, r).
Proof.
  induction fuel as [|fuel IH]; intros j r H; [lia|]. destruct j as [|b|n|s|l|l]; cbn [enc app dec].
  - reflexivity.
  - destruct b; reflexivity.
  - reflexivity.
  - rewrite dec_str_enc. reflexivity.
  - unfold nlen. rewrite Nnat.Nat2N.id. cbn [height] in H.
    assert (E : repeat_dec (dec fuel) (length l) (concat (map enc l) ++ r) = Some (l, r)).
    { assert (HL : (fold_right (fun j n => Nat.max (height j) n) O l < fuel)%nat) by lia. clear H.
      induction l as [|j l IL]; cbn [length repeat_dec map concat app]; [reflexivity|].
      cbn [fold_right] in HL. rewrite <- app_assoc, IH by lia. cbn [bind]. rewrite IL by lia. reflexivity. }
    rewrite E. reflexivity.
  - unfold nlen. rewrite Nnat.Nat2N.id. cbn [height] in H.
    match goal with |- bind (repeat_dec ?d _ _) _ = _ => set (de := d) end.
    assert (E : repeat_dec de (length l) (concat (map (fun e => enc_str (fst e) ++ enc (snd e)) l) ++ r) = Some (l, r)).
    { assert (HL : (fold_right (fun e n => Nat.max (height (snd e)) n) O l < fuel)%nat) by lia. clear H.
      induction l as [|[k j] l IL]; cbn [length repeat_dec map concat app]; [reflexivity|].
      cbn [fold_right fst snd] in *. unfold de at 1. rewrite <- !app_assoc, dec_str_enc. cbn [bind].
      rewrite IH by lia. cbn [bind]. rewrite IL by lia. reflexivity. }
    rewrite E. reflexivity.
Qed.

Lemma height_enc : forall fuel j, (length (enc j) <= fuel)%nat -> (height j < length (enc j))%nat.
Proof.
  induction fuel as [|fuel IH]; intros j H; [destruct j; cbn in H; lia|].
  destruct j as [|b|n|s|l|l]; cbn [enc height length] in *; try lia.
  - assert (L : forall l, (length (concat (map enc l)) <= fuel)%nat ->
      (fold_right (fun j n => Nat.max (height j) n) O l <= length (concat (map enc l)))%nat).
    { clear l H. induction l as [|j l IL]; intros H; cbn [fold_right map concat length] in *; [lia|].
      rewrite app_length in *. specialize (IL ltac:(lia)). specialize (IH j ltac:(lia)). lia. }
    specialize (L l ltac:(lia)). lia.
  - assert (L : forall l, (length (concat (map (fun e => enc_str (fst e) ++ enc (snd e)) l)) <= fuel)%nat ->
      (fold_right (fun e n => Nat.max (height (snd e)) n) O l <= length (concat (map (fun e => enc_str (fst e) ++ enc (snd e)) l)))%nat).
    { clear l H. induction l as [|[k j] l IL]; intros H; cbn [fold_right map concat length fst snd] in *; [lia|].
      rewrite !app_length in *. specialize (IL ltac:(lia)). specialize (IH j ltac:(lia)). lia. }
    specialize (L l ltac:(lia)). lia.
Qed.

Fixpoint nodup_keys (l : list str) : bool :=
  match l with [] => true | k :: r => negb (existsb (str_eqb k) r) && nodup_keys r end.
Definition ex_un (b : bytes) : option (option (list (str * json))) :=
  match dec (S (length b)) b with
  | Some (JNull, []) => Some None
  | Some (JObj l, []) => if nodup_keys (keys l) then Some (Some l) else None
  | _ => None
  end.
Definition ex_ma (m : option (list (str * json))) : bytes :=
  match m with None => enc JNull | Some m => enc (JObj (by_key m)) end.

Lemma nodup_keys_iff : forall l, nodup_keys l = true <-> NoDup l.
Proof.
  induction l as [|k l IH]; cbn [nodup_keys]; [split; [constructor|reflexivity]|].
  rewrite NoDup_cons_iff, andb_true_iff, negb_true_iff, IH.
  assert (E : existsb (str_eqb k) l = false <-> ~ In k l).
  { rewrite <- not_true_iff_false. apply not_iff_compat. rewrite existsb_exists. split.
    - intros (x & I & E). apply str_eqb_eq in E. congruence.
    - intros I. exists k. split; [exact I|apply str_eqb_refl]. }
  rewrite E. reflexivity.
Qed.

Lemma insert_key_get : forall {A} k (v : A) l x, ~ In k (keys l) ->
  get (insert_key k v l) x = if str_eqb x k then Some v else get l x.
Proof.
  intros A k v. induction l as [|[k' v'] l IH]; intros x NI; cbn [insert_key]; [reflexivity|].
  cbn [keys map fst In] in NI. destruct (str_ltb k' k); cbn [get]; [|reflexivity].
  rewrite IH by tauto. destruct (str_eqb x k') eqn:E1, (str_eqb x k) eqn:E2; try reflexivity.
  apply str_eqb_eq in E1, E2. subst. exfalso. apply NI. left. reflexivity.
Qed.

Lemma insert_key_in : forall {A} k (v : A) l x, In x (keys (insert_key k v l)) <-> x = k \/ In x (keys l).
Proof.
  intros A k v. induction l as [|[k' v'] l IH]; intros x; cbn [insert_key]; [cbn; intuition|].
  destruct (str_ltb k' k); cbn [keys map fst In]; [|intuition]. unfold keys in IH. rewrite IH. intuition.
Qed.

Fixpoint ksorted {A} (l : list (str * A)) : Prop :=
  match l with [] => True | (k, _) :: r => (forall x, In x (keys r) -> str_ltb k x = true) /\ ksorted r end.

Lemma insert_sorted : forall {A} k (v : A) l, ~ In k (keys l) -> ksorted l -> ksorted (insert_key k v l).
Proof.
  intros A k v. induction l as [|[k' v'] l IH]; intros NI S; cbn [insert_key ksorted]; [split; [intros ? []|exact I]|].
  cbn [keys map fst In] in NI. destruct S as [S1 S2]. destruct (str_ltb k' k) eqn:E; cbn [ksorted].
  - split; [|apply IH; tauto]. intros x H. apply insert_key_in in H. destruct H as [->|H]; auto.
  - assert (L : str_ltb k k' = true).
    { destruct (str_ltb k k') eqn:E2; [reflexivity|]. exfalso. apply NI. left. symmetry.
      apply str_ltb_total; assumption. }
    split; [|split; assumption]. cbn [keys map fst In]. intros x [<-|H]; [exact L|].
    eapply str_ltb_trans; [exact L|apply S1; exact H].
Qed.

Lemma by_key_in : forall {A} (l : list (str * A)) x, In x (keys (by_key l)) <-> In x (keys l).
Proof.
  induction l as [|[k v] l IH]; intros x; cbn [by_key]; [reflexivity|].
  rewrite insert_key_in, IH. cbn. intuition.
Qed.

Lemma by_key_ok : forall {A} (l : list (str * A)), NoDup (keys l) ->
  ksorted (by_key l) /\ forall x, get (by_key l) x = get l x.
Proof.
  induction l as [|[k v] l IH]; intros N; cbn [by_key]; [split; [exact I|reflexivity]|].
  apply NoDup_cons_iff in N. destruct N as [NI N]. destruct (IH N) as [S G]. cbn [fst] in NI.
  assert (NI' : ~ In k (keys (by_key l))) by (rewrite by_key_in; exact NI). split.
  - apply insert_sorted; assumption.
  - intros x. rewrite insert_key_get by exact NI'. cbn [get]. rewrite G. reflexivity.
Qed.

Lemma ksorted_nodup : forall {A} (l : list (str * A)), ksorted l -> NoDup (keys l).
Proof.
  induction l as [|[k v] l IH]; intros S; cbn [keys map fst]; constructor.
  - intros I. pose proof (proj1 S k I) as H. rewrite str_ltb_irrefl in H. discriminate.
  - apply IH. apply S.
Qed.

Lemma ksorted_eq : forall {A} (l l' : list (str * A)), ksorted l -> ksorted l' ->
  (forall x, get l x = get l' x) -> l = l'.
Proof.
  induction l as [|[k v] l IH]; intros [|[k' v'] l'] S S' G.
  - reflexivity.
  - specialize (G k'). cbn [get] in G. rewrite str_eqb_refl in G. discriminate.
  - specialize (G k). cbn [get] in G. rewrite str_eqb_refl in G. discriminate.
  - assert (K : k = k').
    { pose proof (G k) as G1. pose proof (G k') as G2. cbn [get] in G1, G2. rewrite str_eqb_refl in G1, G2.
      destruct (str_eqb k k') eqn:E; [apply str_eqb_eq; exact E|].
      destruct (str_eqb k' k) eqn:E'; [symmetry; apply str_eqb_eq; exact E'|].
      assert (I1 : In k (keys l')). { destruct (in_dec (list_eq_dec N.eq_dec) k (keys l')) as [i|i]; [exact i|]. apply get_none in i. congruence. }
      assert (I2 : In k' (keys l)). { destruct (in_dec (list_eq_dec N.eq_dec) k' (keys l)) as [i|i]; [exact i|]. apply get_none in i. congruence. }
      pose proof (proj1 S k' I2) as L1. pose proof (proj1 S' k I1) as L2.
      apply str_ltb_asym in L1. congruence. }
    subst k'. pose proof (G k) as G1. cbn [get] in G1. rewrite str_eqb_refl in G1. injection G1 as ->. f_equal.
    apply IH; [apply S|apply S'|]. intros x. specialize (G x). cbn [get] in G.
    destruct (str_eqb x k) eqn:E; [|exact G]. apply str_eqb_eq in E. subst x.
    assert (N1 : get l k = None).
    { apply get_none. intros I. pose proof (proj1 S k I) as H. rewrite str_ltb_irrefl in H. discriminate. }
    assert (N2 : get l' k = None).
    { apply get_none. intros I. pose proof (proj1 S' k I) as H. rewrite str_ltb_irrefl in H. discriminate. }
    congruence.
Qed.

Lemma ex_codec : codec_ok ex_un ex_ma.
Proof.
  constructor.
  - intros m N _. destruct (by_key_ok m N) as [S G]. exists (by_key m). split; [|exact G].
    unfold ex_un, ex_ma. pose proof (height_enc _ (JObj (by_key m)) (le_n _)) as H.
    pose proof (dec_enc (Datatypes.S (length (enc (JObj (by_key m))))) (JObj (by_key m)) [] ltac:(lia)) as E.
    rewrite app_nil_r in E. rewrite E. rewrite (proj2 (nodup_keys_iff _)); [reflexivity|].
    apply ksorted_nodup. exact S.
  - intros b m H. unfold ex_un in H. destruct (dec (S (length b)) b) as [[[| | | | |l] [|]]|]; try discriminate.
    destruct (nodup_keys (keys l)) eqn:E; [|discriminate]. injection H as <-. apply nodup_keys_iff. exact E.
  - intros m m' N N' _ _ G. unfold ex_ma. do 2 f_equal. destruct (by_key_ok m N) as [S1 G1]. destruct (by_key_ok m' N') as [S2 G2].
    apply ksorted_eq; [exact S1|exact S2|]. intros x. rewrite G1, G2. apply G.
  - reflexivity.
  - intros [m|]; discriminate.
  - reflexivity.
Qed.

(** Two repositories; the first sets "a" itself, global git settings give "a" and "b". *)
Definition ex_global : bytes := enc (JObj [([97], JStr [1]); ([98], JStr [2])]).
Definition ex_own : bytes := enc (JObj [([97], JStr [9])]).
Definition ex_repo (vcs : str) (conf : option bytes) : repo :=
  mkRepo [117] [] 0 vcs conf None false None (Some true) None.
Definition ex_config : config :=
  mkConfig [47; 100] [] [([120], Some (ex_repo [] (Some ex_own))); ([121], Some (ex_repo [104; 103] None))]
    0 [] [(defaultVcs, Some ex_global)] 77.
