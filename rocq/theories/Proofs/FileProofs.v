(** What is read from a configuration file. *)
From Verif Require Import Model.Base Model.GoStr Model.JsonText Model.Json Model.Config Model.Wire Model.ConfigFile
  Spec.Names Spec.ApiSpec Spec.JsonValueSpec Spec.JsonGrammar Spec.ClientConfSpec Spec.FileSpec
  Proofs.StrLemmas Proofs.GoStrProofs Proofs.ConfigProofs Proofs.ClientConfProofs Proofs.GrammarProofs Proofs.GrammarSound Proofs.OfferProofs Proofs.SpansProofs.
Local Open Scope N_scope.

Lemma same_any : forall k n, to_lower n = n -> Forall (fun c => ~ upper_case c) n -> (same_name k n = true <-> any_case k n).
Proof. intros k n E U. unfold same_name. rewrite E, str_eqb_eq. apply lower_name. exact U. Qed.
Lemma same_not : forall k n, to_lower n = n -> Forall (fun c => ~ upper_case c) n -> (same_name k n = false <-> ~ any_case k n).
Proof. intros k n E U. rewrite <- (same_any k n E U). destruct (same_name k n); split; congruence. Qed.
Lemma same_other : forall k a b, same_name k a = true -> str_eqb (to_lower a) (to_lower b) = false -> same_name k b = false.
Proof.
  intros k a b S D. unfold same_name in *. apply str_eqb_eq in S. rewrite S. exact D.
Qed.

(** One field of a structure. *)
Section Field.
  Context {V R A : Type}.
  Variable value : V -> jv.
  Variable set : str -> V -> R -> option R.
  Variable f : R -> A.
  Variable dec : V -> A -> option A.
  Variable name : str.
  Hypothesis LOW : to_lower name = name.
  Hypothesis CAP : Forall (fun c => ~ upper_case c) name.
  Definition stores : Prop := forall k x r r', set k x r = Some r' ->
    (same_name k name = true -> dec x (f r) = Some (f r')) /\ (same_name k name = false -> f r' = f r).
  Hypothesis STEP : stores.

  Lemma unsaid_snoc : forall l k x, unsaid value name l -> (any_case k name -> value x = VNull) -> unsaid value name (l ++ [(k, x)]).
  Proof. intros l k x U P. apply Forall_app. split; [exact U|]. constructor; [exact P|constructor]. Qed.
  Lemma unnamed_snoc : forall l k (x : V), unnamed name l -> ~ any_case k name -> unnamed name (l ++ [(k, x)]).
  Proof. intros l k x U P. apply Forall_app. split; [exact U|]. constructor; [exact P|constructor]. Qed.

  Lemma field_scalar : forall (is : jv -> A -> Prop) zero,
    (forall x old new, dec x old = Some new -> (value x = VNull /\ new = old) \/ is (value x) new) ->
    forall l r r', dec_fields set l r = Some r' -> f r = zero -> scalar value is name zero l (f r').
  Proof.
    intros is zero D. induction l as [|[k x] l IH] using rev_ind; intros r r' E Z.
    - cbn [dec_fields] in E. left. split; [congruence|constructor].
    - rewrite dec_fields_app in E. destruct (dec_fields set l r) as [r1|] eqn:E1; [|discriminate]. cbn [bind dec_fields] in E.
      destruct (set k x r1) as [r2|] eqn:E2; [|discriminate]. cbn [bind] in E. assert (r2 = r') as -> by congruence. clear E.
      destruct (STEP _ _ _ _ E2) as [S1 S2]. specialize (IH _ _ E1 Z).
      assert (KEEP : f r' = f r1 -> (any_case k name -> value x = VNull) -> scalar value is name zero (l ++ [(k, x)]) (f r')).
      { intros -> P. destruct IH as [(-> & U)|(l1 & k1 & v1 & l2 & -> & A1 & I1 & U)].
        - left. split; [reflexivity|apply unsaid_snoc; assumption].
        - right. exists l1, k1, v1, (l2 ++ [(k, x)]). split; [rewrite <- app_assoc; reflexivity|]. split; [exact A1|]. split; [exact I1|]. apply unsaid_snoc; assumption. }
      destruct (same_name k name) eqn:SN.
      + specialize (S1 eq_refl). destruct (D _ _ _ S1) as [(VN & E)|I]; [apply KEEP; [exact E|intros _; exact VN]|].
        right. exists l, k, x, []. split; [reflexivity|]. split; [apply same_any; assumption|]. split; [exact I|constructor].
      + apply KEEP; [exact (S2 eq_refl)|]. intros Q. exfalso. apply (same_not k name LOW CAP) in SN. exact (SN Q).
  Qed.
  Lemma field_typed : forall (is : jv -> A -> Prop),
    (forall x old new, dec x old = Some new -> (value x = VNull /\ new = old) \/ is (value x) new) ->
    forall k x r r', set k x r = Some r' -> any_case k name -> value x = VNull \/ exists a, is (value x) a.
  Proof.
    intros is D k x r r' E Q. destruct (STEP _ _ _ _ E) as [S1 _]. apply (same_any k name LOW CAP) in Q.
    destruct (D _ _ _ (S1 Q)) as [(VN & _)|I]; [left; exact VN|right; eexists; exact I].
  Qed.
End Field.

Section Optional.
  Context {V R A : Type}.
  Variable value : V -> jv.
  Variable set : str -> V -> R -> option R.
  Variable f : R -> option A.
  Variable dec : V -> option A -> option (option A).
  Variable name : str.
  Hypothesis LOW : to_lower name = name.
  Hypothesis CAP : Forall (fun c => ~ upper_case c) name.
  Hypothesis STEP : stores set f dec name.
  Lemma field_optional : forall (is : V -> A -> Prop),
    (forall x old new, dec x old = Some new -> (value x = VNull /\ new = None) \/ (value x <> VNull /\ exists a, new = Some a /\ is x a)) ->
    forall l r r', dec_fields set l r = Some r' -> f r = None -> optional value is name l (f r').
  Proof.
    intros is D. induction l as [|[k x] l IH] using rev_ind; intros r r' E Z.
    - cbn [dec_fields] in E. left. split; [congruence|constructor].
    - rewrite dec_fields_app in E. destruct (dec_fields set l r) as [r1|] eqn:E1; [|discriminate]. cbn [bind dec_fields] in E.
      destruct (set k x r1) as [r2|] eqn:E2; [|discriminate]. cbn [bind] in E. assert (r2 = r') as -> by congruence. clear E.
      destruct (STEP _ _ _ _ E2) as [S1 S2]. specialize (IH _ _ E1 Z). destruct (same_name k name) eqn:SN.
      + right. exists l, k, x, []. split; [reflexivity|]. split; [apply same_any; assumption|]. split; [constructor|]. exact (D _ _ _ (S1 eq_refl)).
      + apply (same_not k name LOW CAP) in SN. rewrite (S2 eq_refl). destruct IH as [(-> & U)|(l1 & k1 & v1 & l2 & -> & A1 & U & I1)].
        * left. split; [reflexivity|apply unnamed_snoc; assumption].
        * right. exists l1, k1, v1, (l2 ++ [(k, x)]). split; [rewrite <- app_assoc; reflexivity|]. split; [exact A1|].
          split; [apply unnamed_snoc; assumption|exact I1].
  Qed.
  Lemma optional_typed : forall (is : jv -> A -> Prop),
    (forall x old new, dec x old = Some new -> (value x = VNull /\ new = None) \/ (value x <> VNull /\ exists a, new = Some a /\ is (value x) a)) ->
    forall k x r r', set k x r = Some r' -> any_case k name -> value x = VNull \/ exists a, is (value x) a.
  Proof.
    intros is D k x r r' E Q. destruct (STEP _ _ _ _ E) as [S1 _]. apply (same_any k name LOW CAP) in Q.
    destruct (D _ _ _ (S1 Q)) as [(VN & _)|(_ & a & _ & I)]; [left; exact VN|right; eexists; exact I].
  Qed.
End Optional.

(** Fields that are objects. *)
Section Objects.
  Variable quoted : str -> str -> Prop.
  Hypothesis READ : forall s lit rest, quoted s lit -> read_literal (lit ++ rest) = Some (s, rest).
  Context {R A : Type}.
  Variable set : str -> jv * str -> R -> option R.
  Variable f : R -> A.
  Variable dec : jv * str -> A -> option A.
  Variable name : str.
  Hypothesis LOW : to_lower name = name.
  Hypothesis CAP : Forall (fun c => ~ upper_case c) name.
  Hypothesis STEP : stores set f dec name.
  (** [holds g a]: the members gathered make [a]. *)
  Variable holds : option (list memb) -> A -> Prop.
  Hypothesis NULL : forall s old new, dec (VNull, s) old = Some new -> holds None new.
  Hypothesis OBJ : forall o s old new g, dec (VObj o, s) old = Some new -> holds g old -> text_of quoted (VObj o) s ->
    exists m, object_text quoted m s /\ holds (Some (match g with Some m => m | None => [] end ++ m)) new.
  Hypothesis REST : forall v s old new, dec (v, s) old = Some new -> v = VNull \/ exists o, v = VObj o.
  Lemma field_gathered : forall l r r', Forall (well quoted) l -> dec_fields set l r = Some r' -> holds None (f r) ->
    exists g, gathered quoted name l g /\ holds g (f r').
  Proof.
    induction l as [|[k [v s]] l IH] using rev_ind; intros r r' W E Z.
    - cbn [dec_fields] in E. exists None. split; [constructor|]. congruence.
    - rewrite dec_fields_app in E. destruct (dec_fields set l r) as [r1|] eqn:E1; [|discriminate]. cbn [bind dec_fields] in E.
      destruct (set k (v, s) r1) as [r2|] eqn:E2; [|discriminate]. cbn [bind] in E. assert (r2 = r') as -> by congruence. clear E.
      apply Forall_app in W. destruct W as [W1 W2]. apply Forall_inv in W2. unfold well in W2. cbn [fst snd] in W2.
      destruct (STEP _ _ _ _ E2) as [S1 S2]. destruct (IH _ _ W1 E1 Z) as (g & G & H). destruct (same_name k name) eqn:SN.
      + specialize (S1 eq_refl). apply (same_any k name LOW CAP) in SN. destruct (REST _ _ _ _ S1) as [->|(o & ->)].
        * exists None. split; [apply (ga_null _ _ l g); assumption|exact (NULL _ _ _ S1)].
        * destruct (OBJ _ _ _ _ _ S1 H W2) as (m & O & H'). eexists. split; [apply (ga_object _ _ l g); eassumption|exact H'].
      + apply (same_not k name LOW CAP) in SN. exists g. split; [apply ga_other; assumption|]. rewrite (S2 eq_refl). exact H.
  Qed.
End Objects.

(** Values. *)
Lemma text_dec : forall v old new, dec_str v old = Some new -> (v = VNull /\ new = old) \/ is_text v new.
Proof. intros [] old new E; try discriminate; cbn [dec_str] in E; [left|right; unfold is_text]; [split|]; congruence. Qed.
Lemma switch_dec : forall v old new, dec_bool v old = Some new -> (v = VNull /\ new = old) \/ is_switch v new.
Proof. intros [] old new E; try discriminate; cbn [dec_bool] in E; [left|right; unfold is_switch]; [split|]; congruence. Qed.
Lemma number_dec : forall v old new, dec_int v old = Some new -> (v = VNull /\ new = old) \/ is_number v new.
Proof.
  intros [] old new E; try discriminate; cbn [dec_int] in E; [left; split; congruence|right].
  apply (proj1 (parse_int_ok _ _)) in E. exists lit. split; [reflexivity|exact E].
Qed.
Lemma opt_switch_dec : forall v old new, dec_opt_bool v old = Some new ->
  (v = VNull /\ new = None) \/ (v <> VNull /\ exists a, new = Some a /\ is_switch v a).
Proof.
  intros [] old new E; try discriminate; cbn [dec_opt_bool] in E; [left; split; congruence|right]. split; [discriminate|].
  exists b. split; [congruence|reflexivity].
Qed.
Lemma list_dec : forall l x, dec_list (fun v => dec_str v []) l = Some x <-> Forall2 (fun v s => v = VStr s \/ (v = VNull /\ s = [])) l x.
Proof.
  induction l as [|v l IH]; intros x; split; intros E.
  - cbn [dec_list] in E. assert (x = []) as -> by congruence. constructor.
  - inversion E. reflexivity.
  - cbn [dec_list] in E. destruct (dec_str v []) as [s|] eqn:D; [|discriminate]. cbn [bind] in E.
    destruct (dec_list _ l) as [xs|] eqn:D2; [|discriminate]. cbn [bind] in E. assert (x = s :: xs) as -> by congruence.
    constructor; [|apply IH; reflexivity]. destruct (text_dec _ _ _ D) as [[-> ->]|I]; [right; auto|left; exact I].
  - inversion E as [|a s ? xs D F]; subst. cbn [dec_list]. rewrite (proj2 (IH xs) F). destruct D as [->|[-> ->]]; reflexivity.
Qed.
Lemma texts_dec : forall v old new, dec_strings v old = Some new ->
  (v = VNull /\ new = None) \/ (v <> VNull /\ exists a, new = Some a /\ is_texts v a).
Proof.
  intros [] old new E; try discriminate; cbn [dec_strings] in E; [left; split; congruence|right]. split; [discriminate|].
  destruct (dec_list _ l) as [x|] eqn:D; [|discriminate]. cbn [bind] in E. exists x. split; [congruence|]. exists l. split; [reflexivity|].
  apply list_dec. exact D.
Qed.
Lemma secret_dec : forall x (old new : option bytes), dec_secret x = Some new ->
  (fst x = VNull /\ new = None) \/ (fst x <> VNull /\ exists a, new = Some a /\ a = snd x).
Proof.
  intros [v s] old new E. unfold dec_secret in E. cbn [fst snd] in *.
  destruct v; [left; split; congruence|..]; right; (split; [discriminate|]); exists s; split; congruence.
Qed.

(** Which field a member goes to. *)
Ltac pick E S := repeat match type of E with
  | (if same_name ?k ?b then _ else _) = _ => first [rewrite S in E | rewrite (same_other k _ b S eq_refl) in E]; cbv iota in E end.
Ltac stored E := match type of E with bind ?d _ = _ => destruct d eqn:?; [|discriminate]; cbn [bind] in E end; injection E as <-.
Ltac field_step := let k := fresh "k" in let x := fresh "x" in let E := fresh "E" in let SN := fresh "SN" in
  intros k x [] r' E; cbv beta iota zeta delta [set_pattern set_repo set_config] in E; split; intros SN;
  [pick E SN; stored E; first [reflexivity|match goal with H : _ = Some _ |- _ => exact H end]
  |repeat match type of E with (if ?c then _ else _) = _ => first [rewrite SN in E; cbv iota in E|destruct c; [stored E; reflexivity|]] end; injection E as <-; reflexivity].

Lemma at_base : stores set_pattern up_base (fun x => dec_str (fst x)) k_base_url. Proof. field_step. Qed.
Lemma at_anchor : stores set_pattern up_anchor (fun x => dec_str (fst x)) k_anchor. Proof. field_step. Qed.

Lemma at_url : stores set_repo r_url (fun x => dec_str (fst x)) k_url. Proof. field_step. Qed.
Lemma at_display : stores set_repo r_display (fun x => dec_str (fst x)) k_display_name. Proof. field_step. Qed.
Lemma at_ms : stores set_repo r_ms (fun x => dec_int (fst x)) k_ms_between_poll. Proof. field_step. Qed.
Lemma at_vcs : stores set_repo r_vcs (fun x => dec_str (fst x)) k_vcs. Proof. field_step. Qed.
Lemma at_conf : stores set_repo r_vcsconf (fun x _ => dec_secret x) k_vcs_config. Proof. field_step. Qed.
Lemma at_pattern : stores set_repo r_pattern (dec_pointer set_pattern zero_pattern) k_url_pattern. Proof. field_step. Qed.
Lemma at_exdot : stores set_repo r_exdot (fun x => dec_bool (fst x)) k_exclude_dot_files. Proof. field_step. Qed.
Lemma at_poll : stores set_repo r_poll (fun x => dec_opt_bool (fst x)) k_enable_poll_updates. Proof. field_step. Qed.
Lemma at_push : stores set_repo r_push (fun x => dec_opt_bool (fst x)) k_enable_push_updates. Proof. field_step. Qed.
Lemma at_auto : stores set_repo r_auto (fun x => dec_strings (fst x)) k_auto_generated_files. Proof. field_step. Qed.

Definition dec_repo (x : jv * str) : option (option repo) := dec_pointer set_repo zero_repo x None.
Lemma at_dbpath : stores set_config c_dbpath (fun x => dec_str (fst x)) k_dbpath. Proof. field_step. Qed.
Lemma at_title : stores set_config c_title (fun x => dec_str (fst x)) k_title. Proof. field_step. Qed.
Lemma at_repos : stores set_config c_repos (dec_entries dec_repo) k_repos. Proof. unfold dec_repo. field_step. Qed.
Lemma at_maxidx : stores set_config c_maxidx (fun x => dec_int (fst x)) k_max_concurrent_indexers. Proof. field_step. Qed.
Lemma at_health : stores set_config c_health (fun x => dec_str (fst x)) k_health_check_uri. Proof. field_step. Qed.
Lemma at_confs : stores set_config c_vcs (dec_entries dec_secret) k_vcs_config. Proof. field_step. Qed.
Lemma at_limit : stores set_config c_limit (fun x => dec_int (fst x)) k_result_limit. Proof. field_step. Qed.

(** Maps. *)
Lemma put_fst : forall {A} (m : list (str * A)) k v n, In n (map fst (put m k v)) <-> In n (map fst m) \/ n = k.
Proof.
  intros A. induction m as [|[x w] m IH]; intros k v n; cbn [put map fst In]; [split; [intros [->|[]]; auto|intros [[]| ->]; auto]|].
  destruct (str_eqb k x) eqn:E; cbn [map fst In].
  - apply str_eqb_eq in E. subst x. split; [tauto|]. intros [H| ->]; auto.
  - rewrite IH. tauto.
Qed.
Lemma put_distinct : forall {A} (m : list (str * A)) k v, NoDup (map fst m) -> NoDup (map fst (put m k v)).
Proof.
  intros A. induction m as [|[x w] m IH]; intros k v N; cbn [put map fst]; [repeat constructor; intros []|].
  apply NoDup_cons_iff in N. destruct N as [NI N]. destruct (str_eqb k x) eqn:E; cbn [map fst]; constructor; try assumption; [|apply IH; exact N].
  rewrite put_fst. apply str_eqb_neq in E. intros [I| ->]; [exact (NI I)|congruence].
Qed.
Lemma map_entries : forall {V A} (f : V -> option A) o m, dec_map f o [] = Some m ->
  (forall n, In n (map fst m) <-> In n (map fst o)) /\ NoDup (map fst m) /\
  forall n a, In (n, a) m -> exists l1 x l2, o = l1 ++ (n, x) :: l2 /\ ~ In n (map fst l2) /\ f x = Some a.
Proof.
  intros V A f. induction o as [|[k x] o IH] using rev_ind; intros m D.
  - cbn [dec_map] in D. assert (m = []) as -> by congruence. split; [reflexivity|]. split; [constructor|]. intros n a [].
  - rewrite dec_map_app in D. destruct (dec_map f o []) as [m1|] eqn:D1; [|discriminate]. cbn [bind dec_map] in D.
    destruct (f x) as [y|] eqn:F; [|discriminate]. cbn [bind] in D. assert (m = put m1 k y) as -> by congruence. clear D.
    destruct (IH m1 eq_refl) as (K & N & P). split; [|split].
    + intros n. rewrite put_fst, map_app, in_app_iff, K. cbn [map fst In]. split; [intros [H| ->]; auto|intros [H|[->|[]]]; auto].
    + apply put_distinct. exact N.
    + intros n a I. apply in_get in I; [|apply put_distinct; exact N]. rewrite get_put in I. destruct (str_eqb n k) eqn:E.
      * apply str_eqb_eq in E. subst n. exists o, x, []. split; [reflexivity|]. split; [intros []|congruence].
      * apply str_eqb_neq in E. apply get_in in I. destruct (P _ _ I) as (l1 & x1 & l2 & -> & NI & F1).
        exists l1, x1, (l2 ++ [(k, x)]). split; [rewrite <- app_assoc; reflexivity|]. split; [|exact F1].
        rewrite map_app, in_app_iff. cbn [map fst In]. intros [H|[H|[]]]; [exact (NI H)|congruence].
Qed.
Lemma map_made : forall {V A} (f : V -> option A) o m, Forall (fun p => exists a, f (snd p) = Some a) o -> exists m', dec_map f o m = Some m'.
Proof.
  intros V A f. induction o as [|[k x] o IH]; intros m F; [eexists; reflexivity|]. cbn [dec_map].
  destruct (Forall_inv F) as (a & E). cbn [snd] in E. rewrite E. cbn [bind]. apply IH. exact (Forall_inv_tail F).
Qed.
Lemma map_made_inv : forall {V A} (f : V -> option A) o m m', dec_map f o m = Some m' -> Forall (fun p => exists a, f (snd p) = Some a) o.
Proof.
  intros V A f. induction o as [|[k x] o IH]; intros m m' D; [constructor|]. cbn [dec_map] in D.
  destruct (f x) as [a|] eqn:E; [|discriminate]. constructor; [exists a; exact E|eapply IH; exact D].
Qed.
Lemma fields_made : forall {V R} (set : str -> V -> R -> option R) (P : str * V -> Prop) l r,
  (forall k x r, P (k, x) -> exists r', set k x r = Some r') -> Forall P l -> exists r', dec_fields set l r = Some r'.
Proof.
  intros V R set P l r ST. revert r. induction l as [|[k x] l IH]; intros r F; [eexists; reflexivity|]. cbn [dec_fields].
  destruct (ST k x r (Forall_inv F)) as (r1 & ->). cbn [bind]. apply IH. exact (Forall_inv_tail F).
Qed.
Lemma fields_made_inv : forall {V R} (set : str -> V -> R -> option R) l r r', dec_fields set l r = Some r' ->
  Forall (fun p => exists a b, set (fst p) (snd p) a = Some b) l.
Proof.
  intros V R set. induction l as [|[k x] l IH]; intros r r' D; [constructor|]. cbn [dec_fields] in D.
  destruct (set k x r) as [r1|] eqn:E; [|discriminate]. constructor; [exists r, r1; exact E|eapply IH; exact D].
Qed.

Ltac names := first [reflexivity|apply no_capitals; reflexivity].
Section File.
  Variable quoted : str -> str -> Prop.
  Hypothesis READ : forall s lit rest, quoted s lit -> read_literal (lit ++ rest) = Some (s, rest).

  Lemma pattern_fields : forall o p, dec_fields set_pattern o zero_pattern = Some p ->
    scalar fst is_text (text "base-url") [] o (up_base p) /\ scalar fst is_text (text "anchor") [] o (up_anchor p).
  Proof.
    intros o p D. split.
    - apply (field_scalar fst set_pattern up_base (fun x => dec_str (fst x)) (text "base-url")) with (r := zero_pattern); try names; try exact D.
      + exact at_base.
      + intros x. apply text_dec.
    - apply (field_scalar fst set_pattern up_anchor (fun x => dec_str (fst x)) (text "anchor")) with (r := zero_pattern); try names; try exact D.
      + exact at_anchor.
      + intros x. apply text_dec.
  Qed.
  Lemma pattern_types : forall k x p p', set_pattern k x p = Some p' -> pattern_typed (k, x).
  Proof.
    intros k x p p' E. split; intros A; cbn [fst snd] in *.
    - eapply (field_typed fst set_pattern up_base (fun x => dec_str (fst x)) (text "base-url")); try names; [exact at_base|intros y; apply text_dec|exact E|exact A].
    - eapply (field_typed fst set_pattern up_anchor (fun x => dec_str (fst x)) (text "anchor")); try names; [exact at_anchor|intros y; apply text_dec|exact E|exact A].
  Qed.
  Lemma pointer_object : forall {R} (set : str -> jv * str -> R -> option R) zero o s old new, text_of quoted (VObj o) s ->
    dec_pointer set zero (VObj o, s) old = Some new ->
    exists m r, object_text quoted m s /\ new = Some r /\ dec_fields set m (match old with Some r => r | None => zero end) = Some r.
  Proof.
    intros R set zero o s old new T D. destruct (value_object quoted _ _ T) as (m & O & _). cbn [dec_pointer fst snd] in D.
    unfold dec_pointer in D. cbn [fst snd] in D. rewrite (object_spans_alone quoted READ _ _ O) in D. cbn [bind] in D.
    destruct (dec_fields set m _) as [r|] eqn:F; [|discriminate]. cbn [bind] in D. exists m, r. split; [exact O|]. split; [congruence|exact F].
  Qed.
  Lemma pointer_rest : forall {R} (set : str -> jv * str -> R -> option R) zero v s old new,
    dec_pointer set zero (v, s) old = Some new -> v = VNull \/ exists o, v = VObj o.
  Proof. intros R set zero v s old new D. destruct v; try discriminate; [left; reflexivity|right; eexists; reflexivity]. Qed.

  Lemma pattern_read : forall l r r', Forall (well quoted) l -> dec_fields set_repo l r = Some r' -> r_pattern r = None -> pattern_said quoted l (r_pattern r').
  Proof.
    intros l r r' W D Z.
    destruct (field_gathered quoted set_repo r_pattern (dec_pointer set_pattern zero_pattern) (text "url-pattern"))
      with (holds := fun g (a : option url_pattern) => match g, a with None, None => True | Some o, Some p => dec_fields set_pattern o zero_pattern = Some p | _, _ => False end)
           (l := l) (r := r) (r' := r') as (g & G & H); try names; try assumption.
    - exact at_pattern.
    - intros s old new E. cbn [dec_pointer fst] in E. unfold dec_pointer in E. cbn [fst] in E. replace new with (@None url_pattern) by congruence. exact I.
    - intros o s old new g E H T. destruct (pointer_object _ _ _ _ _ _ T E) as (m & p & O & -> & F). exists m. split; [exact O|].
      destruct g as [g|], old as [q|]; try contradiction; [rewrite dec_fields_app, H; exact F|exact F].
    - intros v s old new E. exact (pointer_rest _ _ _ _ _ _ E).
    - rewrite Z. exact I.
    - exists g. split; [exact G|]. destruct g as [g|], (r_pattern r') as [p|]; try contradiction; [apply pattern_fields; exact H|exact I].
  Qed.

  Ltac scal nm at_ d z := match goal with D : dec_fields _ _ _ = Some _ |- _ =>
    eapply (field_scalar fst _ _ _ nm) ; [names|names|exact at_|intros ?; apply d|exact D|z] end.
  Ltac opti nm at_ d z := match goal with D : dec_fields _ _ _ = Some _ |- _ =>
    eapply (field_optional fst _ _ _ nm) ; [names|names|exact at_|intros ?; apply d|exact D|z] end.
  Lemma repo_read : forall l r, Forall (well quoted) l -> dec_fields set_repo l zero_repo = Some r -> repo_said quoted l r.
  Proof.
    intros l r W D. unfold repo_said.
    split; [scal (text "url") at_url text_dec reflexivity|].
    split; [scal (text "display-name") at_display text_dec reflexivity|].
    split; [scal (text "ms-between-poll") at_ms number_dec reflexivity|].
    split; [scal (text "vcs") at_vcs text_dec reflexivity|].
    split; [eapply (field_optional fst _ _ _ (text "vcs-config")); [names|names|exact at_conf|intros x old new E; exact (secret_dec x old new E)|exact D|reflexivity]|].
    split; [exact (pattern_read _ _ _ W D eq_refl)|].
    split; [scal (text "exclude-dot-files") at_exdot switch_dec reflexivity|].
    split; [opti (text "enable-poll-updates") at_poll opt_switch_dec reflexivity|].
    split; [opti (text "enable-push-updates") at_push opt_switch_dec reflexivity|].
    opti (text "auto-generated-files") at_auto texts_dec reflexivity.
  Qed.

  Ltac typd nm at_ d E := eapply (field_typed fst _ _ _ nm); [names|names|exact at_|intros ?; apply d|exact E|assumption].
  Ltac otyp nm at_ d E := eapply (optional_typed fst _ _ _ nm); [names|names|exact at_|intros ?; apply d|exact E|assumption].
  Lemma types_of : forall {R} (set : str -> jv * str -> R -> option R) (P : memb -> Prop) l r r',
    Forall (well quoted) l -> (forall k x a b, well quoted (k, x) -> set k x a = Some b -> P (k, x)) -> dec_fields set l r = Some r' -> Forall P l.
  Proof.
    intros R set P l r r' W ST D. apply fields_made_inv in D. rewrite Forall_forall in *. intros [k x] I.
    destruct (D _ I) as (a & b & E). cbn [fst snd] in E. exact (ST _ _ _ _ (W _ I) E).
  Qed.
  Lemma pointer_types : forall {R} (set : str -> jv * str -> R -> option R) zero (P : memb -> Prop) x old new, text_of quoted (fst x) (snd x) ->
    (forall k y a b, well quoted (k, y) -> set k y a = Some b -> P (k, y)) ->
    dec_pointer set zero x old = Some new -> typed_object quoted P x.
  Proof.
    intros R set zero P [v s] old new T ST D. destruct (pointer_rest _ _ _ _ _ _ D) as [->|(o & ->)]; [left; reflexivity|right].
    destruct (pointer_object _ _ _ _ _ _ T D) as (m & r & O & _ & F). exists o, m. split; [reflexivity|]. split; [exact O|].
    eapply types_of; [exact (object_well quoted _ _ O)|exact ST|exact F].
  Qed.
  Lemma repo_types : forall k x r r', well quoted (k, x) -> set_repo k x r = Some r' -> repo_typed quoted (k, x).
  Proof.
    intros k x r r' W E. unfold well in W. cbn [fst snd] in W. unfold repo_typed.
    split; [intros A; cbn [fst snd] in *; typd (text "url") at_url text_dec E|].
    split; [intros A; cbn [fst snd] in *; typd (text "display-name") at_display text_dec E|].
    split; [intros A; cbn [fst snd] in *; typd (text "ms-between-poll") at_ms number_dec E|].
    split; [intros A; cbn [fst snd] in *; typd (text "vcs") at_vcs text_dec E|].
    split; [intros A; cbn [fst snd] in *; typd (text "exclude-dot-files") at_exdot switch_dec E|].
    split; [intros A; cbn [fst snd] in *; otyp (text "enable-poll-updates") at_poll opt_switch_dec E|].
    split; [intros A; cbn [fst snd] in *; otyp (text "enable-push-updates") at_push opt_switch_dec E|].
    split; [intros A; cbn [fst snd] in *; otyp (text "auto-generated-files") at_auto texts_dec E|].
    intros A. cbn [fst snd] in *. destruct (at_pattern _ _ _ _ E) as [S1 _].
    assert (same_name k k_url_pattern = true) as SN by (apply (same_any k k_url_pattern); [names|names|exact A]).
    eapply pointer_types; [exact W| |exact (S1 SN)]. intros k' y a b _. apply pattern_types.
  Qed.

  Lemma entries_object : forall {A} (f : jv * str -> option A) o s old new, text_of quoted (VObj o) s ->
    dec_entries f (VObj o, s) old = Some new -> exists m, object_text quoted m s /\ dec_map f m old = Some new.
  Proof.
    intros A f o s old new T D. destruct (value_object quoted _ _ T) as (m & O & _). unfold dec_entries in D. cbn [fst snd] in D.
    rewrite (object_spans_alone quoted READ _ _ O) in D. exists m. split; [exact O|exact D].
  Qed.
  Lemma entries_rest : forall {A} (f : jv * str -> option A) v s old new, dec_entries f (v, s) old = Some new -> v = VNull \/ exists o, v = VObj o.
  Proof. intros A f v s old new D. destruct v; try discriminate; [left; reflexivity|right; eexists; reflexivity]. Qed.
  Lemma gathered_well : forall name l g, Forall (well quoted) l -> gathered quoted name l g ->
    Forall (well quoted) match g with Some o => o | None => [] end.
  Proof.
    intros name l g W G. induction G as [|l g k x G IH NA|l g k s G IH A|l g k o' s o G IH A O]; [constructor| |constructor|].
    - apply Forall_app in W. apply IH, W.
    - apply Forall_app in W. apply Forall_app. split; [apply IH, W|exact (object_well quoted _ _ O)].
  Qed.
  Lemma entries_read : forall {A} (f : jv * str -> option A) (is : jv * str -> A -> Prop) (g : config -> list (str * A)) (name : str) l c c',
    to_lower name = name -> Forall (fun c => ~ upper_case c) name -> stores set_config g (dec_entries f) name ->
    (forall x a, text_of quoted (fst x) (snd x) -> f x = Some a -> is x a) ->
    Forall (well quoted) l -> dec_fields set_config l c = Some c' -> g c = [] -> entries quoted is name l (g c').
  Proof.
    intros A f is g name l c c' LOW CAP ST FI W D Z.
    destruct (field_gathered quoted set_config g (dec_entries f) name LOW CAP ST
      (fun o (a : list (str * A)) => dec_map f match o with Some o => o | None => [] end [] = Some a)) with (l := l) (r := c) (r' := c') as (o & G & H);
      try assumption.
    - intros s old new E. unfold dec_entries in E. cbn [fst] in E. replace new with (@nil (str * A)) by congruence. reflexivity.
    - intros o s old new h E H T. destruct (entries_object _ _ _ _ _ T E) as (m & O & F). exists m. split; [exact O|].
      rewrite dec_map_app, H. exact F.
    - intros v s old new E. exact (entries_rest _ _ _ _ _ E).
    - rewrite Z. reflexivity.
    - exists o. split; [exact G|]. cbv zeta. destruct (map_entries _ _ _ H) as (K & N & P). split; [exact K|]. split; [exact N|].
      intros n a I. destruct (P _ _ I) as (l1 & x & l2 & E & NI & F). exists l1, x, l2. split; [exact E|]. split; [exact NI|].
      apply FI; [|exact F]. pose proof (gathered_well _ _ _ W G) as WG. rewrite E in WG. apply Forall_app in WG. destruct WG as [_ WG].
      exact (Forall_inv WG).
  Qed.
  Lemma is_repo_read : forall x r, text_of quoted (fst x) (snd x) -> dec_repo x = Some r -> is_repo quoted x r.
  Proof.
    intros [v s] r T D. unfold dec_repo in D. cbn [fst snd] in T. destruct (pointer_rest _ _ _ _ _ _ D) as [->|(o & ->)].
    - left. unfold dec_pointer in D. cbn [fst] in D. split; [reflexivity|congruence].
    - right. destruct (pointer_object _ _ _ _ _ _ T D) as (m & r' & O & -> & F). exists o, m, r'. split; [reflexivity|]. split; [exact O|].
      split; [reflexivity|]. apply repo_read; [exact (object_well quoted _ _ O)|exact F].
  Qed.
  Lemma is_secret_read : forall x s, dec_secret x = Some s -> is_secret x s.
  Proof.
    intros x s D. destruct (secret_dec x None s D) as [[A B]|(A & y & B & C)]; [left; auto|right]. split; [exact A|congruence].
  Qed.
  Theorem config_read : forall l c, Forall (well quoted) l -> dec_fields set_config l zero_config = Some c -> config_said quoted l c.
  Proof.
    intros l c W D. unfold config_said.
    split; [scal (text "dbpath") at_dbpath text_dec reflexivity|].
    split; [scal (text "title") at_title text_dec reflexivity|].
    split; [eapply (entries_read dec_repo); [names|names|exact at_repos|exact is_repo_read|exact W|exact D|reflexivity]|].
    split; [scal (text "max-concurrent-indexers") at_maxidx number_dec reflexivity|].
    split; [scal (text "health-check-uri") at_health text_dec reflexivity|].
    split; [eapply (entries_read dec_secret); [names|names|exact at_confs|intros x a _; apply is_secret_read|exact W|exact D|reflexivity]|].
    scal (text "result-limit") at_limit number_dec reflexivity.
  Qed.
  Lemma entries_types : forall {A} (f : jv * str -> option A) (P : memb -> Prop) x old new, text_of quoted (fst x) (snd x) ->
    (forall k y a, text_of quoted (fst y) (snd y) -> f y = Some a -> P (k, y)) -> dec_entries f x old = Some new -> typed_object quoted P x.
  Proof.
    intros A f P [v s] old new T ST D. cbn [fst snd] in T. destruct (entries_rest _ _ _ _ _ D) as [->|(o & ->)]; [left; reflexivity|right].
    destruct (entries_object _ _ _ _ _ T D) as (m & O & F). exists o, m. split; [reflexivity|]. split; [exact O|].
    apply map_made_inv in F. pose proof (object_well quoted _ _ O) as W. rewrite Forall_forall in *. intros [k y] I.
    destruct (F _ I) as (a & E). exact (ST _ _ _ (W _ I) E).
  Qed.
  Theorem config_types : forall l c, Forall (well quoted) l -> dec_fields set_config l zero_config = Some c -> Forall (config_typed quoted) l.
  Proof.
    intros l c W D. eapply types_of; [exact W| |exact D]. clear l c W D. intros k x a b W E. unfold well in W. cbn [fst snd] in W. unfold config_typed.
    split; [intros A; cbn [fst snd] in *; typd (text "dbpath") at_dbpath text_dec E|].
    split; [intros A; cbn [fst snd] in *; typd (text "title") at_title text_dec E|].
    split; [intros A; cbn [fst snd] in *; typd (text "max-concurrent-indexers") at_maxidx number_dec E|].
    split; [intros A; cbn [fst snd] in *; typd (text "health-check-uri") at_health text_dec E|].
    split; [intros A; cbn [fst snd] in *; typd (text "result-limit") at_limit number_dec E|].
    split; intros A; cbn [fst snd] in *.
    - destruct (at_repos _ _ _ _ E) as [S1 _].
      assert (same_name k k_repos = true) as SN by (apply (same_any k k_repos); [names|names|exact A]).
      eapply entries_types; [exact W| |exact (S1 SN)]. intros k' y r T F. cbn [snd]. eapply pointer_types; [exact T| |exact F].
      exact repo_types.
    - destruct (at_confs _ _ _ _ E) as [S1 _].
      assert (same_name k k_vcs_config = true) as SN by (apply (same_any k k_vcs_config); [names|names|exact A]).
      eapply entries_types; [exact W| |exact (S1 SN)]. intros; exact I.
  Qed.

  (** Members of the right types are taken. *)
  Lemma text_made : forall v old, v = VNull \/ (exists a, is_text v a) -> exists new, dec_str v old = Some new.
  Proof. intros v old [->|(a & ->)]; eexists; reflexivity. Qed.
  Lemma switch_made : forall v old, v = VNull \/ (exists a, is_switch v a) -> exists new, dec_bool v old = Some new.
  Proof. intros v old [->|(a & ->)]; eexists; reflexivity. Qed.
  Lemma opt_switch_made : forall v old, v = VNull \/ (exists a, is_switch v a) -> exists new, dec_opt_bool v old = Some new.
  Proof. intros v old [->|(a & ->)]; eexists; reflexivity. Qed.
  Lemma number_made : forall v old, v = VNull \/ (exists a, is_number v a) -> exists new, dec_int v old = Some new.
  Proof. intros v old [->|(a & lit & -> & S)]; [eexists; reflexivity|]. exists a. cbn [dec_int]. apply parse_int_ok. exact S. Qed.
  Lemma texts_made : forall v old, v = VNull \/ (exists a, is_texts v a) -> exists new, dec_strings v old = Some new.
  Proof. intros v old [->|(a & l & -> & F)]; [eexists; reflexivity|]. exists (Some a). cbn [dec_strings]. apply list_dec in F. rewrite F. reflexivity. Qed.
  Lemma pointer_made : forall {R} (set : str -> jv * str -> R -> option R) zero (P : memb -> Prop) x old,
    (forall k y r, P (k, y) -> exists r', set k y r = Some r') -> typed_object quoted P x -> exists new, dec_pointer set zero x old = Some new.
  Proof.
    intros R set zero P [v s] old ST [E|(o' & o & E & O & F)]; cbn [fst snd] in *; subst v; [eexists; reflexivity|].
    unfold dec_pointer. cbn [fst snd]. rewrite (object_spans_alone quoted READ _ _ O). cbn [bind].
    destruct (fields_made set P o match old with Some r => r | None => zero end ST F) as (r & ->). eexists. reflexivity.
  Qed.
  Lemma entries_made : forall {A} (f : jv * str -> option A) (P : memb -> Prop) x old, (forall p, P p -> exists a, f (snd p) = Some a) ->
    typed_object quoted P x -> exists new, dec_entries f x old = Some new.
  Proof.
    intros A f P [v s] old ST [E|(o' & o & E & O & F)]; cbn [fst snd] in *; subst v; [eexists; reflexivity|].
    unfold dec_entries. cbn [fst snd]. rewrite (object_spans_alone quoted READ _ _ O). cbn [bind]. apply map_made.
    rewrite Forall_forall in *. intros p I. apply ST, F, I.
  Qed.
  Lemma pattern_made : forall k x p, pattern_typed (k, x) -> exists p', set_pattern k x p = Some p'.
  Proof.
    intros k x p (T1 & T2). unfold typed in *. cbn [fst snd] in *. unfold set_pattern.
    destruct (same_name k k_base_url) eqn:S1; [apply (same_any k k_base_url) in S1; [|names|names]; destruct (text_made _ (up_base p) (T1 S1)) as (y & ->); eexists; reflexivity|].
    destruct (same_name k k_anchor) eqn:S2; [apply (same_any k k_anchor) in S2; [|names|names]; destruct (text_made _ (up_anchor p) (T2 S2)) as (y & ->); eexists; reflexivity|].
    eexists; reflexivity.
  Qed.
  Ltac made k nm SN L := destruct (same_name k nm) eqn:SN;
    [apply (same_any k nm) in SN; [|names|names]; L; eexists; reflexivity|].
  Lemma repo_made : forall k x r, repo_typed quoted (k, x) -> exists r', set_repo k x r = Some r'.
  Proof.
    intros k x [url display ms vcs conf pat exdot poll push auto] (T1 & T2 & T3 & T4 & T5 & T6 & T7 & T8 & T9). unfold typed in *. cbn [fst snd] in *. unfold set_repo.
    made k k_url SN ltac:(destruct (text_made _ url (T1 SN)) as (y & ->)).
    made k k_display_name SN2 ltac:(destruct (text_made _ display (T2 SN2)) as (y & ->)).
    made k k_ms_between_poll SN3 ltac:(destruct (number_made _ ms (T3 SN3)) as (y & ->)).
    made k k_vcs SN4 ltac:(destruct (text_made _ vcs (T4 SN4)) as (y & ->)).
    destruct (same_name k k_vcs_config); [eexists; reflexivity|].
    made k k_url_pattern SN9 ltac:(destruct (pointer_made set_pattern zero_pattern pattern_typed x pat pattern_made (T9 SN9)) as (y & ->)).
    made k k_exclude_dot_files SN5 ltac:(destruct (switch_made _ exdot (T5 SN5)) as (y & ->)).
    made k k_enable_poll_updates SN6 ltac:(destruct (opt_switch_made _ poll (T6 SN6)) as (y & ->)).
    made k k_enable_push_updates SN7 ltac:(destruct (opt_switch_made _ push (T7 SN7)) as (y & ->)).
    made k k_auto_generated_files SN8 ltac:(destruct (texts_made _ auto (T8 SN8)) as (y & ->)).
    eexists; reflexivity.
  Qed.
  Lemma config_made : forall k x c, config_typed quoted (k, x) -> exists c', set_config k x c = Some c'.
  Proof.
    intros k x [db title repos maxidx health vcs limit] (T1 & T2 & T3 & T4 & T5 & T6 & T7). unfold typed in *. cbn [fst snd] in *. unfold set_config. cbv zeta iota.
    made k k_dbpath SN1 ltac:(destruct (text_made _ db (T1 SN1)) as (y & ->)).
    made k k_title SN2 ltac:(destruct (text_made _ title (T2 SN2)) as (y & ->)).
    destruct (same_name k k_repos) eqn:SN6.
    { apply (same_any k k_repos) in SN6; [|names|names].
      destruct (entries_made (fun x => dec_pointer set_repo zero_repo x None) (fun e => typed_object quoted (repo_typed quoted) (snd e)) x repos) as (y & ->);
        [|exact (T6 SN6)|eexists; reflexivity].
      intros p T. exact (pointer_made set_repo zero_repo (repo_typed quoted) (snd p) None repo_made T). }
    made k k_max_concurrent_indexers SN3 ltac:(destruct (number_made _ maxidx (T3 SN3)) as (y & ->)).
    made k k_health_check_uri SN4 ltac:(destruct (text_made _ health (T4 SN4)) as (y & ->)).
    destruct (same_name k k_vcs_config) eqn:SN7.
    { apply (same_any k k_vcs_config) in SN7; [|names|names].
      destruct (entries_made dec_secret (fun _ => True) x vcs) as (y & ->); [intros p _; eexists; reflexivity|exact (T7 SN7)|eexists; reflexivity]. }
    made k k_result_limit SN5 ltac:(destruct (number_made _ limit (T5 SN5)) as (y & ->)).
    eexists; reflexivity.
  Qed.

  (** The whole file. *)
  Lemma file_decoded : forall file l, file_says quoted file l -> decode_file file = dec_fields set_config l zero_config.
  Proof.
    intros file l (w & t & rest & -> & B & [O|[-> ->]]); unfold decode_file, decode_json.
    - rewrite (proj1 (quoted_texts_read quoted READ) (VObj (erase l)) t (object_value quoted _ _ O)); [|exact B|rewrite !app_length; lia|discriminate].
      cbn [bind]. rewrite (object_spans quoted READ _ _ _ _ O B). reflexivity.
    - rewrite (proj1 (quoted_texts_read quoted READ) VNull (text "null") jt_null); [|exact B|rewrite !app_length; lia|discriminate]. reflexivity.
  Qed.
  Lemma file_well : forall file l, file_says quoted file l -> Forall (well quoted) l.
  Proof. intros file l (w & t & rest & _ & _ & [O|[_ ->]]); [exact (object_well quoted _ _ O)|constructor]. Qed.
  Theorem file_read : forall file l, file_says quoted file l -> Forall (config_typed quoted) l ->
    exists c, decode_file file = Some c /\ config_said quoted l c.
  Proof.
    intros file l F T. rewrite (file_decoded _ _ F).
    destruct (fields_made set_config (config_typed quoted) l zero_config config_made T) as (c & E). exists c. split; [exact E|].
    apply config_read; [exact (file_well _ _ F)|exact E].
  Qed.
  Theorem file_refused : forall file l c, file_says quoted file l -> decode_file file = Some c -> Forall (config_typed quoted) l /\ config_said quoted l c.
  Proof.
    intros file l c F D. rewrite (file_decoded _ _ F) in D. pose proof (file_well _ _ F) as W.
    split; [exact (config_types _ _ W D)|exact (config_read _ _ W D)].
  Qed.
End File.

(** More spellings, more texts. *)
Section Mono.
  Variables q1 q2 : str -> str -> Prop.
  Hypothesis SUB : forall s lit, q1 s lit -> q2 s lit.
  Lemma text_mono : (forall v s, text_of q1 v s -> text_of q2 v s) /\ (forall l t, items_of q1 l t -> items_of q2 l t) /\
    (forall l t, members_of q1 l t -> members_of q2 l t).
  Proof.
    apply json_ind; intros; constructor; auto.
  Qed.
  Lemma spelled_mono : forall l t, spelled q1 l t -> spelled q2 l t.
  Proof. intros l t M. induction M; [apply sp_last|apply sp_more]; auto; apply text_mono; assumption. Qed.
  Lemma object_mono : forall l t, object_text q1 l t -> object_text q2 l t.
  Proof. intros l t [O|(m & M & E)]; [left; exact O|right; exists m; split; [apply spelled_mono, M|exact E]]. Qed.
  Lemma says_mono : forall file l, file_says q1 file l -> file_says q2 file l.
  Proof.
    intros file l (w & t & rest & E & B & [O|O]); exists w, t, rest; (split; [exact E|split; [exact B|]]); [left; apply object_mono, O|right; exact O].
  Qed.
  Lemma gathered_mono : forall name l g, gathered q1 name l g -> gathered q2 name l g.
  Proof.
    intros name l g G. induction G as [|l g k x G IH NA|l g k s G IH A|l g k o' s o G IH A O]; [constructor|apply ga_other; assumption|eapply ga_null; eassumption|].
    apply ga_object; [assumption|assumption|apply object_mono, O].
  Qed.
  Lemma entries_mono : forall {A} (i1 i2 : jv * str -> A -> Prop) name l m, (forall x a, i1 x a -> i2 x a) -> entries q1 i1 name l m -> entries q2 i2 name l m.
  Proof.
    intros A i1 i2 name l m I (g & G & K & N & P). exists g. split; [apply gathered_mono, G|]. cbv zeta in *. split; [exact K|]. split; [exact N|].
    intros n a Q. destruct (P n a Q) as (l1 & x & l2 & E & NI & H). exists l1, x, l2. auto.
  Qed.
  Lemma repo_said_mono : forall l r, repo_said q1 l r -> repo_said q2 l r.
  Proof.
    intros l r (A1 & A2 & A3 & A4 & A5 & (g & G & H) & A6). repeat (split; [assumption|]). split; [|exact A6].
    exists g. split; [apply gathered_mono, G|exact H].
  Qed.
  Lemma is_repo_mono : forall x r, is_repo q1 x r -> is_repo q2 x r.
  Proof.
    intros x r [H|(o' & o & r' & E & O & ER & S)]; [left; exact H|right]. exists o', o, r'. split; [exact E|]. split; [apply object_mono, O|].
    split; [exact ER|apply repo_said_mono, S].
  Qed.
  Lemma config_said_mono : forall l c, config_said q1 l c -> config_said q2 l c.
  Proof.
    intros l c (A1 & A2 & A3 & A4 & A5 & A6 & A7). split; [exact A1|]. split; [exact A2|].
    split; [exact (entries_mono _ _ _ _ _ is_repo_mono A3)|]. split; [exact A4|]. split; [exact A5|]. split; [|exact A7].
    exact (entries_mono _ _ _ _ _ (fun x a H => H) A6).
  Qed.
  Lemma typed_object_mono : forall (P1 P2 : memb -> Prop) x, (forall p, P1 p -> P2 p) -> typed_object q1 P1 x -> typed_object q2 P2 x.
  Proof.
    intros P1 P2 x I [N|(o' & o & E & O & F)]; [left; exact N|right]. exists o', o. split; [exact E|]. split; [apply object_mono, O|].
    eapply Forall_impl; [exact I|exact F].
  Qed.
  Lemma repo_typed_mono : forall p, repo_typed q1 p -> repo_typed q2 p.
  Proof.
    intros p (A1 & A2 & A3 & A4 & A5 & A6 & A7 & A8 & A9). repeat (split; [assumption|]). intros Q.
    exact (typed_object_mono _ _ _ (fun p H => H) (A9 Q)).
  Qed.
  Lemma config_typed_mono : forall p, config_typed q1 p -> config_typed q2 p.
  Proof.
    intros p (A1 & A2 & A3 & A4 & A5 & A6 & A7). repeat (split; [assumption|]). split; intros Q.
    - refine (typed_object_mono _ _ _ _ (A6 Q)). intros e. apply typed_object_mono. exact repo_typed_mono.
    - exact (typed_object_mono _ _ _ (fun p H => H) (A7 Q)).
  Qed.
End Mono.

Lemma file_found : forall file c, Forall is_byte file -> decode_file file = Some c -> exists l, file_says readable file l.
Proof.
  intros file c B D. unfold decode_file in D. destruct (decode_json file) as [[v rest]|] eqn:J; [|discriminate]. cbn [bind] in D.
  unfold decode_json in J. destruct (proj1 (readable_sound _) file v rest B J) as (w & p & E & BW & T). destruct v; try discriminate.
  - exists []. exists w, p, rest. split; [exact E|]. split; [exact BW|]. right. split; [|reflexivity]. inversion T. reflexivity.
  - destruct (value_object readable _ _ T) as (m & O & _). exists m, w, p, rest. split; [exact E|]. split; [exact BW|]. left. exact O.
Qed.

Theorem file_reads : forall file l, file_says json_string file l -> Forall (config_typed json_string) l ->
  exists c, decode_file file = Some c /\ config_said json_string l c.
Proof. exact (file_read json_string string_read). Qed.
Theorem file_refuses : forall file c, Forall is_byte file -> decode_file file = Some c ->
  exists l, file_says lax_string file l /\ Forall (config_typed lax_string) l /\ config_said lax_string l c.
Proof.
  intros file c B D. destruct (file_found _ _ B D) as (l & F). destruct (file_refused readable readable_read _ _ _ F D) as [T S].
  assert (SUB : forall s lit, readable s lit -> lax_string s lit) by (intros s lit R; apply R).
  exists l. split; [exact (says_mono _ _ SUB _ _ F)|]. split; [|exact (config_said_mono _ _ SUB _ _ S)].
  eapply Forall_impl; [|exact T]. exact (config_typed_mono _ _ SUB).
Qed.
