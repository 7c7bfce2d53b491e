(** Package flag reads a command line as what it says. *)
From Coq Require Import String Ascii.
From Verif Require Import Model.Base Model.GoStr Model.CmdLine Spec.ApiSpec Spec.Names Spec.CmdLineSpec Proofs.StrLemmas Proofs.FlagNumbers.
From Coq Require Import Lia.
Local Open Scope N_scope.

Lemma set_ok : forall old s v, Set_ old s = Some v <-> reads old s v.
Proof.
  intros [o|o|o] s v; cbn [Set_]; split.
  - intros E. injection E as <-. constructor.
  - intros R. inversion R; subst. reflexivity.
  - intros E. destruct (parse_int0 s) as [z|] eqn:P; [|discriminate]. injection E as <-. constructor. apply parse_int0_ok. exact P.
  - intros R. inversion R as [|? ? ? I|]; subst. apply parse_int0_ok in I. rewrite I. reflexivity.
  - intros E. destruct (parse_bool s) as [z|] eqn:P; [|discriminate]. injection E as <-. constructor. apply parse_bool_ok. exact P.
  - intros R. inversion R as [| |? ? ? I]; subst. apply parse_bool_ok in I. rewrite I. reflexivity.
Qed.
Lemma lookup_in : forall fs name v, NoDup (map fst fs) -> (lookup name fs = Some v <-> In (name, v) fs).
Proof.
  intros fs name v. induction fs as [|(k & w) r IH]; intros ND; cbn [lookup].
  - split; [discriminate|intros []].
  - cbn [map fst] in ND. inversion ND as [|? ? NI ND']; subst. destruct (str_eqb name k) eqn:Q.
    + apply str_eqb_eq in Q. subst k. split; [intros E; injection E as <-; left; reflexivity|]. intros [E|I]; [congruence|]. exfalso. apply NI. apply in_map_iff. exists (name, v). auto.
    + rewrite (IH ND'). split; [right; assumption|]. intros [E|I]; [|exact I]. exfalso. assert (k = name) by congruence. subst k. rewrite str_eqb_refl in Q. discriminate.
Qed.
Lemma lookup_none : forall fs name, lookup name fs = None <-> ~ In name (map fst fs).
Proof.
  intros fs name. induction fs as [|(k & w) r IH]; cbn [lookup map fst In].
  - split; [intros _ []|reflexivity].
  - destruct (str_eqb name k) eqn:Q.
    + apply str_eqb_eq in Q. split; [discriminate|]. intros NI. exfalso. apply NI. left. congruence.
    + rewrite IH. split; [intros NI [E|I]; [subst k; rewrite str_eqb_refl in Q; discriminate|contradiction]|tauto].
Qed.
Lemma split_eq_some : forall s a v, split_eq s = (a, Some v) <-> s = a ++ 61 :: v /\ ~ In 61 a.
Proof.
  intros s. induction s as [|c r IH]; intros a v; cbn [split_eq].
  - split; [discriminate|]. intros (E & _). destruct a; discriminate.
  - destruct (N.eqb_spec c 61) as [-> |NE].
    + split; [intros E; injection E as <- <-; split; [reflexivity|intros []]|]. intros (E & NI). destruct a as [|x a]; [injection E as ->; reflexivity|]. exfalso. apply NI. left. cbn in E. congruence.
    + destruct (split_eq r) as (b & o) eqn:S. split.
      * intros E. assert (a = c :: b) by congruence. assert (o = Some v) by congruence. subst a o. apply IH in S || (destruct (IH b v) as (IH1 & _); specialize (IH1 eq_refl)).
        pose proof (proj1 (IH b v) eq_refl) as (E1 & NI). split; [rewrite E1; reflexivity|]. intros [X|X]; [congruence|contradiction].
      * intros (E & NI). destruct a as [|x a]; [exfalso; apply NE; cbn in E; congruence|]. cbn [app] in E. assert (x = c) by congruence. assert (ER : r = a ++ 61 :: v) by congruence. subst x.
        pose proof (proj2 (IH a v) (conj ER (fun I => NI (or_intror I)))) as X. congruence.
Qed.
Lemma split_eq_none : forall s a, split_eq s = (a, None) <-> s = a /\ ~ In 61 s.
Proof.
  intros s. induction s as [|c r IH]; intros a; cbn [split_eq].
  - split; [intros E; injection E as <-; split; [reflexivity|intros []]|]. intros (<- & _). reflexivity.
  - destruct (N.eqb_spec c 61) as [-> |NE].
    + split; [discriminate|]. intros (_ & NI). exfalso. apply NI. left. reflexivity.
    + destruct (split_eq r) as (b & o) eqn:S. split.
      * intros E. assert (a = c :: b) by congruence. assert (o = None) by congruence. subst a o. pose proof (proj1 (IH b) eq_refl) as (E1 & NI). split; [rewrite E1; reflexivity|]. intros [X|X]; [congruence|contradiction].
      * intros (E & NI). destruct a as [|x a]; [discriminate|]. assert (x = c) by congruence. assert (ER : r = a) by congruence. subst x.
        pose proof (proj2 (IH a) (conj ER (fun I => NI (or_intror I)))) as X. congruence.
Qed.

(** An argument that begins with a dash and goes on. *)
Definition body (a : str) (n : str) : Prop := exists d, dashes d /\ a = d ++ n.
Definition one_flag (fs : flagset) (n : str) (rest : list str) : one :=
  match n with
  | [] => Fail
  | x :: more =>
      if (x =? 45) || (x =? 61) then Fail
      else
        let '(tail, given) := split_eq more in
        let name := x :: tail in
        match lookup name fs with
        | None => if str_eqb name k_help || str_eqb name k_h then ErrHelp else Fail
        | Some (VBool _ as old) =>
            match Set_ old (match given with Some v => v | None => k_true end) with
            | Some v => More (assign name v fs) rest
            | None => Fail
            end
        | Some old =>
            match given, rest with
            | Some v, _ => match Set_ old v with Some v => More (assign name v fs) rest | None => Fail end
            | None, v :: rest => match Set_ old v with Some v => More (assign name v fs) rest | None => Fail end
            | None, [] => Fail
            end
        end
  end.
Inductive arg_case (a : str) : Prop :=
| arg_plain : plain a -> arg_case a
| arg_end : a = text "--" -> arg_case a
| arg_flag : forall d n, dashes d -> a = d ++ n -> n <> [] -> (d = text "-" -> forall r, n <> 45 :: r) -> arg_case a.
Lemma arg_cases : forall a, arg_case a.
Proof.
  intros [|x [|y r]].
  - apply arg_plain. right. discriminate.
  - destruct (N.eq_dec x 45) as [-> |NE]; apply arg_plain; [left; reflexivity|right; intros r E; congruence].
  - destruct (N.eq_dec x 45) as [-> |NE]; [|apply arg_plain; right; intros r' E; congruence]. destruct (N.eq_dec y 45) as [-> |NY].
    + destruct r as [|z r]; [apply arg_end; reflexivity|]. apply (arg_flag _ (text "--") (z :: r)); [right; reflexivity|reflexivity|discriminate|discriminate].
    + apply (arg_flag _ (text "-") (y :: r)); [left; reflexivity|reflexivity|discriminate|]. intros _ r' E. congruence.
Qed.
Lemma one_plain : forall fs a rest, plain a -> parseOne fs (a :: rest) = Stop (a :: rest).
Proof.
  intros fs a rest [-> |NP]; [reflexivity|]. unfold parseOne. destruct a as [|c a]; [reflexivity|].
  assert (NE : c <> 45) by (intros ->; exact (NP a eq_refl)). clear NP. destruct c as [|p]; [reflexivity|]. do 6 (try (destruct p as [p|p|]; try reflexivity)). congruence.
Qed.
Lemma one_end : forall fs rest, parseOne fs (text "--" :: rest) = Stop rest.
Proof. reflexivity. Qed.
Lemma one_is : forall fs d n rest, dashes d -> n <> [] -> (d = text "-" -> forall r, n <> 45 :: r) -> parseOne fs ((d ++ n) :: rest) = one_flag fs n rest.
Proof.
  intros fs d n rest [-> | ->] NN N1.
  - destruct n as [|c r]; [congruence|]. specialize (N1 eq_refl r). assert (NC : c <> 45) by congruence. change (text "-" ++ c :: r) with (45 :: c :: r). cbn [parseOne].
    assert (Q : str_eqb (45 :: c :: r) [45; 45] = false). { destruct (str_eqb (45 :: c :: r) [45; 45]) eqn:X; [|reflexivity]. apply str_eqb_eq in X. congruence. }
    rewrite Q. destruct (N.eqb_spec c 45); [contradiction|]. reflexivity.
  - destruct n as [|c r]; [congruence|]. change (text "--" ++ c :: r) with (45 :: 45 :: c :: r). cbn [parseOne].
    assert (Q : str_eqb (45 :: 45 :: c :: r) [45; 45] = false). { destruct (str_eqb (45 :: 45 :: c :: r) [45; 45]) eqn:X; [|reflexivity]. apply str_eqb_eq in X. discriminate. }
    rewrite Q. change (45 =? 45) with true. reflexivity.
Qed.

Section Flags.
Context (fs : flagset) (WD : well_defined fs).
Lemma name_of : forall name v, In (name, v) fs -> flag_name name.
Proof. intros name v I. destruct WD as (_ & F & _). rewrite Forall_forall in F. apply F. apply in_map_iff. exists (name, v). auto. Qed.
(** The text of an argument without its dashes, as name and value. *)
Lemma one_name : forall name g rest, flag_name name -> one_flag fs (name ++ match g with Some v => 61 :: v | None => [] end) rest =
  match lookup name fs with
  | None => if str_eqb name k_help || str_eqb name k_h then ErrHelp else Fail
  | Some (VBool _ as old) =>
      match Set_ old (match g with Some v => v | None => k_true end) with
      | Some v => More (assign name v fs) rest
      | None => Fail
      end
  | Some old =>
      match g, rest with
      | Some v, _ => match Set_ old v with Some v => More (assign name v fs) rest | None => Fail end
      | None, v :: rest => match Set_ old v with Some v => More (assign name v fs) rest | None => Fail end
      | None, [] => Fail
      end
  end.
Proof.
  intros name g rest (NN & NE & ND). destruct name as [|x t]; [congruence|]. cbn [app one_flag].
  destruct (N.eqb_spec x 45) as [-> |N1]; [destruct (ND t eq_refl)|]. destruct (N.eqb_spec x 61) as [-> |N2]; [exfalso; apply NE; left; reflexivity|]. cbn [orb].
  assert (NT : ~ In 61 t) by (intros I; apply NE; right; exact I).
  replace (split_eq (t ++ match g with Some v => 61 :: v | None => [] end)) with (t, g); [reflexivity|]. symmetry. destruct g as [v|].
  - apply split_eq_some. auto.
  - apply split_eq_none. rewrite app_nil_r. auto.
Qed.
Lemma body_split : forall n, n <> [] -> (exists r, n = 45 :: r) \/ (exists r, n = 61 :: r) \/ exists name g, n = name ++ (match g with Some v => 61 :: v | None => [] end) /\ flag_name name.
Proof.
  intros [|x more] NN; [congruence|]. destruct (N.eq_dec x 45) as [-> |N1]; [left; eauto|]. destruct (N.eq_dec x 61) as [-> |N2]; [right; left; eauto|]. right. right.
  destruct (split_eq more) as (t & [v|]) eqn:S.
  - apply split_eq_some in S. destruct S as (-> & NI). exists (x :: t), (Some v). split; [reflexivity|]. split; [discriminate|]. split; [intros [X|X]; [congruence|contradiction]|intros r X; congruence].
  - apply split_eq_none in S. destruct S as (<- & NI). exists (x :: more), None. split; [rewrite app_nil_r; reflexivity|]. split; [discriminate|]. split; [intros [X|X]; [congruence|contradiction]|intros r X; congruence].
Qed.
Lemma first_not_dash : forall name r g, flag_name name -> name ++ g <> 45 :: r.
Proof. intros [|x t] r g (NN & _ & ND) E; [congruence|]. cbn [app] in E. apply (ND t). congruence. Qed.
Lemma one_arg : forall d name g rest, dashes d -> flag_name name ->
  parseOne fs ((d ++ name ++ match g with Some v => 61 :: v | None => [] end) :: rest) = one_flag fs (name ++ match g with Some v => 61 :: v | None => [] end) rest.
Proof.
  intros d name g rest D FN. apply one_is; [exact D|destruct FN as (NN & _); destruct name; [congruence|discriminate]|]. intros _ r. apply first_not_dash. exact FN.
Qed.
Lemma given_more : forall name old s v a args, In (name, old) fs -> given old name s a -> reads old s v -> parseOne fs (a ++ args) = More (assign name v fs) args.
Proof.
  intros name old s v a args I G R. pose proof (name_of _ _ I) as FN. destruct WD as (ND & _). apply set_ok in R.
  pose proof (proj2 (lookup_in fs name old ND) I) as LK. destruct G as [d s D|d s D NB|d b D B]; cbn [app].
  - pose proof (one_arg d name (Some s) args D FN) as O. cbn [app] in O. change (text "=" ++ s) with (61 :: s). rewrite O. rewrite (one_name name (Some s) args FN), LK. rewrite R. destruct old; reflexivity.
  - pose proof (one_arg d name None (s :: args) D FN) as O. rewrite app_nil_r in O. rewrite O. pose proof (one_name name None (s :: args) FN) as Q. rewrite app_nil_r in Q. rewrite Q, LK.
    destruct old as [x|x|x]; [rewrite R; reflexivity|rewrite R; reflexivity|destruct (NB x eq_refl)].
  - pose proof (one_arg d name None args D FN) as O. rewrite app_nil_r in O. rewrite O. pose proof (one_name name None args FN) as Q. rewrite app_nil_r in Q. rewrite Q, LK. subst old. change k_true with (text "true"). rewrite R. reflexivity.
Qed.
Lemma more_given : forall args fs' args', parseOne fs args = More fs' args' ->
  exists name old s v a, In (name, old) fs /\ given old name s a /\ reads old s v /\ args = a ++ args' /\ fs' = assign name v fs.
Proof.
  intros [|a rest] fs' args' E; [discriminate|]. destruct (arg_cases a) as [P| -> |d n D -> NN N1].
  - rewrite (one_plain fs a rest P) in E. discriminate.
  - discriminate.
  - rewrite (one_is fs d n rest D NN N1) in E. destruct (body_split n NN) as [(r & ->)|[(r & ->)|(name & g & -> & FN)]]; [discriminate|discriminate|].
    rewrite (one_name name g rest FN) in E. destruct WD as (ND & _). destruct (lookup name fs) as [old|] eqn:LK; [|destruct (str_eqb name k_help || str_eqb name k_h); discriminate].
    apply (lookup_in fs name old ND) in LK. destruct old as [x|x|x].
    + destruct g as [v|].
      * destruct (Set_ (VStr x) v) as [w|] eqn:S; [|discriminate]. injection E as <- <-. apply set_ok in S. exists name, (VStr x), v, w, [d ++ name ++ text "=" ++ v]. split; [exact LK|]. split; [constructor; exact D|]. auto.
      * destruct rest as [|v rest]; [discriminate|]. destruct (Set_ (VStr x) v) as [w|] eqn:S; [|discriminate]. injection E as <- <-. apply set_ok in S. exists name, (VStr x), v, w, [d ++ name; v]. split; [exact LK|]. split; [constructor; [exact D|discriminate]|]. rewrite app_nil_r. auto.
    + destruct g as [v|].
      * destruct (Set_ (VInt x) v) as [w|] eqn:S; [|discriminate]. injection E as <- <-. apply set_ok in S. exists name, (VInt x), v, w, [d ++ name ++ text "=" ++ v]. split; [exact LK|]. split; [constructor; exact D|]. auto.
      * destruct rest as [|v rest]; [discriminate|]. destruct (Set_ (VInt x) v) as [w|] eqn:S; [|discriminate]. injection E as <- <-. apply set_ok in S. exists name, (VInt x), v, w, [d ++ name; v]. split; [exact LK|]. split; [constructor; [exact D|discriminate]|]. rewrite app_nil_r. auto.
    + destruct (Set_ (VBool x) match g with Some v => v | None => k_true end) as [w|] eqn:S; [|discriminate]. injection E as <- <-. apply set_ok in S. destruct g as [v|].
      * exists name, (VBool x), v, w, [d ++ name ++ text "=" ++ v]. split; [exact LK|]. split; [constructor; exact D|]. auto.
      * exists name, (VBool x), (text "true"), w, [d ++ name]. split; [exact LK|]. split; [apply (given_bool _ _ d x D eq_refl)|]. rewrite app_nil_r. auto.
Qed.
Lemma stop_iff : forall args rest, parseOne fs args = Stop rest <-> others args rest.
Proof.
  intros args rest. split.
  - destruct args as [|a args]; intros E; [injection E as <-; right; auto|]. destruct (arg_cases a) as [P| -> |d n D -> NN N1].
    + rewrite (one_plain fs a args P) in E. injection E as <-. right. split; [reflexivity|]. right. eauto.
    + injection E as <-. left. reflexivity.
    + exfalso. rewrite (one_is fs d n args D NN N1) in E. destruct (body_split n NN) as [(r & ->)|[(r & ->)|(name & g & -> & FN)]]; [discriminate|discriminate|].
      rewrite (one_name name g args FN) in E. destruct (lookup name fs) as [[x|x|x]|].
      * destruct g as [v|]; [|destruct args as [|v args]; [discriminate|]]; destruct (Set_ _ v); discriminate.
      * destruct g as [v|]; [|destruct args as [|v args]; [discriminate|]]; destruct (Set_ _ v); discriminate.
      * destruct (Set_ _ _); discriminate.
      * destruct (str_eqb name k_help || str_eqb name k_h); discriminate.
  - intros [-> |(-> & [-> |(a & r & -> & P)])]; [reflexivity|reflexivity|]. apply one_plain. exact P.
Qed.
Lemma help_iff : forall args, parseOne fs args = ErrHelp <-> exists a r, args = a :: r /\ help a.
Proof.
  assert (FH : forall n, n = text "help" \/ n = text "h" -> flag_name n).
  { intros n [-> | ->]; (split; [discriminate|]; split; [cbn; intuition discriminate|discriminate]). }
  destruct WD as (ND & _ & NH & Nh). intros args. split.
  - destruct args as [|a args]; intros E; [discriminate|]. exists a, args. split; [reflexivity|]. destruct (arg_cases a) as [P| -> |d n D -> NN N1].
    + rewrite (one_plain fs a args P) in E. discriminate.
    + discriminate.
    + rewrite (one_is fs d n args D NN N1) in E. destruct (body_split n NN) as [(r & ->)|[(r & ->)|(name & g & -> & FN)]]; [discriminate|discriminate|].
      rewrite (one_name name g args FN) in E. destruct (lookup name fs) as [[x|x|x]|].
      * destruct g as [v|]; [|destruct args as [|v args]; [discriminate|]]; destruct (Set_ _ v); discriminate.
      * destruct g as [v|]; [|destruct args as [|v args]; [discriminate|]]; destruct (Set_ _ v); discriminate.
      * destruct (Set_ _ _); discriminate.
      * destruct (str_eqb name k_help) eqn:H1; [|destruct (str_eqb name k_h) eqn:H2; [|discriminate]].
        -- apply str_eqb_eq in H1. exists d, name, (match g with Some v => 61 :: v | None => [] end). split; [exact D|]. split; [left; exact H1|]. split; [destruct g as [v|]; [right; exists v; reflexivity|left; reflexivity]|reflexivity].
        -- apply str_eqb_eq in H2. exists d, name, (match g with Some v => 61 :: v | None => [] end). split; [exact D|]. split; [right; exact H2|]. split; [destruct g as [v|]; [right; exists v; reflexivity|left; reflexivity]|reflexivity].
  - intros (a & r & -> & (d & n & s & D & HN & HS & ->)). pose proof (FH n HN) as FN.
    assert (G : exists g : option str, s = match g with Some v => 61 :: v | None => [] end) by (destruct HS as [-> |(t & ->)]; [exists None|exists (Some t)]; reflexivity).
    destruct G as (g & ->). rewrite (one_arg d n g r D FN), (one_name n g r FN).
    assert (LK : lookup n fs = None) by (apply lookup_none; destruct HN as [-> | ->]; assumption). rewrite LK. destruct HN as [-> | ->]; reflexivity.
Qed.
End Flags.

(** The same flags, with other values. *)
Definition same_kind (v w : value) : Prop :=
  match v, w with VStr _, VStr _ => True | VInt _, VInt _ => True | VBool _, VBool _ => True | _, _ => False end.
Definition same_flags (fs fs' : flagset) : Prop := Forall2 (fun p q => fst p = fst q /\ same_kind (snd p) (snd q)) fs fs'.
Lemma kind_refl : forall v, same_kind v v.
Proof. intros []; exact Logic.I. Qed.
Lemma kind_sym : forall v w, same_kind v w -> same_kind w v.
Proof. intros [] []; cbn; auto. Qed.
Lemma flags_refl : forall fs, same_flags fs fs.
Proof. intros fs. induction fs; constructor; [split; [reflexivity|apply kind_refl]|assumption]. Qed.
Lemma flags_sym : forall fs fs', same_flags fs fs' -> same_flags fs' fs.
Proof. intros fs fs' F. induction F as [|p q a b (E & K) F IH]; constructor; [split; [congruence|apply kind_sym; exact K]|exact IH]. Qed.
Lemma flags_names : forall fs fs', same_flags fs fs' -> map fst fs = map fst fs'.
Proof. intros fs fs' F. induction F as [|p q a b (E & K) F IH]; [reflexivity|]. cbn [map]. congruence. Qed.
Lemma reads_kind : forall old s v, reads old s v -> same_kind old v.
Proof. intros old s v R. destruct R; exact Logic.I. Qed.
Lemma flags_in : forall fs fs' name v, same_flags fs fs' -> In (name, v) fs -> exists w, In (name, w) fs' /\ same_kind v w.
Proof.
  intros fs fs' name v F. induction F as [|(k & x) (k' & y) a b (E & K) F IH]; intros I; [destruct I|]. cbn [fst snd] in E, K. destruct I as [I|I].
  - exists y. assert (k = name /\ x = v) by (split; congruence). destruct H as (-> & ->). subst k'. split; [left; reflexivity|exact K].
  - destruct (IH I) as (w & I' & K'). exists w. split; [right; exact I'|exact K'].
Qed.
Lemma assign_same : forall fs name old v, In (name, old) fs -> NoDup (map fst fs) -> same_kind old v -> same_flags fs (assign name v fs).
Proof.
  intros fs name old v. induction fs as [|(k & w) r IH]; intros I ND K; [destruct I|]. cbn [assign]. cbn [map fst] in ND. inversion ND as [|? ? NI ND']; subst.
  destruct (str_eqb name k) eqn:Q.
  - apply str_eqb_eq in Q. subst k. constructor; [|apply flags_refl]. split; [reflexivity|]. cbn [snd]. destruct I as [I|I]; [congruence|]. exfalso. apply NI. apply in_map_iff. exists (name, old). auto.
  - constructor; [split; [reflexivity|apply kind_refl]|]. apply IH; [|exact ND'|exact K]. destruct I as [I|I]; [|exact I]. exfalso. assert (k = name) by congruence. subst k. rewrite str_eqb_refl in Q. discriminate.
Qed.
Lemma given_kind : forall old old' name s a, same_kind old old' -> given old name s a -> given old' name s a.
Proof.
  intros old old' name s a K G. destruct G as [d s D|d s D NB|d b D B].
  - apply given_eq. exact D.
  - apply given_next; [exact D|]. intros b ->. destruct old; cbn in K; try contradiction. exact (NB _ eq_refl).
  - subst old. destruct old' as [| |b']; cbn in K; try contradiction. apply (given_bool _ _ d b' D eq_refl).
Qed.
Lemma reads_same : forall old old' s v, same_kind old old' -> reads old s v -> reads old' s v.
Proof. intros old old' s v K R. destruct R; destruct old'; cbn in K; try contradiction; constructor; assumption. Qed.
Lemma line_same : forall fs fs' items args rest, same_flags fs fs' -> line fs items args rest -> line fs' items args rest.
Proof.
  intros fs fs' items args rest F L. induction L as [rest|name old s v a items args rest I G R L IH]; [constructor|].
  destruct (flags_in _ _ _ _ F I) as (w & I' & K). apply (line_item fs' name w s v); [exact I'|apply (given_kind old); assumption|apply (reads_same old); assumption|exact IH].
Qed.
Lemma well_same : forall fs fs', same_flags fs fs' -> well_defined fs -> well_defined fs'.
Proof. intros fs fs' F W. unfold well_defined in *. rewrite <- (flags_names _ _ F). exact W. Qed.

(** All items *)
Definition assigns (items : list (str * value)) (fs : flagset) : flagset := fold_left (fun fs '(n, v) => assign n v fs) items fs.
Lemma given_len : forall old name s a, given old name s a -> (1 <= List.length a)%nat.
Proof. intros old name s a G. destruct G; cbn; lia. Qed.
Lemma parse_ok : forall fuel fs args, well_defined fs -> (List.length args < fuel)%nat ->
  exists p, parse_flags fuel fs args = Some p /\
  match p with
  | Flags fs' rest => exists items tail, line fs items args tail /\ others tail rest /\ fs' = assigns items fs
  | Exit n => exists items a r, line fs items args (a :: r) /\ ((n = 0 /\ help a) \/ (n = 2 /\ ~ help a /\ parseOne (assigns items fs) (a :: r) = Fail))
  end.
Proof.
  induction fuel as [|fuel IH]; intros fs args W L; [lia|]. cbn [parse_flags]. destruct (parseOne fs args) as [fs' args'|rest| |] eqn:P.
  - destruct (more_given fs W _ _ _ P) as (name & old & s & v & a & I & G & R & -> & ->).
    assert (SF : same_flags fs (assign name v fs)) by (apply (assign_same fs name old v I); [apply W|apply (reads_kind old s v R)]).
    pose proof (given_len _ _ _ _ G). rewrite app_length in L. destruct (IH (assign name v fs) args' (well_same _ _ SF W) ltac:(lia)) as (p & E & X). exists p. split; [exact E|]. destruct p as [fs2 rest|n].
    + destruct X as (items & tail & LN & O & ->). exists ((name, v) :: items), tail. split; [|split; [exact O|reflexivity]]. apply (line_item fs name old s v a items args' tail I G R). apply (line_same _ _ _ _ _ (flags_sym _ _ SF) LN).
    + destruct X as (items & x & r & LN & O). exists ((name, v) :: items), x, r. split; [|exact O]. apply (line_item fs name old s v a items args' _ I G R). apply (line_same _ _ _ _ _ (flags_sym _ _ SF) LN).
  - exists (Flags fs rest). split; [reflexivity|]. exists [], args. split; [constructor|]. split; [apply (stop_iff fs args rest); exact P|reflexivity].
  - exists (Exit 2). split; [reflexivity|]. destruct args as [|a r]; [discriminate|]. exists [], a, r. split; [constructor|]. right. split; [reflexivity|]. split; [|exact P].
    intros HA. pose proof (proj2 (help_iff fs W (a :: r)) (ex_intro _ a (ex_intro _ r (conj eq_refl HA)))). congruence.
  - exists (Exit 0). split; [reflexivity|]. apply (help_iff fs W) in P. destruct P as (a & r & -> & HA). exists [], a, r. split; [constructor|]. left. auto.
Qed.
Lemma line_parse : forall items fs args tail, line fs items args tail -> well_defined fs -> forall fuel p, (List.length args < fuel)%nat -> parse_flags fuel fs args = Some p ->
  exists fuel', (List.length tail < fuel')%nat /\ parse_flags fuel' (assigns items fs) tail = Some p /\ same_flags fs (assigns items fs).
Proof.
  induction items as [|(n0 & v0) items IH]; intros fs args tail LN W fuel p L P.
  - inversion LN; subst. exists fuel. auto using flags_refl.
  - inversion LN as [|name old s v a its args' rest I G R LN' E1 E2 E3]; subst. destruct fuel as [|fuel]; [lia|]. cbn [parse_flags] in P.
    rewrite (given_more fs W n0 old s v0 a args' I G R) in P.
    assert (SF : same_flags fs (assign n0 v0 fs)) by (apply (assign_same fs n0 old v0 I); [apply W|apply (reads_kind old s v0 R)]).
    pose proof (given_len _ _ _ _ G). rewrite app_length in L.
    destruct (IH _ _ _ (line_same _ _ _ _ _ SF LN') (well_same _ _ SF W) fuel p ltac:(lia) P) as (f' & A & B & C). exists f'. split; [exact A|]. split; [exact B|].
    clear - SF C. unfold same_flags in *. change (assigns ((n0, v0) :: items) fs) with (assigns items (assign n0 v0 fs)). revert C. generalize (assigns items (assign n0 v0 fs)).
    induction SF as [|p q x y (E & K) SF IH]; intros l C; inversion C as [|p' q' x' y' (E' & K') C']; subst; constructor; [|apply IH; assumption].
    split; [congruence|]. destruct (snd p), (snd q), (snd q'); cbn in *; auto.
Qed.

(** What the flags are in the end. *)
Lemma assign_in : forall fs n v name w, NoDup (map fst fs) -> In n (map fst fs) -> (In (name, w) (assign n v fs) <-> (name = n /\ w = v) \/ (name <> n /\ In (name, w) fs)).
Proof.
  intros fs n v name w. induction fs as [|(k & x) r IH]; intros ND I; [destruct I|]. cbn [map fst] in ND, I. inversion ND as [|? ? NI ND']; subst. cbn [assign]. destruct (str_eqb n k) eqn:Q.
  - apply str_eqb_eq in Q. subst k. split.
    + intros [E|J]; [left; split; congruence|]. right. split; [|right; exact J]. intros ->. apply NI. apply in_map_iff. exists (n, w). auto.
    + intros [(-> & ->)|(NE & [E|J])]; [left; reflexivity|exfalso; congruence|right; exact J].
  - assert (NK : n <> k) by (intros ->; rewrite str_eqb_refl in Q; discriminate). destruct I as [I|I]; [congruence|]. cbn [In]. rewrite (IH ND' I). split.
    + intros [E|[X|(NE & J)]]; [right; split; [congruence|left; exact E]|left; exact X|right; auto].
    + intros [X|(NE & [E|J])]; auto.
Qed.
Lemma assigns_setting : forall items fs, NoDup (map fst fs) -> Forall (fun n => In n (map fst fs)) (map fst items) ->
  map fst (assigns items fs) = map fst fs /\ forall name v, In (name, v) (assigns items fs) <-> setting fs items name v.
Proof.
  assert (NM : forall n v fs, map fst (assign n v fs) = map fst fs).
  { intros n v fs. induction fs as [|(k & w) r IH]; [reflexivity|]. cbn [assign]. destruct (str_eqb n k); cbn [map fst]; [reflexivity|]. rewrite IH. reflexivity. }
  induction items as [|(n & v) items IH] using rev_ind; intros fs ND F.
  - split; [reflexivity|]. intros name v. unfold setting. split; [intros I; right; split; [intros []|exact I]|]. intros [(b & a & E & _)|(_ & I)]; [destruct b; discriminate|exact I].
  - rewrite map_app in F. apply Forall_app in F. destruct F as (F & Fn). destruct (IH fs ND F) as (N0 & S0). unfold assigns in *. rewrite fold_left_app. cbn [fold_left].
    split; [rewrite NM; exact N0|]. intros name w. rewrite assign_in; [|rewrite N0; exact ND|rewrite N0; exact (Forall_inv Fn)]. rewrite S0. clear S0 N0 IH. unfold setting. split.
    + intros [(-> & ->)|(NE & [(b & a & -> & NI)|(NI & I)])].
      * left. exists items, []. split; [reflexivity|intros []].
      * left. exists b, (a ++ [(n, v)]). split; [rewrite <- app_assoc; reflexivity|]. rewrite map_app. intros J. apply in_app_iff in J. destruct J as [J|[J|[]]]; [contradiction|cbn in J; congruence].
      * right. split; [|exact I]. rewrite map_app. intros J. apply in_app_iff in J. destruct J as [J|[J|[]]]; [contradiction|cbn in J; congruence].
    + intros [(b & a & E & NI)|(NI & I)].
      * destruct a as [|x a] using rev_ind.
        -- apply app_inj_tail in E. destruct E as (-> & E). left. split; congruence.
        -- clear IHa. rewrite app_comm_cons, app_assoc in E. apply app_inj_tail in E. destruct E as (-> & <-). rewrite map_app in NI. right. split; [intros ->; apply NI; apply in_app_iff; right; left; reflexivity|].
           left. exists b, a. split; [reflexivity|]. intros J. apply NI. apply in_app_iff. left. exact J.
      * rewrite map_app in NI. right. split; [intros ->; apply NI; apply in_app_iff; right; left; reflexivity|]. right. split; [intros J; apply NI; apply in_app_iff; left; exact J|exact I].
Qed.
Lemma line_names : forall fs items args rest, line fs items args rest -> Forall (fun n => In n (map fst fs)) (map fst items).
Proof. intros fs items args rest L. induction L as [|name old s v a items args rest I G R L IH]; constructor; [apply in_map_iff; exists (name, old); auto|exact IH]. Qed.
Lemma flags_ext : forall fs fs' : flagset, map fst fs = map fst fs' -> NoDup (map fst fs) -> (forall n v, In (n, v) fs <-> In (n, v) fs') -> fs = fs'.
Proof.
  induction fs as [|(k & v) r IH]; intros [|(k' & v') r'] E ND S; [reflexivity|discriminate|discriminate|]. cbn [map fst] in E, ND. assert (k' = k) by congruence. subst k'. assert (ER : map fst r = map fst r') by congruence.
  inversion ND as [|? ? NI ND']; subst. assert (v' = v). { destruct (proj1 (S k v) (or_introl eq_refl)) as [X|X]; [congruence|]. exfalso. apply NI. rewrite ER. apply in_map_iff. exists (k, v). auto. }
  subst v'. f_equal. apply IH; [exact ER|exact ND'|]. intros n w. split; intros I.
  - destruct (proj1 (S n w) (or_intror I)) as [X|X]; [|exact X]. exfalso. apply NI. apply in_map_iff. exists (n, w). split; [cbn; congruence|exact I].
  - destruct (proj2 (S n w) (or_intror I)) as [X|X]; [|exact X]. exfalso. apply NI. rewrite ER. apply in_map_iff. exists (n, w). split; [cbn; congruence|exact I].
Qed.

Theorem flags_iff : forall defs args fs rest, well_defined defs ->
  (Parse defs args = Some (Flags fs rest) <-> exists items tail, line defs items args tail /\ others tail rest /\ map fst fs = map fst defs /\ forall name v, In (name, v) fs <-> setting defs items name v).
Proof.
  intros defs args fs rest W. unfold Parse. split.
  - intros P. destruct (parse_ok (S (List.length args)) defs args W ltac:(lia)) as (p & E & X). rewrite P in E. injection E as <-. destruct X as (items & tail & L & O & ->).
    exists items, tail. split; [exact L|]. split; [exact O|]. apply assigns_setting; [apply W|exact (line_names _ _ _ _ L)].
  - intros (items & tail & L & O & NM & ST). destruct (parse_ok (S (List.length args)) defs args W ltac:(lia)) as (p & E & _).
    destruct (line_parse items defs args tail L W _ p (Nat.lt_succ_diag_r _) E) as (f & LF & P & SF). destruct f as [|f]; [lia|]. cbn [parse_flags] in P.
    rewrite (proj2 (stop_iff (assigns items defs) tail rest) O) in P. rewrite E, <- P. do 2 f_equal.
    destruct (assigns_setting items defs (proj1 W) (line_names _ _ _ _ L)) as (N' & S'). apply flags_ext; [congruence|rewrite N'; apply W|]. intros n v. rewrite S', ST. reflexivity.
Qed.
Theorem help_exits : forall defs args, well_defined defs -> (Parse defs args = Some (Exit 0) <-> exists items a r, line defs items args (a :: r) /\ help a).
Proof.
  intros defs args W. unfold Parse. split.
  - intros P. destruct (parse_ok (S (List.length args)) defs args W ltac:(lia)) as (p & E & X). rewrite P in E. injection E as <-. destruct X as (items & a & r & L & [(_ & HA)|(X & _)]); [|discriminate]. exists items, a, r. auto.
  - intros (items & a & r & L & HA). destruct (parse_ok (S (List.length args)) defs args W ltac:(lia)) as (p & E & _).
    destruct (line_parse items defs args _ L W _ p (Nat.lt_succ_diag_r _) E) as (f & LF & P & SF). destruct f as [|f]; [lia|]. cbn [parse_flags] in P.
    rewrite (proj2 (help_iff (assigns items defs) (well_same _ _ SF W) (a :: r)) (ex_intro _ a (ex_intro _ r (conj eq_refl HA)))) in P. congruence.
Qed.
Theorem always_ends : forall defs args, well_defined defs -> exists p, Parse defs args = Some p /\ forall n, p = Exit n -> n = 0 \/ n = 2.
Proof.
  intros defs args W. destruct (parse_ok (S (List.length args)) defs args W ltac:(lia)) as (p & E & X). exists p. split; [exact E|]. intros n ->. destruct X as (_ & _ & _ & _ & [(-> & _)|(-> & _)]); auto.
Qed.

(** hound *)
Lemma options_well : forall host, well_defined (options host).
Proof.
  intros host. unfold options, well_defined. cbn [map fst]. split; [|split; [|split]].
  - repeat (constructor; [cbn; intuition discriminate|]). constructor.
  - repeat (constructor; [split; [discriminate|]; split; [cbn; intuition discriminate|intros r E; cbn in E; discriminate]|]). constructor.
  - cbn. intuition discriminate.
  - cbn. intuition discriminate.
Qed.
Lemma options_are : forall host, hound_flags host = options host.
Proof. reflexivity. Qed.
Lemma kinds_final : forall defs items args tail fs, well_defined defs -> line defs items args tail -> map fst fs = map fst defs -> (forall name v, In (name, v) fs <-> setting defs items name v) -> same_flags defs fs.
Proof.
  intros defs items args tail fs W L N S. destruct (parse_ok (Datatypes.S (List.length args)) defs args W ltac:(lia)) as (p & E & _).
  destruct (line_parse items defs args tail L W _ p (Nat.lt_succ_diag_r _) E) as (f & LF & P & SF).
  destruct (assigns_setting items defs (proj1 W) (line_names _ _ _ _ L)) as (N' & S'). replace fs with (assigns items defs); [exact SF|]. apply flags_ext; [congruence|rewrite N'; apply W|]. intros n v. rewrite S', S. reflexivity.
Qed.
Lemma value_here : forall fs name v, NoDup (map fst fs) -> In (name, v) fs -> lookup name fs = Some v.
Proof. intros fs name v ND I. apply lookup_in; assumption. Qed.
Theorem hound_asks : forall host args a, hound host args = Some (Asks a) <-> says host args a.
Proof.
  intros host args a. unfold hound. rewrite options_are. pose proof (options_well host) as W. split.
  - intros E. destruct (Parse (options host) args) as [[fs rest|n]|] eqn:P; cbn [bind] in E; [|discriminate|discriminate].
    destruct rest as [|pat [|x rest]]; [discriminate| |discriminate]. injection E as <-. apply flags_iff in P; [|exact W]. destruct P as (items & tail & L & O & NM & ST).
    pose proof (kinds_final _ _ _ _ _ W L NM ST) as K. exists items, tail. split; [exact L|]. split; [exact O|]. cbn [a_host a_repos a_files a_context a_case a_stats a_grep]. cbv zeta.
    assert (ND : NoDup (map fst fs)) by (rewrite NM; apply W).
    assert (V : forall name v, In (name, v) (options host) -> exists w, lookup name fs = Some w /\ same_kind v w /\ setting (options host) items name w).
    { intros name v I. destruct (flags_in _ _ _ _ K I) as (w & I' & KW). exists w. split; [apply lookup_in; assumption|]. split; [exact KW|apply ST; exact I']. }
    unfold the_str, the_int, the_bool. change f_host with (text "host"). change f_repos with (text "repos"). change f_files with (text "files"). change f_context with (text "context").
    change f_ignore_case with (text "ignore-case"). change f_show_stats with (text "show-stats"). change f_like_grep with (text "like-grep").
    destruct (V (text "host") (VStr host)) as ([?|?|?] & -> & KK & S1); [cbn; tauto| |destruct KK|destruct KK].
    destruct (V (text "repos") (VStr (text "*"))) as ([?|?|?] & -> & KK2 & S2); [cbn; tauto| |destruct KK2|destruct KK2].
    destruct (V (text "files") (VStr [])) as ([?|?|?] & -> & KK3 & S3); [cbn; tauto| |destruct KK3|destruct KK3].
    destruct (V (text "context") (VInt 2)) as ([?|?|?] & -> & KK4 & S4); [cbn; tauto|destruct KK4| |destruct KK4].
    destruct (V (text "ignore-case") (VBool false)) as ([?|?|?] & -> & KK5 & S5); [cbn; tauto|destruct KK5|destruct KK5|].
    destruct (V (text "show-stats") (VBool false)) as ([?|?|?] & -> & KK6 & S6); [cbn; tauto|destruct KK6|destruct KK6|].
    destruct (V (text "like-grep") (VBool false)) as ([?|?|?] & -> & KK7 & S7); [cbn; tauto|destruct KK7|destruct KK7|].
    auto 10.
  - intros (items & tail & L & O & S1 & S2 & S3 & S4 & S5 & S6 & S7).
    destruct (assigns_setting items (options host) (proj1 W) (line_names _ _ _ _ L)) as (N' & S'). set (fs := assigns items (options host)) in *.
    assert (P : Parse (options host) args = Some (Flags fs [a_pattern a])) by (apply flags_iff; [exact W|]; exists items, tail; auto).
    assert (ND : NoDup (map fst fs)) by (rewrite N'; apply W).
    assert (V : forall name v, setting (options host) items name v -> lookup name fs = Some v) by (intros name v X; apply lookup_in; [exact ND|apply S'; exact X]).
    rewrite P. cbn [bind]. unfold the_str, the_int, the_bool. change f_host with (text "host"). change f_repos with (text "repos"). change f_files with (text "files"). change f_context with (text "context").
    change f_ignore_case with (text "ignore-case"). change f_show_stats with (text "show-stats"). change f_like_grep with (text "like-grep").
    rewrite (V _ _ S1), (V _ _ S2), (V _ _ S3), (V _ _ S4), (V _ _ S5), (V _ _ S6), (V _ _ S7). destruct a; reflexivity.
Qed.
(** Otherwise *)
Theorem hound_else : forall host args, exists e, hound host args = Some e /\
  (e = Exits 0 <-> exists items a r, line (options host) items args (a :: r) /\ help a) /\
  (e = Usage <-> exists items tail rest, line (options host) items args tail /\ others tail rest /\ List.length rest <> 1%nat) /\
  (forall n, e = Exits n -> n = 0 \/ n = 2).
Proof.
  intros host args. unfold hound. rewrite options_are. pose proof (options_well host) as W. destruct (always_ends (options host) args W) as (p & P & X). rewrite P. cbn [bind].
  pose proof (help_exits (options host) args W) as HE. rewrite P in HE. destruct p as [fs rest|n].
  - pose proof (proj1 (flags_iff (options host) args fs rest W) P) as (items & tail & L & O & NM & ST).
    assert (UQ : forall items tail rest', line (options host) items args tail -> others tail rest' -> rest' = rest).
    { intros its tl r' L' O'. destruct (assigns_setting its (options host) (proj1 W) (line_names _ _ _ _ L')) as (N' & S').
      assert (P' : Parse (options host) args = Some (Flags (assigns its (options host)) r')) by (apply flags_iff; [exact W|]; exists its, tl; auto). congruence. }
    assert (NH : ~ exists items a r, line (options host) items args (a :: r) /\ help a) by (intros Q; apply HE in Q; discriminate).
    assert (U : List.length rest <> 1%nat -> exists items tail rest, line (options host) items args tail /\ others tail rest /\ List.length rest <> 1%nat) by (intros LR; exists items, tail, rest; auto).
    assert (U' : (exists items tail rest, line (options host) items args tail /\ others tail rest /\ List.length rest <> 1%nat) -> List.length rest <> 1%nat).
    { intros (i & t & r & A & B & C). rewrite <- (UQ i t r A B). exact C. }
    destruct rest as [|pat [|y rest]].
    + exists Usage. split; [reflexivity|]. split; [split; [discriminate|intros Q; contradiction]|]. split; [split; [intros _; apply U; discriminate|reflexivity]|discriminate].
    + eexists. split; [reflexivity|]. split; [split; [discriminate|intros Q; contradiction]|]. split; [split; [discriminate|intros Q; destruct (U' Q); reflexivity]|discriminate].
    + exists Usage. split; [reflexivity|]. split; [split; [discriminate|intros Q; contradiction]|]. split; [split; [intros _; apply U; discriminate|reflexivity]|discriminate].
  - exists (Exits n). split; [reflexivity|]. split; [rewrite <- HE; split; congruence|]. split; [|intros m E; injection E as <-; apply X; reflexivity].
    split; [discriminate|]. intros (items & tail & rest & L & O & _). exfalso.
    destruct (assigns_setting items (options host) (proj1 W) (line_names _ _ _ _ L)) as (N' & S').
    assert (P' : Parse (options host) args = Some (Flags (assigns items (options host)) rest)) by (apply flags_iff; [exact W|]; exists items, tail; auto). congruence.
Qed.
(** Any pattern can be asked for. *)
Theorem hound_any : forall host h repos files c ctx pattern, int_text c ctx -> forall (ic st : bool),
  hound host ([text "-host=" ++ h; text "-repos=" ++ repos; text "--files"; files; text "-context"; c] ++ (if ic then [text "-ignore-case"] else []) ++ (if st then [text "-show-stats"] else []) ++ [text "--"; pattern]) =
  Some (Asks (mkAsks pattern h repos files ctx ic st false)).
Proof.
  intros host h repos files c ctx pattern IT ic st. apply hound_asks.
  set (items := [(text "host", VStr h); (text "repos", VStr repos); (text "files", VStr files); (text "context", VInt ctx)] ++ (if ic then [(text "ignore-case", VBool true)] else []) ++ (if st then [(text "show-stats", VBool true)] else [])).
  exists items, [text "--"; pattern]. split; [|split; [left; reflexivity|]].
  - unfold items. cbn [app].
    apply (line_item _ (text "host") (VStr host) h (VStr h) [text "-host=" ++ h]); [cbn; tauto|apply (given_eq (VStr host) (text "host") (text "-") h); left; reflexivity|constructor|].
    apply (line_item _ (text "repos") (VStr (text "*")) repos (VStr repos) [text "-repos=" ++ repos]); [cbn; tauto|apply (given_eq (VStr (text "*")) (text "repos") (text "-") repos); left; reflexivity|constructor|].
    apply (line_item _ (text "files") (VStr []) files (VStr files) [text "--files"; files]); [cbn; tauto|apply (given_next (VStr []) (text "files") (text "--") files); [right; reflexivity|discriminate]|constructor|].
    apply (line_item _ (text "context") (VInt 2) c (VInt ctx) [text "-context"; c]); [cbn; tauto|apply (given_next (VInt 2) (text "context") (text "-") c); [left; reflexivity|discriminate]|constructor; exact IT|].
    assert (TT : bool_text (text "true") true) by (cbn; tauto).
    assert (LS : line (options host) (if st then [(text "show-stats", VBool true)] else []) ((if st then [text "-show-stats"] else []) ++ [text "--"; pattern]) [text "--"; pattern]).
    { destruct st; [|constructor]. apply (line_item _ (text "show-stats") (VBool false) (text "true") (VBool true) [text "-show-stats"]); [cbn; tauto|apply (given_bool (VBool false) (text "show-stats") (text "-") false); [left; reflexivity|reflexivity]|constructor; exact TT|constructor]. }
    destruct ic; [|exact LS]. apply (line_item _ (text "ignore-case") (VBool false) (text "true") (VBool true) [text "-ignore-case"]); [cbn; tauto|apply (given_bool (VBool false) (text "ignore-case") (text "-") false); [left; reflexivity|reflexivity]|constructor; exact TT|exact LS].
  - cbn [a_host a_repos a_files a_context a_case a_stats a_grep]. cbv zeta.
    assert (GIVEN : forall b n v a, items = b ++ (n, v) :: a -> ~ In n (map fst a) -> setting (options host) items n v) by (intros b n v a E NI; left; exists b, a; auto).
    assert (DEF : forall n v, ~ In n (map fst items) -> In (n, v) (options host) -> setting (options host) items n v) by (intros n v NI I; right; auto).
    split; [apply (GIVEN [] (text "host") (VStr h) (skipn 1 items)); [reflexivity|unfold items; destruct ic, st; cbn; intuition discriminate]|].
    split; [apply (GIVEN (firstn 1 items) (text "repos") (VStr repos) (skipn 2 items)); [reflexivity|unfold items; destruct ic, st; cbn; intuition discriminate]|].
    split; [apply (GIVEN (firstn 2 items) (text "files") (VStr files) (skipn 3 items)); [reflexivity|unfold items; destruct ic, st; cbn; intuition discriminate]|].
    split; [apply (GIVEN (firstn 3 items) (text "context") (VInt ctx) (skipn 4 items)); [reflexivity|unfold items; destruct ic, st; cbn; intuition discriminate]|].
    split; [|split].
    + destruct ic; [apply (GIVEN (firstn 4 items) (text "ignore-case") (VBool true) (skipn 5 items)); [reflexivity|unfold items; destruct st; cbn; intuition discriminate]|].
      apply DEF; [unfold items; destruct st; cbn; intuition discriminate|cbn; tauto].
    + destruct st; [|apply DEF; [unfold items; destruct ic; cbn; intuition discriminate|cbn; tauto]].
      destruct ic; [apply (GIVEN (firstn 5 items) (text "show-stats") (VBool true) []); [reflexivity|intros []]|apply (GIVEN (firstn 4 items) (text "show-stats") (VBool true) []); [reflexivity|intros []]].
    + apply DEF; [unfold items; destruct ic, st; cbn; intuition discriminate|cbn; tauto].
Qed.

(** houndd *)
Lemma server_well : well_defined server_options.
Proof.
  unfold server_options, well_defined. cbn [map fst]. split; [|split; [|split]].
  - repeat (constructor; [cbn; intuition discriminate|]). constructor.
  - repeat (constructor; [split; [discriminate|]; split; [cbn; intuition discriminate|intros r E; cbn in E; discriminate]|]). constructor.
  - cbn. intuition discriminate.
  - cbn. intuition discriminate.
Qed.
Lemma server_reads : forall args fs rest, Parse houndd_flags args = Some (Flags fs rest) ->
  server_says args rest (the_str f_conf fs) (the_str f_addr fs) (the_bool f_dev fs) (the_bool f_version fs).
Proof.
  intros args fs rest. change houndd_flags with server_options. pose proof server_well as W.
  intros P. apply flags_iff in P; [|exact W]. destruct P as (items & tail & L & O & NM & ST). pose proof (kinds_final _ _ _ _ _ W L NM ST) as K.
  assert (ND : NoDup (map fst fs)) by (rewrite NM; apply W).
  assert (V : forall name v, In (name, v) server_options -> exists w, lookup name fs = Some w /\ same_kind v w /\ setting server_options items name w).
  { intros name v I. destruct (flags_in _ _ _ _ K I) as (w & I' & KW). exists w. split; [apply lookup_in; assumption|]. split; [exact KW|apply ST; exact I']. }
  unfold the_str, the_bool. change f_conf with (text "conf"). change f_addr with (text "addr"). change f_dev with (text "dev"). change f_version with (text "version").
  destruct (V (text "conf") (VStr (text "config.json"))) as ([c|?|?] & -> & KK & S1); [cbn; tauto| |destruct KK|destruct KK].
  destruct (V (text "addr") (VStr (text ":6080"))) as ([a|?|?] & -> & KK2 & S2); [cbn; tauto| |destruct KK2|destruct KK2].
  destruct (V (text "dev") (VBool false)) as ([?|?|d] & -> & KK3 & S3); [cbn; tauto|destruct KK3|destruct KK3|].
  destruct (V (text "version") (VBool false)) as ([?|?|v] & -> & KK4 & S4); [cbn; tauto|destruct KK4|destruct KK4|].
  exists items, tail. cbv zeta. auto 10.
Qed.
Theorem houndd_starts : forall args conf addr dev, houndd args = Some (Starts conf addr dev) <-> exists rest, server_says args rest conf addr dev false.
Proof.
  intros args conf addr dev. unfold houndd. split.
  - intros E. destruct (Parse houndd_flags args) as [[fs rest|n]|] eqn:P; cbn [bind] in E; [|discriminate|discriminate]. apply server_reads in P. destruct (the_bool f_version fs); [discriminate|]. assert (X : Starts conf addr dev = Starts (the_str f_conf fs) (the_str f_addr fs) (the_bool f_dev fs)) by congruence. injection X as X1 X2 X3. exists rest. congruence.
  - intros (rest & S). destruct S as (items & tail & L & O & S1 & S2 & S3 & S4). pose proof server_well as W.
    destruct (assigns_setting items server_options (proj1 W) (line_names _ _ _ _ L)) as (N' & S').
    assert (P : Parse server_options args = Some (Flags (assigns items server_options) rest)) by (apply flags_iff; [exact W|]; exists items, tail; auto).
    change houndd_flags with server_options. rewrite P. cbn [bind].
    assert (ND : NoDup (map fst (assigns items server_options))) by (rewrite N'; apply W).
    assert (V : forall name v, setting server_options items name v -> lookup name (assigns items server_options) = Some v) by (intros name v X; apply lookup_in; [exact ND|apply S'; exact X]).
    unfold the_str, the_bool. change f_conf with (text "conf"). change f_addr with (text "addr"). change f_dev with (text "dev"). change f_version with (text "version").
    rewrite (V _ _ S1), (V _ _ S2), (V _ _ S3), (V _ _ S4). reflexivity.
Qed.
