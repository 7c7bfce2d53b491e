(** Reading what was written. *)
From Verif Require Import Model.Base Model.GoFmt Model.JsonText Model.Json Spec.ApiSpec Spec.Utf8Spec Spec.JsonSpec
  Spec.JsonValueSpec Proofs.FmtProofs Proofs.JsonProofs.
Local Open Scope N_scope.

Section Ind.
  Variable P : jv -> Prop.
  Hypothesis Hnull : P VNull.
  Hypothesis Hbool : forall b, P (VBool b).
  Hypothesis Hnum : forall lit, P (VNum lit).
  Hypothesis Hstr : forall s, P (VStr s).
  Hypothesis Harr : forall l, Forall P l -> P (VArr l).
  Hypothesis Hobj : forall l, Forall (fun p => P (snd p)) l -> P (VObj l).
  Fixpoint jv_induction (v : jv) : P v :=
    match v with
    | VNull => Hnull
    | VBool b => Hbool b
    | VNum lit => Hnum lit
    | VStr s => Hstr s
    | VArr l => Harr l ((fix go l := match l return Forall P l with
        | [] => Forall_nil _ | x :: r => Forall_cons _ (jv_induction x) (go r) end) l)
    | VObj l => Hobj l ((fix go l := match l return Forall (fun p => P (snd p)) l with
        | [] => Forall_nil _ | x :: r => Forall_cons (P := fun p => P (snd p)) _ (jv_induction (snd x)) (go r) end) l)
    end.
End Ind.

Lemma fmt_d_number : forall z, number_text (fmt_d z).
Proof.
  intros z. unfold fmt_d. destruct (z <? 0)%Z.
  - exists [45], (fmt_uint (Z.to_N (- z))), [], []. destruct (fmt_uint_ok (Z.to_N (- z))) as [(A1 & A2 & _) B].
    rewrite !app_nil_r. split; [reflexivity|]. split; [right; reflexivity|]. split; [split; [exact A1|split; assumption]|]. split; left; reflexivity.
  - exists [], (fmt_uint (Z.to_N z)), [], []. destruct (fmt_uint_ok (Z.to_N z)) as [(A1 & A2 & _) B].
    rewrite !app_nil_r. split; [reflexivity|]. split; [left; reflexivity|]. split; [split; [exact A1|split; assumption]|]. split; left; reflexivity.
Qed.

(** What may follow a number. *)
Definition stop (rest : str) : Prop :=
  match rest with [] => True | c :: _ => is_digit c = false /\ c <> 46 /\ c <> 101 /\ c <> 69 end.

Lemma stop_digit : forall rest, stop rest -> match rest with [] => True | c :: _ => is_digit c = false end.
Proof. intros [|c r] S; [exact I|apply S]. Qed.
Lemma digits_app : forall d rest, Forall digit d -> match rest with [] => True | c :: _ => is_digit c = false end -> digits (d ++ rest) = (d, rest).
Proof.
  induction d as [|c d IH]; intros rest D S.
  - destruct rest as [|x r]; [reflexivity|]. cbn [app digits]. rewrite S. reflexivity.
  - cbn [app digits]. pose proof (Forall_inv D) as C. rewrite (IH rest (Forall_inv_tail D) S).
    unfold is_digit. unfold digit in C. rewrite (proj2 (N.leb_le _ _)), (proj2 (N.leb_le _ _)) by lia. reflexivity.
Qed.
Lemma some_digits_app : forall d rest, d <> [] -> Forall digit d -> match rest with [] => True | c :: _ => is_digit c = false end ->
  some_digits (d ++ rest) = Some (d, rest).
Proof. intros d rest NE D S. unfold some_digits. rewrite digits_app by assumption. destruct d; [congruence|reflexivity]. Qed.

Lemma exp_head : forall e rest, exp_text e -> stop rest ->
  match e ++ rest with [] => True | c :: _ => is_digit c = false /\ c <> 46 end.
Proof.
  intros e rest [->|(c & s & d & -> & C & _)] S; cbn [app].
  - destruct rest as [|x r]; [exact I|]. destruct S as (A & B & _). split; assumption.
  - destruct C as [->| ->]; split; [reflexivity|discriminate|reflexivity|discriminate].
Qed.
Lemma frac_head : forall f e rest, frac_text f -> exp_text e -> stop rest ->
  match f ++ e ++ rest with [] => True | c :: _ => is_digit c = false end.
Proof.
  intros f e rest [->|(d & -> & _)] E S; cbn [app]; [|reflexivity]. pose proof (exp_head e rest E S) as H.
  destruct (e ++ rest); [exact I|apply H].
Qed.
Lemma exp_read : forall e rest, exp_text e -> stop rest -> read_exp (e ++ rest) = Some (e, rest).
Proof.
  intros e rest [->|(c & s & d & -> & C & S & NE & D)] ST; unfold read_exp; cbn [app].
  - destruct rest as [|x r]; [reflexivity|]. destruct ST as (_ & _ & A & B).
    rewrite (proj2 (N.eqb_neq _ _) A), (proj2 (N.eqb_neq _ _) B). reflexivity.
  - replace ((c =? 101) || (c =? 69)) with true by (destruct C as [->| ->]; reflexivity).
    rewrite <- app_assoc. pose proof (some_digits_app d rest NE D (stop_digit _ ST)) as R.
    destruct S as [->|[->| ->]]; cbn [app].
    + destruct d as [|x d]; [congruence|]. cbn [app] in *. pose proof (Forall_inv D) as X. unfold digit in X.
      rewrite (proj2 (N.eqb_neq x 43)), (proj2 (N.eqb_neq x 45)) by lia. cbn [orb]. rewrite R. reflexivity.
    + change ((43 =? 43) || (43 =? 45)) with true. cbv iota. rewrite R. reflexivity.
    + change ((45 =? 43) || (45 =? 45)) with true. cbv iota. rewrite R. reflexivity.
Qed.
Lemma frac_read : forall f s, frac_text f -> match s with [] => True | c :: _ => is_digit c = false /\ c <> 46 end ->
  read_frac (f ++ s) = Some (f, s).
Proof.
  intros f s [->|(d & -> & NE & D)] S; unfold read_frac; cbn [app].
  - destruct s as [|c r]; [reflexivity|]. rewrite (proj2 (N.eqb_neq _ _) (proj2 S)). reflexivity.
  - rewrite N.eqb_refl. rewrite (some_digits_app d s NE D) by (destruct s; [exact I|apply S]). reflexivity.
Qed.
Lemma int_read_app : forall i s, int_text i -> match s with [] => True | c :: _ => is_digit c = false end -> read_int (i ++ s) = Some (i, s).
Proof.
  intros i s (NE & D & Z) S. pose proof (some_digits_app i s NE D S) as R. destruct i as [|c i]; [congruence|]. unfold read_int.
  cbn [app] in *. destruct (N.eqb_spec c 48) as [->|H]; [rewrite (Z i eq_refl); reflexivity|exact R].
Qed.
Lemma int_head : forall i, int_text i -> exists c r, i = c :: r /\ 48 <= c <= 57.
Proof. intros i (NE & D & _). destruct i as [|c r]; [congruence|]. exists c, r. split; [reflexivity|exact (Forall_inv D)]. Qed.
Lemma number_head : forall lit, number_text lit -> exists c r, lit = c :: r /\ (c = 45 \/ 48 <= c <= 57).
Proof.
  intros lit (sign & i & f & e & -> & S & I & _). destruct (int_head i I) as (c & r & -> & C).
  destruct S as [->| ->]; eexists _, _; (split; [reflexivity|]); [right; exact C|left; reflexivity].
Qed.

Lemma number_read : forall lit rest, number_text lit -> stop rest -> read_number (lit ++ rest) = Some (lit, rest).
Proof.
  intros lit rest (sign & i & f & e & -> & SG & I & F & E) S. unfold read_number.
  assert (H : match (sign ++ i ++ f ++ e) ++ rest with c :: r => if c =? 45 then ([c], r) else ([], (sign ++ i ++ f ++ e) ++ rest) | [] => ([], []) end
    = (sign, i ++ f ++ e ++ rest)).
  { destruct (int_head i I) as (c & r & -> & C). destruct SG as [->| ->]; cbn [app]; rewrite <- !app_assoc; [|reflexivity].
    rewrite (proj2 (N.eqb_neq c 45)) by lia. reflexivity. }
  rewrite H. clear H. rewrite (int_read_app i _ I (frac_head f e rest F E S)). cbn [bind].
  rewrite (frac_read f _ F (exp_head e rest E S)). cbn [bind]. rewrite (exp_read e rest E S). reflexivity.
Qed.

(** The first character of a value. *)
Definition starts (s : str) : Prop :=
  exists c r, s = c :: r /\ is_space c = false /\ c <> 93 /\ c <> 125 /\ c <> 44.
Lemma starts_skip : forall s t, starts s -> skip_space (s ++ t) = s ++ t.
Proof. intros s t (c & r & -> & H & _). cbn [app skip_space]. rewrite H. reflexivity. Qed.
Lemma print_starts : forall short v, writable v -> starts (print short v).
Proof.
  intros short v W. destruct W as [|b|lit N|s B|l F|l F]; cbn [print].
  - eexists _, _. split; [reflexivity|]. repeat split; discriminate.
  - destruct b; eexists _, _; (split; [reflexivity|]); repeat split; discriminate.
  - destruct (number_head lit N) as (c & r & -> & C). exists c, r. split; [reflexivity|]. split; [|repeat split; lia]. unfold is_space.
    rewrite !(proj2 (N.eqb_neq c _)) by lia. reflexivity.
  - eexists _, _. split; [reflexivity|]. repeat split; discriminate.
  - eexists _, _. split; [reflexivity|]. repeat split; discriminate.
  - eexists _, _. split; [reflexivity|]. repeat split; discriminate.
Qed.
Lemma starts_len : forall s, starts s -> (1 <= length s)%nat.
Proof. intros s (c & r & -> & _). cbn. lia. Qed.

Lemma strip_app : forall w rest, strip w (w ++ rest) = Some rest.
Proof. induction w as [|a w IH]; intros rest; [reflexivity|]. cbn [app strip]. rewrite N.eqb_refl. apply IH. Qed.

Definition reads (short : bool) (v : jv) : Prop := writable v -> forall fuel rest,
  (length (print short v) <= fuel)%nat -> (forall lit, v = VNum lit -> stop rest) ->
  exists v', parse fuel (print short v ++ rest) = Some (v', rest) /\ vreplaced v v'.

Lemma commas_cons : forall x y l, commas (x :: y :: l) = x ++ 44 :: commas (y :: l).
Proof. reflexivity. Qed.

Lemma stop_comma : forall r, stop (44 :: r). Proof. intros r. cbn. repeat split; discriminate. Qed.
Lemma stop_arr : forall r, stop (93 :: r). Proof. intros r. cbn. repeat split; discriminate. Qed.
Lemma stop_obj : forall r, stop (125 :: r). Proof. intros r. cbn. repeat split; discriminate. Qed.

Lemma items_read : forall short l, l <> [] -> Forall (reads short) l -> Forall writable l -> forall fuel rest,
  (length (commas (map (print short) l)) < fuel)%nat ->
  exists l', parse_items fuel (commas (map (print short) l) ++ 93 :: rest) = Some (l', rest) /\ Forall2 vreplaced l l'.
Proof.
  intros short. induction l as [|x l IH]; intros NE R W fuel rest L; [congruence|].
  destruct fuel as [|fuel]; [lia|]. pose proof (Forall_inv R) as Rx. pose proof (Forall_inv W) as Wx.
  destruct l as [|y l].
  - cbn [map commas] in *. cbn [parse_items].
    destruct (Rx Wx fuel (93 :: rest) ltac:(lia) ltac:(intros; apply stop_arr)) as (v' & E & V).
    rewrite E. cbn [bind skip_space is_space]. cbn. exists [v']. split; [reflexivity|]. constructor; [exact V|constructor].
  - cbn [map] in *. rewrite commas_cons in *. rewrite app_length in L. cbn [length] in L.
    destruct (IH ltac:(discriminate) (Forall_inv_tail R) (Forall_inv_tail W) fuel rest ltac:(lia)) as (l' & E' & V').
    rewrite <- app_assoc. cbn [app parse_items].
    destruct (Rx Wx fuel (44 :: commas (print short y :: map (print short) l) ++ 93 :: rest) ltac:(lia) ltac:(intros; apply stop_comma))
      as (v' & E & V).
    rewrite E. cbn [bind]. change (skip_space (44 :: ?s)) with (44 :: s). cbv iota beta. 
    change (44 =? 44) with true. cbv iota. rewrite E'. cbn [bind].
    exists (v' :: l'). split; [reflexivity|]. constructor; assumption.
Qed.

Definition member (short : bool) (p : str * jv) : str := json_literal short (fst p) ++ 58 :: print short (snd p).

Lemma members_read : forall short (l : list (str * jv)), l <> [] -> Forall (fun p => reads short (snd p)) l ->
  Forall (fun p => Forall is_byte (fst p) /\ writable (snd p)) l -> forall fuel rest,
  (length (commas (map (member short) l)) < fuel)%nat ->
  exists l', parse_members fuel (commas (map (member short) l) ++ 125 :: rest) = Some (l', rest) /\
    Forall2 (fun p p' => replaced (fst p) (fst p') /\ vreplaced (snd p) (snd p')) l l'.
Proof.
  intros short. induction l as [|[k x] l IH]; intros NE R W fuel rest L; [congruence|].
  destruct fuel as [|fuel]; [lia|]. pose proof (Forall_inv R) as Rx. pose proof (Forall_inv W) as [Bk Wx].
  cbn [fst snd] in *. assert (MK : member short (k, x) = json_literal short k ++ 58 :: print short x) by reflexivity.
  assert (SK : forall t, skip_space (json_literal short k ++ t) = json_literal short k ++ t) by reflexivity.
  destruct l as [|y l].
  - cbn [map commas] in *. rewrite MK in *. rewrite app_length in L. cbn [length] in L.
    rewrite <- app_assoc. cbn [parse_members app]. rewrite SK.
    destruct (literal_read short k (58 :: print short x ++ 125 :: rest) Bk) as (k' & E1 & K).
    rewrite E1. cbn [bind]. change (skip_space (58 :: ?s)) with (58 :: s). cbv iota beta. change (58 =? 58) with true. cbv iota.
    destruct (Rx Wx fuel (125 :: rest) ltac:(lia) ltac:(intros; apply stop_obj)) as (v' & E & V).
    rewrite E. cbn [bind]. change (skip_space (125 :: ?s)) with (125 :: s). cbn.
    exists [(k', v')]. split; [reflexivity|]. constructor; [split; assumption|constructor].
  - cbn [map] in *. rewrite commas_cons in *. rewrite MK in *. rewrite !app_length in L. cbn [length] in L.

    destruct (IH ltac:(discriminate) (Forall_inv_tail R) (Forall_inv_tail W) fuel rest ltac:(lia)) as (l' & E' & V').
    rewrite <- !app_assoc. cbn [app parse_members]. rewrite SK.
    match goal with |- context [json_literal short k ++ 58 :: print short x ++ 44 :: ?s] => set (more := s) in * end.
    destruct (literal_read short k (58 :: print short x ++ 44 :: more) Bk) as (k' & E1 & K).
    rewrite E1. cbn [bind]. change (skip_space (58 :: ?s)) with (58 :: s). cbv iota beta. change (58 =? 58) with true. cbv iota.
    destruct (Rx Wx fuel (44 :: more) ltac:(lia) ltac:(intros; apply stop_comma)) as (v' & E & V).
    rewrite E. cbn [bind]. change (skip_space (44 :: ?s)) with (44 :: s). cbv iota beta. change (44 =? 44) with true. cbv iota.
    rewrite E'. cbn [bind]. exists ((k', v') :: l'). split; [reflexivity|]. constructor; [split; assumption|assumption].
Qed.

Lemma value_read : forall short v, reads short v.
Proof.
  intros short. apply jv_induction.
  - intros _ fuel rest L _. destruct fuel as [|fuel]; [cbn in L; lia|]. exists VNull. split; [reflexivity|constructor].
  - intros b _ fuel rest L _. destruct fuel as [|fuel]; [destruct b; cbn in L; lia|]. exists (VBool b).
    split; [destruct b; reflexivity|constructor].
  - intros lit W fuel rest L ST. specialize (ST lit eq_refl). cbn [print] in *.
    assert (NT : number_text lit) by (inversion W; assumption).
    destruct fuel as [|fuel]. { destruct (print_starts short (VNum lit) W) as (c & r & E & _). cbn [print] in E. subst lit. cbn in L. lia. }
    cbn [parse]. rewrite (starts_skip lit rest (print_starts short (VNum lit) W)).
    pose proof (number_read lit rest NT ST) as R.
    destruct (number_head lit NT) as (c1 & r1 & -> & C1). cbn [app] in *.
    rewrite !(proj2 (N.eqb_neq c1 _)) by lia. rewrite R. cbn [bind]. eexists. split; [reflexivity|constructor].
  - intros s W fuel rest L _. cbn [print] in *. assert (B : Forall is_byte s) by (inversion W; assumption).
    destruct fuel as [|fuel]; [cbn in L; lia|]. destruct (literal_read short s rest B) as (s' & E & R).
    cbn [parse]. change (skip_space (json_literal short s ++ rest)) with (json_literal short s ++ rest).
    unfold json_literal in *. cbn [app] in *. rewrite N.eqb_refl. rewrite E. cbn [bind].
    eexists. split; [reflexivity|constructor; exact R].
  - intros l IH W fuel rest L _. cbn [print] in *. assert (WL : Forall writable l) by (inversion W; assumption).
    destruct fuel as [|fuel]; [cbn in L; lia|]. cbn [app length] in L. rewrite app_length in L. cbn [length] in L.
    cbn [app parse skip_space]. change (is_space 91) with false. cbv iota. change (91 =? 34) with false. change (91 =? 91) with true. cbv iota.
    rewrite <- app_assoc. cbn [app]. destruct l as [|x l].
    + cbn. exists (VArr []). split; [reflexivity|constructor; constructor].
    + destruct (items_read short (x :: l) ltac:(discriminate) IH WL fuel rest ltac:(lia)) as (l' & E & V).
      assert (ST : exists c t, commas (map (print short) (x :: l)) ++ 93 :: rest = c :: t /\ is_space c = false /\ c <> 93).
      { destruct (print_starts short x (Forall_inv WL)) as (c & t & Ex & A & B & _). cbn [map].
        destruct (map (print short) l) as [|y m]; [cbn [commas]|rewrite commas_cons]; rewrite Ex;
        eexists _, _; (split; [reflexivity|split; assumption]). }
      destruct ST as (c & t & Ec & A & B). rewrite Ec in *. cbn [skip_space]. rewrite A, (proj2 (N.eqb_neq _ _) B), E. cbn [bind].
      eexists. split; [reflexivity|constructor; exact V].
  - intros l IH W fuel rest L _. cbn [print] in *. change (fun p : str * jv => json_literal short (fst p) ++ 58 :: print short (snd p)) with (member short) in *.
    assert (WL : Forall (fun p => Forall is_byte (fst p) /\ writable (snd p)) l) by (inversion W; assumption).
    destruct fuel as [|fuel]; [cbn in L; lia|]. cbn [app length] in L. rewrite app_length in L. cbn [length] in L.
    cbn [app parse skip_space]. change (is_space 123) with false. cbv iota. change (123 =? 34) with false. change (123 =? 91) with false.
    change (123 =? 123) with true. cbv iota.
    rewrite <- app_assoc. cbn [app]. destruct l as [|x l].
    + cbn. exists (VObj []). split; [reflexivity|constructor; constructor].
    + destruct (members_read short (x :: l) ltac:(discriminate) IH WL fuel rest ltac:(lia)) as (l' & E & V).
      assert (ST : exists t, commas (map (member short) (x :: l)) ++ 125 :: rest = 34 :: t).
      { cbn [map]. destruct (map (member short) l) as [|y m]; [cbn [commas]|rewrite commas_cons]; eexists; reflexivity. }
      destruct ST as (t & Ec). rewrite Ec in *. cbn [skip_space]. change (is_space 34) with false. cbv iota.
      change (34 =? 125) with false. cbv iota. rewrite E. cbn [bind].
      eexists. split; [reflexivity|constructor; exact V].
Qed.

Theorem round_trip : forall short v rest, writable v -> (forall lit, v = VNum lit -> stop rest) ->
  exists v', decode_json (print short v ++ rest) = Some (v', rest) /\ vreplaced v v'.
Proof. intros short v rest W ST. apply (value_read short v W); [rewrite app_length; lia|exact ST]. Qed.

Lemma vreplaced_exact : forall v v', vreplaced v v' -> vvalid v -> v' = v.
Proof.
  apply (jv_induction (fun v => forall v', vreplaced v v' -> vvalid v -> v' = v)).
  - intros v' R _. inversion R. reflexivity.
  - intros b v' R _. inversion R. reflexivity.
  - intros lit v' R _. inversion R. reflexivity.
  - intros s v' R V. inversion R as [| | |a s' R'| |]; subst. inversion V; subst. f_equal. apply replaced_exact; assumption.
  - intros l IH v' R V. inversion R as [| | | |a l' R'|]; subst. clear R. f_equal.
    assert (VL : Forall vvalid l) by (inversion V; assumption). clear V.
    induction R' as [|x y a b Q _ IH2]; [reflexivity|].
    f_equal; [apply (Forall_inv IH); [exact Q|exact (Forall_inv VL)]|].
    apply IH2; [exact (Forall_inv_tail IH)|exact (Forall_inv_tail VL)].
  - intros l IH v' R V. inversion R as [| | | | |a l' R']; subst. clear R. f_equal.
    assert (VL : Forall (fun p => valid_utf8 (fst p) /\ vvalid (snd p)) l) by (inversion V; assumption). clear V.
    induction R' as [|[k x] [k' y] a b [K Q] _ IH2]; [reflexivity|]. cbn [fst snd] in *.
    pose proof (Forall_inv VL) as [U1 U2]. cbn [fst snd] in *.
    f_equal; [f_equal; [apply replaced_exact; assumption|apply (Forall_inv IH); assumption]|].
    apply IH2; [exact (Forall_inv_tail IH)|exact (Forall_inv_tail VL)].
Qed.
