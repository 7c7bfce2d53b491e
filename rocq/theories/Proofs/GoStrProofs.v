(** Go's string functions meet their descriptions. *)
From Verif Require Import Model.Base Model.Utf8 Model.GoStr Spec.ApiSpec Proofs.StrLemmas.
Local Open Scope N_scope.

Lemma has_prefix_iff : forall p s, has_prefix s p = true <-> exists x, s = p ++ x.
Proof.
  induction p as [|c p IH]; intros s.
  - split; [intros _; exists s; reflexivity|]. intros _. destruct s; reflexivity.
  - destruct s as [|d s]; [split; [discriminate|intros (x & H); discriminate]|].
    cbn [has_prefix]. rewrite andb_true_iff, N.eqb_eq, IH. split.
    + intros (-> & x & ->). exists x. reflexivity.
    + intros (x & H). injection H as -> ->. split; [reflexivity|]. exists x. reflexivity.
Qed.

Lemma has_suffix_iff : forall s p, has_suffix s p = true <-> exists x, s = x ++ p.
Proof.
  intros s p. unfold has_suffix. rewrite has_prefix_iff. split.
  - intros (x & E). exists (rev x). rewrite <- (rev_involutive s), E, rev_app_distr, rev_involutive. reflexivity.
  - intros (x & ->). exists (rev x). apply rev_app_distr.
Qed.

(** Numbers. *)
Definition dval (n : N) (s : str) : N := fold_left (fun n c => 10 * n + (c - 48)) s n.

Lemma dval_mono : forall s n, n <= dval n s.
Proof.
  induction s as [|c s IH]; intros n; cbn [dval fold_left]; [lia|].
  specialize (IH (10 * n + (c - 48))). unfold dval in IH. lia.
Qed.

Lemma parse_digits_ok : forall maxVal s n, maxVal < 2 ^ 64 -> n <= maxVal -> forall v,
  parse_digits maxVal n s = Some v <-> Forall digit s /\ v = dval n s /\ v <= maxVal.
Proof.
  intros maxVal. induction s as [|c s IH]; intros n MX LE v; cbn [parse_digits].
  - cbn [dval fold_left]. split.
    + intros H. injection H as <-. auto.
    + intros (_ & -> & _). reflexivity.
  - change (dval n (c :: s)) with (dval (10 * n + (c - 48)) s).
    destruct ((48 <=? c) && (c <=? 57)) eqn:D.
    2:{ split; [discriminate|]. intros (F & _). apply Forall_inv in F. unfold digit in F.
        apply andb_false_iff in D. rewrite !N.leb_gt in D. lia. }
    apply andb_true_iff in D. rewrite !N.leb_le in D.
    assert (DG : digit c) by (unfold digit; lia).
    pose proof (dval_mono s (10 * n + (c - 48))) as MO.
    unfold cutoff. change ((2 ^ 64 - 1) / 10 + 1) with 1844674407370955162.
    change (2 ^ 64) with 18446744073709551616 in *.
    destruct (N.leb_spec 1844674407370955162 n) as [CL|CL].
    { split; [discriminate|]. intros (_ & -> & L). lia. }
    unfold u64. change (2 ^ 64) with 18446744073709551616.
    rewrite (N.mod_small (n * 10)) by lia.
    destruct (N.ltb_spec (n * 10 + (c - 48)) 18446744073709551616) as [SM|SM].
    + rewrite (N.mod_small (n * 10 + (c - 48))) by lia.
      destruct (N.ltb_spec (n * 10 + (c - 48)) (n * 10)); [lia|]. cbn [orb].
      destruct (N.ltb_spec maxVal (n * 10 + (c - 48))) as [G|G].
      * split; [discriminate|]. intros (_ & -> & L). lia.
      * replace (n * 10 + (c - 48)) with (10 * n + (c - 48)) in * by lia.
        rewrite IH by lia. split; [intros (F & E & L)|intros (F & E & L)]; (split; [|split; assumption]).
        -- constructor; assumption.
        -- inversion F; assumption.
    + assert (MW : (n * 10 + (c - 48)) mod 18446744073709551616 = n * 10 + (c - 48) - 18446744073709551616).
      { symmetry. apply (N.mod_unique _ _ 1); lia. }
      rewrite MW. destruct (N.ltb_spec (n * 10 + (c - 48) - 18446744073709551616) (n * 10)); [|lia].
      cbn [orb]. split; [discriminate|]. intros (_ & -> & L). lia.
Qed.

Lemma parse_uint_ok : forall s bits, 0 < bits <= 64 -> forall v,
  parse_uint s bits = Some v <-> decimal s v /\ v < 2 ^ bits.
Proof.
  intros s bits B v. assert (P : 0 < 2 ^ bits) by (apply N.neq_0_lt_0, N.pow_nonzero; lia).
  assert (P64 : 2 ^ bits <= 2 ^ 64) by (apply N.pow_le_mono_r; lia).
  unfold decimal. destruct s as [|c s].
  - cbn [parse_uint]. split; [discriminate|]. intros ((H & _) & _). contradiction.
  - unfold parse_uint. rewrite parse_digits_ok by (change (2 ^ 64) with 18446744073709551616 in *; lia). fold (dval 0 (c :: s)).
    split.
    + intros (F & E & L). repeat split; try assumption; [discriminate|lia].
    + intros ((_ & F & E) & L). repeat split; try assumption. lia.
Qed.

Lemma decimal_fun : forall s v v', decimal s v -> decimal s v' -> v = v'.
Proof. intros s v v' (_ & _ & ->) (_ & _ & ->). reflexivity. Qed.

Lemma parse_int_ok : forall s z, parse_int s = Some z <-> signed s z /\ int64_range z.
Proof.
  intros s z. unfold parse_int, signed, int64_range.
  assert (P63 : (2 ^ 63 = 9223372036854775808)%N) by reflexivity.
  assert (Z63 : (2 ^ 63 = 9223372036854775808)%Z) by reflexivity.
  assert (P64 : (2 ^ 64 = 18446744073709551616)%N) by reflexivity.
  assert (U : forall d v, parse_uint d 64 = Some v <-> decimal d v /\ v < 2 ^ 64)
    by (intros; apply parse_uint_ok; lia).
  assert (NS : forall d v, decimal (43 :: d) v -> False).
  { intros d v (_ & F & _). apply Forall_inv in F. unfold digit in F. lia. }
  assert (NM : forall d v, decimal (45 :: d) v -> False).
  { intros d v (_ & F & _). apply Forall_inv in F. unfold digit in F. lia. }
  assert (CASES : forall (neg : bool) d,
    match parse_uint d 64 with
    | Some un => if negb neg && (2 ^ 63 <=? un) then None else if neg && (2 ^ 63 <? un) then None
                 else Some (if neg then - Z.of_N un else Z.of_N un)%Z
    | None => None
    end = Some z <->
    exists v, decimal d v /\ z = (if neg then - Z.of_N v else Z.of_N v)%Z /\ (- 2 ^ 63 <= z < 2 ^ 63)%Z).
  { intros neg d. rewrite P63, Z63. destruct (parse_uint d 64) as [un|] eqn:E.
    - apply U in E. destruct E as [D L]. destruct neg; cbn [negb andb].
      + destruct (N.ltb_spec 9223372036854775808 un).
        * split; [discriminate|]. intros (v & D' & -> & R). rewrite (decimal_fun _ _ _ D' D) in R. lia.
        * split; [intros H0; injection H0 as <-; exists un; split; [exact D|]; split; [reflexivity|lia]|].
          intros (v & D' & -> & R). rewrite (decimal_fun _ _ _ D' D). reflexivity.
      + destruct (N.leb_spec 9223372036854775808 un).
        * split; [discriminate|]. intros (v & D' & -> & R). rewrite (decimal_fun _ _ _ D' D) in R. lia.
        * split; [intros H0; injection H0 as <-; exists un; split; [exact D|]; split; [reflexivity|lia]|].
          intros (v & D' & -> & R). rewrite (decimal_fun _ _ _ D' D). reflexivity.
    - split; [discriminate|]. intros (v & D & -> & R). destruct (N.ltb_spec v (2 ^ 64)).
      + assert (parse_uint d 64 = Some v) by (apply U; auto). congruence.
      + exfalso. rewrite P64 in *. destruct neg; lia. }
  assert (PLAIN : (forall d, s <> 43 :: d) -> (forall d, s <> 45 :: d) ->
    ((exists v, decimal s v /\ z = Z.of_N v /\ (- 2 ^ 63 <= z < 2 ^ 63)%Z) <->
     (exists v, decimal s v /\ z = Z.of_N v \/ (exists d, decimal d v /\ (s = 43 :: d /\ z = Z.of_N v \/ s = 45 :: d /\ z = (- Z.of_N v)%Z))) /\
     (- 2 ^ 63 <= z < 2 ^ 63)%Z)).
  { intros N1 N2. split.
    - intros (v & D & E & R). split; [exists v; left; auto|exact R].
    - intros ((v & [[D E]|(d & _ & [[E _]|[E _]])]) & R); [exists v; auto|exfalso; eapply N1; exact E|exfalso; eapply N2; exact E]. }
  destruct s as [|c d].
  - rewrite (CASES false []). apply PLAIN; discriminate.
  - destruct (N.eq_dec c 43) as [->|N1]; [|destruct (N.eq_dec c 45) as [->|N2]].
    + rewrite (CASES false d). split.
      * intros (v & D & E & R). split; [exists v; right; exists d; auto|exact R].
      * intros ((v & [[D E]|(d' & D & [[E1 E2]|[E1 E2]])]) & R); [exfalso; eapply NS; exact D| |discriminate].
        injection E1 as <-. exists v. auto.
    + rewrite (CASES true d). split.
      * intros (v & D & E & R). split; [exists v; right; exists d; auto|exact R].
      * intros ((v & [[D E]|(d' & D & [[E1 E2]|[E1 E2]])]) & R); [exfalso; eapply NM; exact D|discriminate|].
        injection E1 as <-. exists v. auto.
    + assert (EQ : (let '(neg, d0) := match c :: d with 43 :: r => (false, r) | 45 :: r => (true, r) | _ => (false, c :: d) end in
                    match parse_uint d0 64 with
                    | Some un => if negb neg && (2 ^ 63 <=? un) then None else if neg && (2 ^ 63 <? un) then None
                                 else Some (if neg then - Z.of_N un else Z.of_N un)%Z
                    | None => None end) = 
                    match parse_uint (c :: d) 64 with
                    | Some un => if negb false && (2 ^ 63 <=? un) then None else if false && (2 ^ 63 <? un) then None
                                 else Some (if false then - Z.of_N un else Z.of_N un)%Z
                    | None => None end).
      { destruct c as [|p]; [reflexivity|].
        do 6 (try (destruct p as [p|p|]; try reflexivity)); congruence. }
      rewrite EQ, (CASES false (c :: d)). apply PLAIN; congruence.
Qed.

(** Splitting. *)
Lemma index_byte_some : forall s c i, index_byte s c = Some i ->
  s = firstn i s ++ c :: skipn (i + 1) s /\ ~ In c (firstn i s).
Proof.
  induction s as [|x s IH]; intros c i H; cbn [index_byte] in H; [discriminate|].
  destruct (N.eqb_spec x c) as [->|NE].
  - injection H as <-. split; [reflexivity|]. intros [].
  - destruct (index_byte s c) as [j|] eqn:E; [|discriminate]. injection H as <-.
    destruct (IH c j E) as [E1 E2]. cbn [firstn Nat.add skipn app]. split; [f_equal; exact E1|].
    intros [H|H]; [congruence|contradiction].
Qed.
Lemma index_byte_none : forall s c, index_byte s c = None <-> ~ In c s.
Proof.
  induction s as [|x s IH]; intros c; cbn [index_byte]; [split; [intros _ []|reflexivity]|].
  destruct (N.eqb_spec x c) as [->|NE].
  - split; [discriminate|]. intros H. exfalso. apply H. left. reflexivity.
  - destruct (index_byte s c) as [j|] eqn:E; cbn [option_map].
    + split; [discriminate|]. intros H. exfalso.
      assert (X : index_byte s c = None) by (apply IH; intros I; apply H; right; exact I). congruence.
    + split; [|reflexivity]. intros _ [H|H]; [congruence|]. apply (proj1 (IH c) E). exact H.
Qed.
Lemma last_index_some : forall s c i, last_index_byte s c = Some i ->
  s = firstn i s ++ c :: skipn (i + 1) s /\ ~ In c (skipn (i + 1) s) /\ (i < length s)%nat.
Proof.
  induction s as [|x s IH]; intros c i H; cbn [last_index_byte] in H; [discriminate|].
  destruct (last_index_byte s c) as [j|] eqn:E.
  - injection H as <-. destruct (IH c j E) as (E1 & E2 & E3). cbn [firstn Nat.add skipn app length].
    split; [f_equal; exact E1|]. split; [exact E2|lia].
  - destruct (N.eqb_spec x c) as [->|NE]; [|discriminate]. injection H as <-. cbn [firstn skipn Nat.add app length].
    split; [reflexivity|]. split; [|lia]. clear IH. revert E. induction s as [|y s IH]; cbn [last_index_byte]; intros E; [intros []|].
    destruct (last_index_byte s c); [discriminate|]. destruct (N.eqb_spec y c); [discriminate|].
    intros [H|H]; [contradiction|]. apply IH in H; [exact H|reflexivity].
Qed.
Lemma last_index_none : forall s c, last_index_byte s c = None <-> ~ In c s.
Proof.
  induction s as [|x s IH]; intros c; cbn [last_index_byte]; [split; [intros _ []|reflexivity]|].
  destruct (last_index_byte s c) as [j|] eqn:E.
  - split; [discriminate|]. intros H. exfalso.
    assert (X : last_index_byte s c = None) by (apply IH; intros I; apply H; right; exact I). congruence.
  - apply IH in E. destruct (N.eqb_spec x c) as [->|NE].
    + split; [discriminate|]. intros H. exfalso. apply H. left. reflexivity.
    + split; [|reflexivity]. intros _ [H|H]; [contradiction|]. contradiction.
Qed.

Lemma split_cons : forall s c, exists f fs, split s c = f :: fs.
Proof.
  induction s as [|x s IH]; intros c; cbn [split]; [eauto|].
  destruct (x =? c); [eauto|]. destruct (IH c) as (f & fs & ->). eauto.
Qed.

(** The head of the split runs to the first separator. *)
Lemma split_head : forall s c f fs, split s c = f :: fs ->
  ~ In c f /\ exists b, s = f ++ b /\ (b = [] \/ exists b', b = c :: b') /\
    (forall g, In g fs <-> exists b', b = c :: b' /\ In g (split b' c)).
Proof.
  induction s as [|x s IH]; intros c f fs H; cbn [split] in H.
  - injection H as <- <-. split; [intros []|]. exists []. split; [reflexivity|]. split; [left; reflexivity|].
    intros g. split; [intros []|]. intros (b' & E & _). discriminate.
  - destruct (N.eqb_spec x c) as [->|NE].
    + injection H as <- <-. split; [intros []|]. exists (c :: s). split; [reflexivity|].
      split; [right; exists s; reflexivity|]. intros g. split.
      * intros I. exists s. auto.
      * intros (b' & E & I). injection E as <-. exact I.
    + destruct (split_cons s c) as (f' & fs' & E). rewrite E in H. injection H as <- <-.
      destruct (IH c f' fs' E) as (N & b & -> & B & G). split; [intros [H|H]; [congruence|contradiction]|].
      exists b. split; [reflexivity|]. split; [exact B|exact G].
Qed.

Lemma split_element : forall n s name, (length s <= n)%nat -> (In name (split s 44) <-> element s name).
Proof.
  induction n as [|n IH]; intros s name L; destruct (split_cons s 44) as (f & fs & E); rewrite E;
    destruct (split_head s 44 f fs E) as (NI & b & ES & B & G); cbn [In].
  - destruct s; [|cbn in L; lia]. cbn in E. injection E as <- <-. split.
    + intros [<-|[]]. split; [intros []|]. exists [], []. auto.
    + intros (_ & x & y & EE & _). destruct x; [|discriminate]. destruct name; [left; reflexivity|discriminate].
  - split.
    + intros [<-|I].
      * split; [exact NI|]. exists [], b. auto.
      * apply G in I. destruct I as (b' & -> & I). apply IH in I.
        2:{ subst s. rewrite app_length in L. cbn in L. lia. }
        destruct I as (N & x & y & EE & A & Y). split; [exact N|]. exists (f ++ 44 :: x), y.
        split; [subst s; rewrite EE, <- app_assoc; reflexivity|]. split; [right|exact Y].
        destruct A as [->|(a' & ->)]; [exists f; reflexivity|]. exists (f ++ 44 :: a').
        rewrite <- app_assoc. reflexivity.
    + intros (N & x & y & EE & A & Y). destruct A as [->|(a' & ->)].
      * left. cbn [app] in EE. rewrite ES in EE. destruct (app_eq_app _ _ _ _ EE) as (l & [[E1 E2]|[E1 E2]]).
        -- destruct l as [|c0 l]; [rewrite app_nil_r in E1; exact E1|]. exfalso.
           destruct Y as [->|(y' & ->)]; [discriminate|]. injection E2 as <- _. apply NI. rewrite E1.
           apply in_or_app. right. left. reflexivity.
        -- destruct l as [|c0 l]; [rewrite app_nil_r in E1; symmetry; exact E1|]. exfalso.
           destruct B as [->|(b' & ->)]; [discriminate|]. injection E2 as <- _. apply N. rewrite E1.
           apply in_or_app. right. left. reflexivity.
      * right. apply G. rewrite ES, <- !app_assoc in EE. cbn [app] in EE.
        (* the separator before name lies at or after the end of f *)
        destruct (app_eq_app _ _ _ _ EE) as (l & [[E1 E2]|[E1 E2]]).
        -- destruct l as [|c0 l].
           ++ cbn [app] in E2. symmetry in E2. destruct B as [->|(b' & ->)]; [discriminate|]. exists b'. split; [reflexivity|].
              injection E2 as E2. apply IH.
              { subst s. rewrite app_length in L. cbn in L. lia. }
              split; [exact N|]. exists [], y. auto.
           ++ exfalso. injection E2 as <- _. apply NI. rewrite E1. apply in_or_app. right. left. reflexivity.
        -- destruct B as [->|(b' & ->)]; [destruct l; discriminate|]. exists b'. split; [reflexivity|].
           apply IH.
           { subst s. rewrite app_length in L. cbn in L. lia. }
           split; [exact N|]. destruct l as [|c0 l].
           ++ injection E2 as E2. exists [], y. auto.
           ++ injection E2 as _ E2. exists (l ++ [44]), y. split; [rewrite <- app_assoc; exact E2|].
              split; [right; exists l; reflexivity|exact Y].
Qed.

(** Trimming. *)
Definition wcat (set : list bytes) (s : str) : Prop := exists cs, Forall (fun c => In c set) cs /\ s = concat cs.

Lemma drop_set_ok : forall set, Forall (fun c => c <> []) set -> forall fuel s, (length s <= fuel)%nat ->
  (exists a, s = a ++ drop_set set fuel s /\ wcat set a) /\
  forall c x, In c set -> drop_set set fuel s <> c ++ x.
Proof.
  intros set NE. induction fuel as [|fuel IH]; intros s L.
  - destruct s; [|cbn in L; lia]. cbn [drop_set]. split.
    + exists []. split; [reflexivity|]. exists []. auto.
    + intros c x I H. rewrite Forall_forall in NE. apply (NE c I). destruct c; [reflexivity|discriminate].
  - cbn [drop_set]. destruct (find (fun c => has_prefix s c) set) as [c|] eqn:F.
    + apply find_some in F. destruct F as [I P]. apply has_prefix_iff in P. destruct P as (x & ->).
      rewrite skipn_app, skipn_all, Nat.sub_diag, skipn_O. cbn [app].
      assert (C : c <> []) by (rewrite Forall_forall in NE; apply NE; exact I).
      destruct (IH x) as ((a & E & cs & FC & ->) & N).
      { rewrite app_length in L. destruct c; [contradiction|]. cbn [length] in L. lia. }
      split; [|exact N]. exists (c ++ concat cs). split; [rewrite <- app_assoc; f_equal; exact E|].
      exists (c :: cs). split; [constructor; assumption|reflexivity].
    + split; [exists []; split; [reflexivity|exists []; auto]|]. intros c x I ->.
      apply (find_none _ _ F) in I. rewrite (proj2 (has_prefix_iff c (c ++ x))) in I; [discriminate|]. eauto.
Qed.

Lemma spaces_runes : spaces = map encode_rune space_runes.
Proof. vm_compute. reflexivity. Qed.

Lemma white_wcat : forall s, white s <-> wcat spaces s.
Proof.
  intros s. rewrite spaces_runes. split.
  - intros (rs & F & ->). exists (map encode_rune rs). split; [|reflexivity].
    induction F; constructor; [apply in_map; assumption|assumption].
  - intros (cs & F & ->). revert F. induction cs as [|c cs IH]; intros F.
    + exists []. split; [constructor|reflexivity].
    + inversion F as [|? ? H1 H2]; subst. apply in_map_iff in H1. destruct H1 as (r & <- & I).
      destruct (IH H2) as (rs & F' & E). exists (r :: rs). split; [constructor; assumption|].
      cbn [concat]. rewrite E. reflexivity.
Qed.

(** Facts about the table. *)
Lemma spaces_nonempty : Forall (fun c => c <> []) spaces.
Proof. unfold spaces. repeat constructor; discriminate. Qed.
Lemma spaces_tail : Forall (fun c => Forall (fun b => 0x80 <= b < 0xC0) (tl c)) spaces.
Proof. unfold spaces. repeat (constructor; [cbn [tl]; repeat (constructor; [lia|]); constructor|]). constructor. Qed.
Lemma spaces_head : Forall (fun c => match c with b :: _ => ~ (0x80 <= b < 0xC0) | [] => False end) spaces.
Proof. unfold spaces. repeat (constructor; [lia|]). constructor. Qed.
Lemma spaces_prefix_free : forall c d x y, In c spaces -> In d spaces -> c ++ x = d ++ y -> c = d.
Proof.
  assert (B : forallb (fun c => forallb (fun d => negb (has_prefix c d) || str_eqb c d) spaces) spaces = true)
    by (vm_compute; reflexivity).
  assert (P : forall c d l, In c spaces -> In d spaces -> c = d ++ l -> c = d).
  { intros c d l Ic Id E. rewrite forallb_forall in B. specialize (B c Ic). rewrite forallb_forall in B.
    specialize (B d Id). rewrite (proj2 (has_prefix_iff d c)) in B by eauto. apply str_eqb_eq. exact B. }
  intros c d x y Ic Id E. destruct (app_eq_app _ _ _ _ E) as (l & [[E1 _]|[E1 _]]).
  - eapply P; eassumption.
  - symmetry. eapply P; eassumption.
Qed.

Lemma white_head : forall b, wcat spaces b -> b = [] \/ exists x r, b = x :: r /\ ~ (0x80 <= x < 0xC0).
Proof.
  intros b (cs & F & ->). destruct F as [|c cs I F]; [left; reflexivity|right].
  pose proof spaces_head as H. rewrite Forall_forall in H. specialize (H c I).
  destruct c as [|x c]; [contradiction|]. exists x, (c ++ concat cs). split; [reflexivity|exact H].
Qed.

(** If text followed by white space starts with a space, the text does. *)
Lemma white_boundary : forall w b c rest, w ++ b = c ++ rest -> In c spaces -> w <> [] -> wcat spaces b ->
  exists l, w = c ++ l /\ rest = l ++ b.
Proof.
  intros w b c rest E I NE W. destruct (app_eq_app _ _ _ _ E) as (l & [[E1 E2]|[E1 E2]]).
  - exists l. auto.
  - destruct l as [|x l]; [exists []; rewrite app_nil_r in *; cbn [app] in *; auto|]. exfalso.
    destruct (white_head b W) as [->|(y & r & -> & NY)]; [discriminate|].
    injection E2 as -> ->. pose proof spaces_tail as T. rewrite Forall_forall in T. specialize (T c I).
    rewrite E1 in T. destruct w as [|z w]; [contradiction|]. cbn [app tl] in T. rewrite Forall_forall in T.
    apply NY. apply T. apply in_or_app. right. left. reflexivity.
Qed.

Lemma cancel_prefix : forall a x, wcat spaces a -> wcat spaces (a ++ x) -> wcat spaces x.
Proof.
  intros a x (cs & F & ->). induction F as [|c cs I F IH]; cbn [concat app]; [auto|].
  intros (ds & G & E). apply IH. destruct G as [|d ds Id G].
  - pose proof spaces_nonempty as NE. rewrite Forall_forall in NE. specialize (NE c I).
    destruct c; [contradiction|discriminate].
  - cbn [concat] in E. rewrite <- app_assoc in E. pose proof (spaces_prefix_free _ _ _ _ I Id E). subst d.
    apply app_inv_head in E. exists ds. auto.
Qed.

Lemma cancel_suffix : forall x b, wcat spaces b -> wcat spaces (x ++ b) -> wcat spaces x.
Proof.
  intros x b WB (ds & G & E). revert x E. induction G as [|d ds Id G IH]; intros x E; cbn [concat] in E.
  - destruct x; [|discriminate]. exists []. auto.
  - destruct x as [|x0 x]; [exists []; auto|].
    destruct (white_boundary (x0 :: x) b d (concat ds) E Id ltac:(discriminate) WB) as (l & -> & E2).
    symmetry in E2. destruct (IH l E2) as (cs & F & ->). exists (d :: cs). split; [constructor; assumption|reflexivity].
Qed.

Lemma white_unclean : forall l, wcat spaces l -> l <> [] -> exists c x, In c spaces /\ l = c ++ x.
Proof.
  intros l (cs & F & ->) NE. destruct F as [|c cs I F]; [contradiction|]. exists c, (concat cs). auto.
Qed.
Lemma white_unclean_right : forall l, wcat spaces l -> l <> [] -> exists c x, In c spaces /\ l = x ++ c.
Proof.
  intros l (cs & F & ->) NE. destruct (rev cs) as [|c r] eqn:R.
  - apply (f_equal (@rev _)) in R. rewrite rev_involutive in R. subst cs. contradiction.
  - apply (f_equal (@rev _)) in R. rewrite rev_involutive in R. cbn [rev] in R. subst cs.
    exists c, (concat (rev r)). rewrite Forall_forall in F. split; [apply F; apply in_or_app; right; left; reflexivity|].
    rewrite concat_app. cbn [concat]. rewrite app_nil_r. reflexivity.
Qed.

Definition clean (w : str) : Prop := forall c x, In c spaces -> w <> c ++ x /\ w <> x ++ c.

Lemma trimmed_iff : forall v w, trimmed v w <->
  (exists a b, v = a ++ w ++ b /\ wcat spaces a /\ wcat spaces b) /\ clean w.
Proof.
  intros v w. unfold trimmed, clean. split; intros ((a & b & E & A & B) & C).
  - split; [exists a, b; rewrite <- !white_wcat; auto|]. intros c x I. rewrite spaces_runes in I.
    apply in_map_iff in I. destruct I as (r & <- & I). apply C. exact I.
  - split; [exists a, b; rewrite !white_wcat; auto|]. intros r x I. apply C. rewrite spaces_runes. apply in_map. exact I.
Qed.

Lemma trim_ordered : forall a1 w1 b1 w2 b2, wcat spaces a1 -> a1 ++ w1 ++ b1 = w2 ++ b2 ->
  wcat spaces b1 -> wcat spaces b2 -> clean w1 -> clean w2 -> w1 = w2.
Proof.
  assert (SAME : forall w1 b1 w2 b2 l, wcat spaces b1 -> wcat spaces b2 -> clean w1 -> w1 = w2 ++ l -> b2 = l ++ b1 -> w1 = w2).
  { intros w1 b1 w2 b2 l B1 B2 C1 E1 E2. destruct l as [|x l]; [rewrite app_nil_r in E1; exact E1|]. exfalso. subst b2.
    pose proof (cancel_suffix _ _ B1 B2) as WL. destruct (white_unclean_right _ WL ltac:(discriminate)) as (c & y & I & E).
    rewrite E, app_assoc in E1. exact (proj2 (C1 c (w2 ++ y) I) E1). }
  intros a1 w1 b1 w2 b2 A1 E B1 B2 C1 C2. destruct a1 as [|x a1].
  - cbn [app] in E. destruct (app_eq_app _ _ _ _ E) as (l & [[E1 E2]|[E1 E2]]).
    + eapply (SAME w1 b1 w2 b2 l); assumption.
    + symmetry. eapply (SAME w2 b2 w1 b1 l); assumption.
  - destruct (white_unclean _ A1 ltac:(discriminate)) as (c & y & I & EA).
    destruct w2 as [|z w2].
    + cbn [app] in E. subst b2.
      pose proof (cancel_suffix _ _ B1 (cancel_prefix _ _ A1 B2)) as W1.
      destruct w1 as [|u w1]; [reflexivity|]. exfalso.
      destruct (white_unclean _ W1 ltac:(discriminate)) as (c' & y' & I' & E'). exact (proj1 (C1 c' y' I') E').
    + exfalso. rewrite EA, <- app_assoc in E. symmetry in E.
      destruct (white_boundary _ _ _ _ E I ltac:(discriminate) B2) as (l & E1 & _). exact (proj1 (C2 c l I) E1).
Qed.

Lemma trimmed_unique : forall v w1 w2, trimmed v w1 -> trimmed v w2 -> w1 = w2.
Proof.
  intros v w1 w2 T1 T2. apply trimmed_iff in T1, T2.
  destruct T1 as ((a1 & b1 & E1 & A1 & B1) & C1). destruct T2 as ((a2 & b2 & E2 & A2 & B2) & C2).
  rewrite E1 in E2. destruct (app_eq_app _ _ _ _ E2) as (l & [[X1 X2]|[X1 X2]]).
  - subst a1. eapply trim_ordered; [eapply cancel_prefix; [exact A2|exact A1]|symmetry; exact X2|eassumption..].
  - subst a2. symmetry. eapply trim_ordered; [eapply cancel_prefix; [exact A1|exact A2]|symmetry; exact X2|eassumption..].
Qed.

Lemma rev_wcat : forall s, wcat (map (@rev N) spaces) s -> wcat spaces (rev s).
Proof.
  intros s (cs & F & ->). exists (rev (map (@rev N) cs)). split.
  - apply Forall_rev. induction F as [|c cs I F IH]; constructor; [|exact IH].
    apply in_map_iff in I. destruct I as (d & <- & I). rewrite rev_involutive. exact I.
  - clear F. induction cs as [|c cs IH]; [reflexivity|]. cbn [concat map rev].
    rewrite rev_app_distr, concat_app, IH. cbn [concat]. rewrite app_nil_r. reflexivity.
Qed.

Lemma trim_space_ok : forall v, trimmed v (trim_space v).
Proof.
  intros v. apply trimmed_iff. unfold trim_space, trim_right, trim_left.
  destruct (drop_set_ok spaces spaces_nonempty (length v) v (le_n _)) as ((a & E & A) & NP).
  set (u := drop_set spaces (length v) v) in *.
  assert (RNE : Forall (fun c : bytes => c <> []) (map (@rev N) spaces)).
  { unfold spaces. cbn [map rev app]. repeat constructor; discriminate. }
  destruct (drop_set_ok _ RNE (length u) (rev u) ltac:(rewrite rev_length; apply le_n)) as ((b & E' & B) & NS).
  set (w := drop_set (map (@rev N) spaces) (length u) (rev u)) in *.
  assert (EU : u = rev w ++ rev b).
  { rewrite <- (rev_involutive u), E', rev_app_distr. reflexivity. }
  split.
  - exists a, (rev b). split; [rewrite <- EU; exact E|]. split; [exact A|]. apply rev_wcat. exact B.
  - intros c x I. split.
    + intros EW. apply (NP c (x ++ rev b) I). rewrite EU, EW, <- app_assoc. reflexivity.
    + intros EW. apply (NS (rev c) (rev x)); [apply in_map; exact I|].
      rewrite <- (rev_involutive w), EW, rev_app_distr. reflexivity.
Qed.
