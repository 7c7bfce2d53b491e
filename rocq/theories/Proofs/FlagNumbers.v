(** Numbers on the command line: strconv.ParseInt(s, 0, 64) and ParseBool. *)
From Coq Require Import String Ascii.
From Verif Require Import Model.Base Model.GoStr Model.CmdLine Spec.ApiSpec Spec.Names Spec.CmdLineSpec Proofs.StrLemmas.
From Coq Require Import Lia.
Local Open Scope N_scope.

(** Case *)
Lemma all_bytes : forall P : N -> bool, forallb P (map N.of_nat (seq 0 256)) = true -> forall c, c < 256 -> P c = true.
Proof.
  intros P F c L. rewrite forallb_forall in F. apply F. apply in_map_iff. exists (N.to_nat c). split; [lia|]. apply in_seq. lia.
Qed.
Lemma lower_big : forall c, 256 <= c -> 256 <= lower c.
Proof.
  intros c L. unfold lower. assert (X : 8 <= N.log2 c) by (apply N.log2_le_pow2; [lia|exact L]).
  apply (N.log2_le_pow2 _ 8).
  - destruct (N.lor c 32) eqn:E; [|lia]. apply N.lor_eq_0_iff in E. destruct E; discriminate.
  - rewrite N.log2_lor. lia.
Qed.
Definition is_letter (lo hi : N) (c : N) : bool := ((lo <=? c) && (c <=? hi)) || ((lo - 32 <=? c) && (c <=? hi - 32)).
Lemma lower_letters : forall c, ((97 <=? lower c) && (lower c <=? 122)) = is_letter 97 122 c.
Proof.
  intros c. destruct (N.ltb_spec c 256) as [L|L].
  - apply eqb_prop. revert c L. apply all_bytes. vm_compute. reflexivity.
  - pose proof (lower_big c L). unfold is_letter.
    repeat match goal with |- context [?a <=? ?b] => destruct (N.leb_spec a b) end; cbn [andb orb]; try reflexivity; lia.
Qed.
Lemma lower_hex : forall c, ((97 <=? lower c) && (lower c <=? 102)) = is_letter 97 102 c.
Proof.
  intros c. destruct (N.ltb_spec c 256) as [L|L].
  - apply eqb_prop. revert c L. apply all_bytes. vm_compute. reflexivity.
  - pose proof (lower_big c L). unfold is_letter.
    repeat match goal with |- context [?a <=? ?b] => destruct (N.leb_spec a b) end; cbn [andb orb]; try reflexivity; lia.
Qed.
Lemma lower_is : forall c x, In x [98; 111; 120] -> (lower c =? x) = (c =? x) || (c =? x - 32).
Proof.
  intros c x I. destruct (N.ltb_spec c 256) as [L|L].
  - apply eqb_prop. destruct I as [<-|[<-|[<-|[]]]]; revert c L; apply all_bytes; vm_compute; reflexivity.
  - pose proof (lower_big c L). destruct I as [<-|[<-|[<-|[]]]];
    repeat match goal with |- context [?a =? ?b] => destruct (N.eqb_spec a b) end; cbn [orb]; try reflexivity; lia.
Qed.
Lemma lower_letter : forall c, is_letter 97 122 c = true -> lower c = if c <=? 90 then c + 32 else c.
Proof.
  intros c L. assert (c < 256). { unfold is_letter in L. apply orb_prop in L. destruct L as [L|L]; apply andb_prop in L; destruct L as (_ & L); apply N.leb_le in L; lia. }
  assert (X : implb (is_letter 97 122 c) (lower c =? (if c <=? 90 then c + 32 else c)) = true).
  { clear L. revert c H. apply all_bytes. vm_compute. reflexivity. }
  rewrite L in X. apply N.eqb_eq. exact X.
Qed.
Lemma char_digit_ok : forall b c d, b <= 16 -> (char_digit c = Some d /\ d < b <-> in_base b c d).
Proof.
  intros b c d LB. unfold char_digit, in_base. destruct ((48 <=? c) && (c <=? 57)) eqn:D.
  - apply andb_prop in D. destruct D as (D1 & D2). apply N.leb_le in D1. apply N.leb_le in D2. split.
    + intros (E & L). injection E as E. split; [left; lia|exact L].
    + intros ([(A & ->)|[(A & ->)|(A & ->)]] & L); [split; [reflexivity|exact L]|lia|lia].
  - assert (ND : ~ 48 <= c <= 57). { intros (A & B). apply N.leb_le in A. apply N.leb_le in B. rewrite A, B in D. discriminate. }
    rewrite lower_letters. destruct (is_letter 97 122 c) eqn:L.
    + rewrite (lower_letter c L). unfold is_letter in L. split.
      * intros (E & LD). split; [|exact LD]. right. destruct (N.leb_spec c 90); [right|left].
        -- assert (X : c + 32 - 97 + 10 = d) by congruence. apply orb_prop in L. destruct L as [L|L]; apply andb_prop in L; destruct L as (L1 & L2); apply N.leb_le in L1; apply N.leb_le in L2; lia.
        -- assert (X : c - 97 + 10 = d) by congruence. apply orb_prop in L. destruct L as [L|L]; apply andb_prop in L; destruct L as (L1 & L2); apply N.leb_le in L1; apply N.leb_le in L2; lia.
      * intros ([(A & ->)|[(A & ->)|(A & ->)]] & LD); [lia| |]; (split; [|exact LD]); destruct (N.leb_spec c 90); f_equal; lia.
    + split; [intros (E & _); discriminate|]. intros ([(A & _)|[(A & _)|(A & _)]] & _); [lia| |]; exfalso; unfold is_letter in L; apply orb_false_iff in L; destruct L as (L1 & L2);
      apply andb_false_iff in L1; apply andb_false_iff in L2; rewrite !N.leb_gt in *; lia.
Qed.

(** The value *)
Definition more (b n : N) (ds : list N) : N := fold_left (fun n d => b * n + d) ds n.
Lemma more_cons : forall b n d ds, more b n (d :: ds) = more b (b * n + d) ds.
Proof. reflexivity. Qed.
Lemma more_ge : forall b ds n, 1 <= b -> n <= more b n ds.
Proof. intros b ds. induction ds as [|d ds IH]; intros n L; [cbn; lia|]. rewrite more_cons. specialize (IH (b * n + d) L). nia. Qed.
Definition good_base (b : N) : Prop := 2 <= b <= 16.
Lemma step_ok : forall b n d, good_base b -> d < b -> n < 2 ^ 64 ->
  (if (2 ^ 64 - 1) / b + 1 <=? n then None else let n := u64 (n * b) in let n1 := u64 (n + d) in if n1 <? n then None else Some n1) =
  (if b * n + d <? 2 ^ 64 then Some (b * n + d) else None).
Proof.
  intros b n d (B1 & B2) LD LN. assert (B0 : b <> 0) by lia. destruct (N.leb_spec ((2 ^ 64 - 1) / b + 1) n) as [G|G].
  - destruct (N.ltb_spec (b * n + d) (2 ^ 64)) as [X|X]; [|reflexivity]. exfalso.
    pose proof (N.mul_succ_div_gt (2 ^ 64 - 1) b B0). assert (b * N.succ ((2 ^ 64 - 1) / b) <= b * n) by (apply N.mul_le_mono_l; lia). lia.
  - cbv zeta. assert (LE : n * b <= 2 ^ 64 - 1). { pose proof (N.mul_div_le (2 ^ 64 - 1) b B0). assert (b * n <= b * ((2 ^ 64 - 1) / b)) by (apply N.mul_le_mono_l; lia). lia. }
    unfold u64. rewrite (N.mod_small (n * b)) by lia. destruct (N.ltb_spec (b * n + d) (2 ^ 64)) as [X|X].
    + rewrite N.mod_small by lia. destruct (N.ltb_spec (n * b + d) (n * b)); [lia|]. f_equal. lia.
    + assert (E : (n * b + d) mod 2 ^ 64 = n * b + d - 2 ^ 64). { symmetry. apply (N.mod_unique _ _ 1); lia. }
      rewrite E. destruct (N.ltb_spec (n * b + d - 2 ^ 64) (n * b)); [reflexivity|lia].
Qed.
Lemma loop_digit : forall b n us c r, good_base b -> n < 2 ^ 64 -> c <> 95 -> digits_loop b n us (c :: r) =
  match char_digit c with
  | Some d => if d <? b then if b * n + d <? 2 ^ 64 then digits_loop b (b * n + d) us r else None else None
  | None => None
  end.
Proof.
  intros b n us c r G LN NU. cbn [digits_loop]. destruct (N.eqb_spec c 95); [contradiction|]. destruct (char_digit c) as [d|]; [|reflexivity].
  destruct (N.leb_spec b d) as [X|X]; destruct (N.ltb_spec d b) as [Y|Y]; try lia; [reflexivity|].
  pose proof (step_ok b n d G Y LN) as S. cbv zeta in *. destruct ((2 ^ 64 - 1) / b + 1 <=? n).
  - destruct (b * n + d <? 2 ^ 64); [discriminate|reflexivity].
  - destruct (u64 (u64 (n * b) + d) <? u64 (n * b)); destruct (b * n + d <? 2 ^ 64); try discriminate; [reflexivity|]. injection S as ->. reflexivity.
Qed.
(** Digits and underscores as they come. *)
Inductive loose (b : N) : str -> list N -> Prop :=
| lo_nil : loose b [] []
| lo_digit : forall c d r ds, in_base b c d -> loose b r ds -> loose b (c :: r) (d :: ds)
| lo_under : forall r ds, loose b r ds -> loose b (95 :: r) ds.
Lemma not_under : forall b c d, in_base b c d -> c <> 95.
Proof. intros b c d ([(A & _)|[(A & _)|(A & _)]] & _); lia. Qed.
Lemma loop_loose : forall b, good_base b -> forall s n us, n < 2 ^ 64 -> forall n' us',
  digits_loop b n us s = Some (n', us') <-> exists ds, loose b s ds /\ n' = more b n ds /\ n' < 2 ^ 64 /\ us' = us || existsb (N.eqb 95) s.
Proof.
  intros b G. assert (LB : b <= 16) by (destruct G; assumption). assert (L1 : 1 <= b) by (destruct G; lia).
  induction s as [|c s IH]; intros n us LN n' us'.
  - cbn [digits_loop existsb]. split.
    + intros E. injection E as <- <-. exists []. split; [constructor|]. split; [reflexivity|]. split; [exact LN|]. rewrite orb_false_r. reflexivity.
    + intros (ds & L & -> & _ & ->). inversion L; subst. rewrite orb_false_r. reflexivity.
  - destruct (N.eq_dec c 95) as [-> |NU].
    + cbn [digits_loop existsb]. change (95 =? 95) with true. cbn [orb]. rewrite (IH n true LN). split.
      * intros (ds & L & V & B & U). exists ds. split; [constructor; exact L|]. split; [exact V|]. split; [exact B|]. rewrite U, orb_true_r. reflexivity.
      * intros (ds & L & V & B & U). inversion L as [|c d r ds' ID L'|r ds' L']; subst; [exfalso; exact (not_under _ _ _ ID eq_refl)|]. exists ds. split; [exact L'|]. split; [reflexivity|]. split; [exact B|]. rewrite orb_true_r. reflexivity.
    + rewrite (loop_digit b n us c s G LN NU). cbn [existsb]. destruct (N.eqb_spec 95 c) as [E|_]; [congruence|]. cbn [orb]. split.
      * intros E. destruct (char_digit c) as [d|] eqn:CD; [|discriminate]. destruct (N.ltb_spec d b) as [LD|]; [|discriminate]. destruct (N.ltb_spec (b * n + d) (2 ^ 64)) as [LV|]; [|discriminate].
        apply (IH _ us LV) in E. destruct E as (ds & L & V & B & U). exists (d :: ds). split; [constructor; [apply char_digit_ok; auto|exact L]|]. auto.
      * intros (ds & L & V & B & U). inversion L as [|c0 d r ds' ID L'|r ds' L']; subst; [|contradiction]. apply char_digit_ok in ID; [|exact LB]. destruct ID as (CD & LD). rewrite CD.
        destruct (N.ltb_spec d b); [|lia]. rewrite more_cons in B. pose proof (more_ge b ds' (b * n + d) L1) as GE. destruct (N.ltb_spec (b * n + d) (2 ^ 64)) as [LV|]; [|lia].
        apply (IH _ us LV). exists ds'. auto.
Qed.

(** Underscores *)
Definition hexes (b : N) (hex : bool) : Prop := if hex then b = 16 else b <= 10.
Lemma us_digit : forall b hex c d, hexes b hex -> in_base b c d -> ((48 <=? c) && (c <=? 57)) || (hex && (97 <=? lower c) && (lower c <=? 102)) = true.
Proof.
  intros b hex c d HX (ID & L). rewrite <- andb_assoc, lower_hex. unfold is_letter. destruct hex; cbn [hexes andb] in *.
  - destruct ID as [(A & _)|[(A & _)|(A & _)]]; repeat match goal with |- context [?a <=? ?b] => destruct (N.leb_spec a b) end; cbn [andb orb]; try reflexivity; lia.
  - destruct ID as [(A & _)|[(A & ->)|(A & ->)]]; [|lia|lia]. repeat match goal with |- context [?a <=? ?b] => destruct (N.leb_spec a b) end; cbn [andb orb]; try reflexivity; lia.
Qed.
Lemma us_not : forall hex, ((48 <=? 95) && (95 <=? 57)) || (hex && (97 <=? lower 95) && (lower 95 <=? 102)) = false.
Proof. intros []; reflexivity. Qed.
Lemma us_grouped : forall b hex s ds, hexes b hex -> loose b s ds ->
  (us_loop hex 48 s = true <-> grouped b s ds) /\
  (us_loop hex 95 s = true <-> exists c d r ds', s = c :: r /\ ds = d :: ds' /\ in_base b c d /\ grouped b r ds').
Proof.
  intros b hex s ds HX L. induction L as [|c d r ds ID L (I1 & I2)|r ds L (I1 & I2)].
  - split; cbn [us_loop]; [split; [constructor|reflexivity]|]. split; [discriminate|]. intros (c & d & r & ds' & E & _). discriminate.
  - cbn [us_loop]. rewrite (us_digit b hex c d HX ID). split.
    + rewrite I1. split; [intros G; constructor; assumption|]. intros G. inversion G as [|c0 d0 r0 ds0 ID0 G0|c0 d0 r0 ds0 ID0 G0]; subst; [exact G0|exfalso; exact (not_under _ _ _ ID eq_refl)].
    + rewrite I1. split; [intros G; exists c, d, r, ds; auto|]. intros (c0 & d0 & r0 & ds0 & E & E' & _ & G). congruence.
  - cbn [us_loop]. rewrite us_not. change (95 =? 95) with true. change (48 =? 48) with true. change (95 =? 48) with false. split.
    + rewrite I2. split.
      * intros (c & d & r' & ds' & -> & -> & ID & G). apply gr_under; assumption.
      * intros G. inversion G as [|c0 d0 r0 ds0 ID0 G0|c0 d0 r0 ds0 ID0 G0]; subst; [exfalso; exact (not_under _ _ _ ID0 eq_refl)|]. exists c0, d0, r0, ds0. auto.
    + split; [discriminate|]. intros (c & d & r' & ds' & E & _ & ID & _). exfalso. apply (not_under _ _ _ ID). congruence.
Qed.
Lemma grouped_loose : forall b s ds, grouped b s ds -> loose b s ds.
Proof. intros b s ds G. induction G; [constructor|constructor; assumption|]. apply lo_under. apply lo_digit; assumption. Qed.
Lemma loose_grouped : forall b s ds, loose b s ds -> existsb (N.eqb 95) s = false -> grouped b s ds.
Proof.
  intros b s ds L. induction L as [|c d r ds ID L IH|r ds L IH]; intros E; cbn [existsb] in E.
  - constructor.
  - apply orb_false_iff in E. constructor; [exact ID|apply IH; apply E].
  - discriminate.
Qed.

(** The parts of a number: from where on the underscores are looked at. *)
Lemma tail_ok : forall b hex d n (us : str -> bool), good_base b -> hexes b hex -> us d = us_loop hex 48 d ->
  ((exists n0 u, digits_loop b 0 false d = Some (n0, u) /\ (u && negb (us d)) = false /\ n = n0) <-> exists ds, grouped b d ds /\ n = value_of b ds /\ n < 2 ^ 64).
Proof.
  intros b hex d n us G HX U. rewrite U. split.
  - intros (n0 & u & E & B & ->). apply (loop_loose b G d 0 false) in E; [|lia]. destruct E as (ds & L & V & LN & UE). exists ds. split; [|split; [exact V|exact LN]].
    cbn [orb] in UE. destruct u; [|apply loose_grouped; [exact L|congruence]]. apply (us_grouped b hex d ds HX L). destruct (us_loop hex 48 d); [reflexivity|discriminate].
  - intros (ds & GR & V & LN). pose proof (grouped_loose _ _ _ GR) as L. exists n, (existsb (N.eqb 95) d). split; [|split; [|reflexivity]].
    + apply (loop_loose b G d 0 false); [lia|]. exists ds. auto.
    + apply (us_grouped b hex d ds HX L) in GR. rewrite GR. apply andb_false_r.
Qed.
Lemma prefix_case : forall p b, In (p, b) prefixes <-> exists c, p = [c] /\ ((b = 2 /\ lower c = 98) \/ (b = 8 /\ lower c = 111) \/ (b = 16 /\ lower c = 120)).
Proof.
  intros p b. assert (X : forall x c, In x [98; 111; 120] -> lower c = x -> c = x \/ c = x - 32).
  { intros x c I E. pose proof (lower_is c x I) as Q. rewrite E, N.eqb_refl in Q. symmetry in Q. apply orb_prop in Q. destruct Q as [Q|Q]; apply N.eqb_eq in Q; auto. }
  split.
  - intros I. cbn in I. decompose [or] I; try contradiction;
      match goal with A : (_, _) = (_, _) |- _ => injection A as <- <- end; eexists; (split; [reflexivity|]); vm_compute; auto.
  - intros (c & -> & [(-> & E)|[(-> & E)|(-> & E)]]).
    + destruct (X 98 c ltac:(cbn; auto) E) as [-> | ->]; cbn; auto.
    + destruct (X 111 c ltac:(cbn; auto) E) as [-> | ->]; cbn; auto 10.
    + destruct (X 120 c ltac:(cbn; auto) E) as [-> | ->]; cbn; auto 10.
Qed.
Lemma grouped_nonempty : forall b r ds, grouped b r ds -> (ds <> [] <-> r <> []).
Proof. intros b r ds G. inversion G; split; congruence. Qed.

Lemma parse_uint0_ok : forall s n, parse_uint0 s = Some n <-> magnitude s n /\ n < 2 ^ 64.
Proof.
  intros [|z r] n.
  { cbn [parse_uint0]. split; [discriminate|]. intros (M & _). inversion M. }
  assert (NS : forall c, c = 45 \/ c = 43 -> char_digit c = None) by (intros c [-> | ->]; reflexivity).
  assert (PU : parse_uint0 (z :: r) = Some n <-> exists n0 u, digits_loop (fst (base_of (z :: r))) 0 false (snd (base_of (z :: r))) = Some (n0, u) /\ (u && negb (underscoreOK (z :: r))) = false /\ n = n0).
  { unfold parse_uint0. destruct (base_of (z :: r)) as (b & d). cbn [fst snd]. destruct (digits_loop b 0 false d) as [(n0 & u)|] eqn:DL; cbn [bind].
    - destruct (u && negb (underscoreOK (z :: r))) eqn:B; split.
      + discriminate.
      + intros (n1 & u1 & E & B1 & ->). injection E as <- <-. congruence.
      + intros E. exists n0, u. repeat split; congruence.
      + intros (n1 & u1 & E & B1 & ->). congruence.
    - split; [discriminate|]. intros (n0 & u & E & _). discriminate. }
  rewrite PU. clear PU. destruct (N.eq_dec z 48) as [-> |NZ].
  - (* a prefix, or octal *)
    assert (OCT : (forall p d, r = p :: d -> d <> [] -> lower p <> 98 /\ lower p <> 111 /\ lower p <> 120) ->
      ((exists n0 u, digits_loop 8 0 false r = Some (n0, u) /\ (u && negb (underscoreOK (48 :: r))) = false /\ n = n0) <-> magnitude (48 :: r) n /\ n < 2 ^ 64)).
    { intros NP.
      assert (U : forall p d, r = p :: d -> lower p = 98 \/ lower p = 111 \/ lower p = 120 -> digits_loop 8 0 false r = None).
      { intros p d -> LP. destruct d; [|exfalso; destruct (NP _ _ eq_refl ltac:(discriminate)) as (A & B & C); tauto].
        rewrite loop_digit; [|split; lia|lia|].
        - unfold char_digit. destruct ((48 <=? p) && (p <=? 57)) eqn:D.
          + exfalso. apply andb_prop in D. destruct D as (D1 & D2). apply N.leb_le in D1. apply N.leb_le in D2.
            assert (X : implb ((48 <=? p) && (p <=? 57)) (negb (97 <=? lower p)) = true) by (assert (Y : p < 256) by lia; revert p Y LP NP D1 D2; intros p Y _ _ _ _; revert p Y; apply all_bytes; vm_compute; reflexivity).
            apply N.leb_le in D1. apply N.leb_le in D2. rewrite D1, D2 in X. cbn [implb andb] in X. apply negb_true_iff in X. apply N.leb_gt in X. lia.
          + destruct LP as [-> | [-> | ->]]; reflexivity.
        - intros ->. vm_compute in LP. intuition discriminate. }
      assert (UO : (exists p d, r = p :: d /\ (lower p = 98 \/ lower p = 111 \/ lower p = 120)) \/ underscoreOK (48 :: r) = us_loop false 48 r).
      { unfold underscoreOK. change ((48 =? 45) || (48 =? 43)) with false. cbv iota. destruct r as [|p d]; [right; reflexivity|].
        change (48 =? 48) with true. cbn [andb]. destruct (N.eqb_spec (lower p) 98); [left; eauto|]. destruct (N.eqb_spec (lower p) 111); [left; eauto 6|]. destruct (N.eqb_spec (lower p) 120); [left; eauto 6|]. right. reflexivity. }
      destruct UO as [(p & d & E & LP)|UO].
      - rewrite (U p d E LP). split; [intros (n0 & u & X & _); discriminate|]. intros (M & _). exfalso.
        assert (D : d = []) by (destruct d as [|x d']; [reflexivity|]; exfalso; destruct (NP p (x :: d') E ltac:(discriminate)) as (A & B & C); tauto).
        subst d r. inversion M as [c d r ds ID PD GR|r ds GR|p0 b0 r ds IP NE GR]; subst.
        + destruct ID as ([(A & ->)|[(A & ->)|(A & ->)]] & _); lia.
        + inversion GR as [|c d r ds' ID GR'|]; subst. destruct ID as ([(A & ->)|[(A & ->)|(A & ->)]] & LD); try lia.
          assert (X : implb ((48 <=? p) && (p <=? 57)) (negb (97 <=? lower p)) = true) by (assert (Y : p < 256) by lia; revert p Y LP NP U M GR A LD; intros p Y _ _ _ _ _ _ _; revert p Y; apply all_bytes; vm_compute; reflexivity).
          destruct (N.leb_spec 48 p); [|lia]. destruct (N.leb_spec p 57); [|lia]. cbn [implb andb] in X. apply negb_true_iff in X. apply N.leb_gt in X. lia.
        + apply prefix_case in IP. destruct IP as (c & -> & _). cbn [app text] in *.
          apply grouped_nonempty in GR. apply (proj1 GR NE). destruct r; [reflexivity|]. match goal with Q : _ = _ |- _ => exfalso; cbn in Q; discriminate Q end.
      - pose proof (tail_ok 8 false r n (fun d => underscoreOK (48 :: d)) ltac:(split; lia) ltac:(cbn; lia) UO) as T. cbv beta in T. rewrite T. split.
        + intros (ds & GR & -> & LN). split; [exact (mag_oct r ds GR)|exact LN].
        + intros (M & LN). inversion M as [c d r0 ds ID PD GR|r0 ds GR|p0 b0 r0 ds IP NE GR]; subst.
          * exfalso. destruct ID as ([(A & ->)|[(A & ->)|(A & ->)]] & _); lia.
          * exists ds. auto.
          * exfalso. apply prefix_case in IP. destruct IP as (c & -> & LP). cbn [app] in *.
            apply (grouped_nonempty _ _ _ GR) in NE. destruct (NP c r0 ltac:(first [reflexivity|assumption|congruence]) NE) as (A & B & C). tauto. }
    unfold base_of. change (48 =? 48) with true. cbv iota. destruct r as [|p [|x d]].
    + apply OCT. intros p d E. discriminate.
    + apply OCT. intros p0 d0 E NE. exfalso. apply NE. congruence.
    + assert (PRE : forall b hex, good_base b -> hexes b hex -> In ([p], b) prefixes -> underscoreOK (48 :: p :: x :: d) = us_loop hex 48 (x :: d) ->
        ((exists n0 u, digits_loop b 0 false (x :: d) = Some (n0, u) /\ (u && negb (underscoreOK (48 :: p :: x :: d))) = false /\ n = n0) <-> magnitude (48 :: p :: x :: d) n /\ n < 2 ^ 64)).
      { intros b hex G HX IP UO. rewrite (tail_ok b hex (x :: d) n (fun d => underscoreOK (48 :: p :: d)) G HX UO). split.
        - intros (ds & GR & -> & LN). split; [|exact LN]. apply (mag_prefix [p] b (x :: d) ds IP); [apply (grouped_nonempty _ _ _ GR); discriminate|exact GR].
        - intros (M & LN). inversion M as [c d0 r0 ds ID PD GR|r0 ds GR|p0 b0 r0 ds IP0 NE GR]; subst.
          + exfalso. destruct ID as ([(A & ->)|[(A & ->)|(A & ->)]] & _); lia.
          + exfalso. assert (LE : 97 <= p \/ p = 66 \/ p = 79 \/ p = 88). { cbn in IP. decompose [or] IP; try contradiction; match goal with A : (_, _) = (_, _) |- _ => injection A as <- <- end; lia. }
            inversion GR as [|c0 d0 r0 ds' ID GR'|c0 d0 r0 ds' ID GR']; subst; [|lia]. destruct ID as ([(A & ->)|[(A & ->)|(A & ->)]] & LD); lia.
          + pose proof IP0 as IP1. apply prefix_case in IP0. destruct IP0 as (c & -> & _). cbn [app] in *.
            assert (E1 : c = p) by congruence. assert (E2 : r0 = x :: d) by congruence. subst c r0. assert (b0 = b); [|subst b0; exists ds; auto].
            clear - IP IP1. apply prefix_case in IP. apply prefix_case in IP1. destruct IP as (c & E & IP). destruct IP1 as (c1 & E1 & IP1). assert (c = p) by congruence. assert (c1 = p) by congruence. subst c c1. lia. }
      assert (UO : forall hex, (lower p =? 120) = hex -> lower p = 98 \/ lower p = 111 \/ lower p = 120 -> underscoreOK (48 :: p :: x :: d) = us_loop hex 48 (x :: d)).
      { intros hex <- LP. unfold underscoreOK. change ((48 =? 45) || (48 =? 43)) with false. change (48 =? 48) with true. cbv iota. cbn [andb].
        destruct LP as [-> | [-> | ->]]; reflexivity. }
      destruct (N.eqb_spec (lower p) 98) as [LP|N1]; cbn [fst snd]; [|destruct (N.eqb_spec (lower p) 111) as [LP|N2]; cbn [fst snd]; [|destruct (N.eqb_spec (lower p) 120) as [LP|N3]; cbn [fst snd]]].
      * apply (PRE 2 false); [split; lia|cbn; lia|apply prefix_case; exists p; auto|apply UO; [rewrite LP; reflexivity|auto]].
      * apply (PRE 8 false); [split; lia|cbn; lia|apply prefix_case; exists p; auto|apply UO; [rewrite LP; reflexivity|auto]].
      * apply (PRE 16 true); [split; lia|reflexivity|apply prefix_case; exists p; auto 6|apply UO; [reflexivity|auto]].
      * apply OCT. intros p0 d0 E NE. assert (p0 = p) by congruence. subst p0. auto.
  - (* decimal *)
    unfold base_of. destruct (N.eqb_spec z 48) as [X|_]; [contradiction|]. cbn [fst snd].
    assert (MD : magnitude (z :: r) n <-> exists d ds, in_base 10 z d /\ grouped 10 r ds /\ n = value_of 10 (d :: ds)).
    { split.
      - intros M. inversion M as [c d r0 ds ID PD GR|r0 ds GR|p0 b0 r0 ds IP NE GR]; subst; [exists d, ds; auto|contradiction|contradiction].
      - intros (d & ds & ID & GR & ->). constructor; [exact ID| |exact GR]. destruct ID as ([(A & ->)|[(A & ->)|(A & ->)]] & LD); lia. }
    rewrite MD. destruct (N.eq_dec z 95) as [-> |NU].
    { split.
      - intros (n0 & u & E & B & ->). cbn [digits_loop] in E. change (95 =? 95) with true in E. cbv iota in E.
        apply (loop_loose 10 ltac:(split; lia) r 0 true) in E; [|lia]. destruct E as (ds & _ & _ & _ & ->). exfalso. cbn [orb andb] in B. apply negb_false_iff in B.
        unfold underscoreOK in B. change ((95 =? 45) || (95 =? 43)) with false in B. cbv iota in B. destruct r; [discriminate|]. change (95 =? 48) with false in B. cbn [andb] in B. discriminate.
      - intros ((d & ds & ID & _) & _). exfalso. exact (not_under _ _ _ ID eq_refl). }
    rewrite (loop_digit 10 0 false z r) by (try (split; lia); try lia; exact NU).
    destruct (char_digit z) as [d|] eqn:CD.
    2:{ split; [intros (n0 & u & E & _); discriminate|]. intros ((d & ds & ID & _) & _). exfalso. apply char_digit_ok in ID; [|lia]. destruct ID. congruence. }
    destruct (N.ltb_spec d 10) as [LD|LD].
    2:{ split; [intros (n0 & u & E & _); discriminate|]. intros ((d' & ds & ID & _) & _). exfalso. apply char_digit_ok in ID; [|lia]. destruct ID as (ID & L). assert (d' = d) by congruence. lia. }
    replace (10 * 0 + d) with d by lia. destruct (N.ltb_spec d (2 ^ 64)) as [_|X]; [|lia].
    assert (ID : in_base 10 z d) by (apply char_digit_ok; [lia|auto]).
    assert (US : underscoreOK (z :: r) = us_loop false 48 r).
    { assert (Z1 : z <> 45 /\ z <> 43) by (split; intros ->; discriminate). unfold underscoreOK. destruct (N.eqb_spec z 45); [tauto|]. destruct (N.eqb_spec z 43); [tauto|]. cbn [orb].
      pose proof (us_digit 10 false z d ltac:(cbn; lia) ID) as UD. destruct r as [|p r'].
      - cbn [us_loop]. rewrite UD. reflexivity.
      - destruct (N.eqb_spec z 48); [contradiction|]. cbn [andb]. change (us_loop false 94 (z :: p :: r') = us_loop false 48 (p :: r')).
        remember (p :: r') as r''. cbn [us_loop]. rewrite UD. reflexivity. }
    rewrite US. split.
    + intros (n0 & u & E & B & ->). apply (loop_loose 10 ltac:(split; lia) r d false) in E; [|lia]. destruct E as (ds & L & V & LN & UE). split; [|exact LN]. exists d, ds. split; [exact ID|]. split; [|exact V].
      cbn [orb] in UE. destruct u; [|apply loose_grouped; [exact L|congruence]]. apply (us_grouped 10 false r ds ltac:(cbn; lia) L). destruct (us_loop false 48 r); [reflexivity|discriminate].
    + intros ((d' & ds & ID' & GR & V) & LN). assert (d' = d). { apply char_digit_ok in ID'; [|lia]. destruct ID'. congruence. } subst d'.
      pose proof (grouped_loose _ _ _ GR) as L. exists n, (existsb (N.eqb 95) r). split; [|split; [|reflexivity]].
      * apply (loop_loose 10 ltac:(split; lia) r d false); [lia|]. exists ds. auto.
      * apply (us_grouped 10 false r ds ltac:(cbn; lia) L) in GR. rewrite GR. apply andb_false_r.
Qed.

Lemma parse_int0_ok : forall s v, parse_int0 s = Some v <-> int_text s v.
Proof.
  intros s v.
  assert (MS : forall b n, magnitude b n -> exists c r, b = c :: r /\ c <> 43 /\ c <> 45).
  { intros b n M. inversion M as [c d r ds ID PD GR|r ds GR|p b0 r ds IP NE GR]; subst.
    - exists c, r. split; [reflexivity|]. destruct ID as ([(A & _)|[(A & _)|(A & _)]] & _); lia.
    - exists 48, r. split; [reflexivity|]. lia.
    - exists 48, (p ++ r). split; [reflexivity|]. lia. }
  assert (POS : forall b, (un <- parse_uint0 b ;; (if negb false && (2 ^ 63 <=? un) then None else if false && (2 ^ 63 <? un) then None else Some (if false then - Z.of_N un else Z.of_N un)%Z)) = Some v <->
    exists n, magnitude b n /\ v = Z.of_N n /\ int64_range v).
  { intros b. split.
    - intros E. destruct (parse_uint0 b) as [n|] eqn:P; [|discriminate]. apply parse_uint0_ok in P. cbn [bind negb andb] in E. destruct (N.leb_spec (2 ^ 63) n); [discriminate|]. injection E as <-.
      exists n. split; [apply P|]. split; [reflexivity|]. unfold int64_range. lia.
    - intros (n & M & -> & R). unfold int64_range in R. rewrite (proj2 (parse_uint0_ok b n)) by (split; [exact M|lia]). cbn [bind negb andb]. destruct (N.leb_spec (2 ^ 63) n); [lia|]. reflexivity. }
  assert (NEG : forall b, (un <- parse_uint0 b ;; (if negb true && (2 ^ 63 <=? un) then None else if true && (2 ^ 63 <? un) then None else Some (if true then - Z.of_N un else Z.of_N un)%Z)) = Some v <->
    exists n, magnitude b n /\ v = (- Z.of_N n)%Z /\ int64_range v).
  { intros b. split.
    - intros E. destruct (parse_uint0 b) as [n|] eqn:P; [|discriminate]. apply parse_uint0_ok in P. cbn [bind negb andb] in E. destruct (N.ltb_spec (2 ^ 63) n); [discriminate|]. injection E as <-.
      exists n. split; [apply P|]. split; [reflexivity|]. unfold int64_range. lia.
    - intros (n & M & -> & R). unfold int64_range in R. rewrite (proj2 (parse_uint0_ok b n)) by (split; [exact M|lia]). cbn [bind negb andb]. destruct (N.ltb_spec (2 ^ 63) n); [lia|]. reflexivity. }
  assert (NOM : forall n, ~ magnitude [] n) by (intros n M; inversion M).
  destruct s as [|c s]; [|destruct (N.eq_dec c 43) as [-> |N1]; [|destruct (N.eq_dec c 45) as [-> |N2]]].
  - split; [discriminate|]. intros (_ & b & n & M & [([<- | E] & _)|(E & _)]); [destruct (NOM n M)|discriminate|discriminate].
  - rewrite (POS s). split.
    + intros (n & M & V & R). split; [exact R|]. exists s, n. split; [exact M|]. left. split; [right; reflexivity|exact V].
    + intros (R & b & n & M & [([E|E] & V)|(E & V)]); [|exists n; split; [|auto]; replace s with b; [exact M|cbn in E; congruence]|discriminate].
      destruct (MS b n M) as (c & r & Eb & A & B). congruence.
  - rewrite (NEG s). split.
    + intros (n & M & V & R). split; [exact R|]. exists s, n. split; [exact M|]. right. split; [reflexivity|exact V].
    + intros (R & b & n & M & [([E|E] & V)|(E & V)]); [|discriminate|exists n; split; [|auto]; replace s with b; [exact M|cbn in E; congruence]].
      destruct (MS b n M) as (c & r & Eb & A & B). congruence.
  - assert (Q : parse_int0 (c :: s) = (un <- parse_uint0 (c :: s) ;; (if negb false && (2 ^ 63 <=? un) then None else if false && (2 ^ 63 <? un) then None else Some (if false then - Z.of_N un else Z.of_N un)%Z))).
    { unfold parse_int0. clear - N1 N2. destruct c as [|p]; [reflexivity|]. do 6 (try (destruct p as [p|p|]; try reflexivity)); congruence. }
    rewrite Q, (POS (c :: s)). split.
    + intros (n & M & V & R). split; [exact R|]. exists (c :: s), n. split; [exact M|]. left. split; [left; reflexivity|exact V].
    + intros (R & b & n & M & [([E|E] & V)|(E & V)]); [exists n; rewrite E; auto| |]; exfalso; cbn in E; congruence.
Qed.
Lemma parse_bool_ok : forall s b, parse_bool s = Some b <-> bool_text s b.
Proof.
  intros s b. assert (IN : forall l, existsb (str_eqb s) l = true <-> In s l).
  { intros l. rewrite existsb_exists. split; [intros (x & I & E); apply str_eqb_eq in E; subst x; exact I|intros I; exists s; split; [exact I|apply str_eqb_refl]]. }
  unfold parse_bool, bool_text. split.
  - intros E. destruct (existsb (str_eqb s) words_true) eqn:T.
    + injection E as <-. apply IN in T. cbn in T |- *. tauto.
    + destruct (existsb (str_eqb s) words_false) eqn:F; [|discriminate]. injection E as <-. apply IN in F. cbn in F |- *. tauto.
  - intros I. destruct b.
    + assert (T : existsb (str_eqb s) words_true = true) by (apply IN; cbn in I |- *; tauto). rewrite T. reflexivity.
    + assert (F : existsb (str_eqb s) words_false = true) by (apply IN; cbn in I |- *; tauto). rewrite F.
      cbn in I. decompose [or] I; subst; try contradiction; reflexivity.
Qed.
