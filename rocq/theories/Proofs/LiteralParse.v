(** Parsing a quoted text. *)
From Verif Require Import Model.Base Model.Utf8 Model.Syntax Model.Utf Model.Analyze Model.GoRegexp Model.GoParse Model.Request Spec.Utf8Spec
  Spec.RegexSpec Spec.RuneProgSpec Spec.ParsedSpec Spec.LiteralSpec Proofs.Utf8Proofs Proofs.AnalyzeSound Proofs.UtfClass.
From Coq Require Import Lia.
Local Open Scope N_scope.

Lemma special_cases : forall b, special b = true -> b < 0x80 /\ alnum b = false.
Proof.
  intros b H. unfold special in H. apply existsb_exists in H. destruct H as (x & I & E). apply N.eqb_eq in E. subst x.
  cbn [In] in I. repeat (destruct I as [<-|I]; [split; reflexivity|]). destruct I.
Qed.
Lemma high_plain : forall b, 0x80 <= b -> special b = false.
Proof. intros b H. destruct (special b) eqn:E; [|reflexivity]. apply special_cases in E. lia. Qed.

Lemma quote_app : forall a b, QuoteMeta (a ++ b) = QuoteMeta a ++ QuoteMeta b.
Proof. induction a as [|c a IH]; intros b; [reflexivity|]. cbn [app QuoteMeta]. rewrite IH. destruct (special c); reflexivity. Qed.
Lemma quote_high : forall a, Forall (fun b => 0x80 <= b) a -> QuoteMeta a = a.
Proof. induction 1 as [|b a H _ IH]; [reflexivity|]. cbn [QuoteMeta]. rewrite (high_plain b H), IH. reflexivity. Qed.
Lemma quote_prefix : forall bs t rest, Forall (fun b => 0x80 <= b) bs -> QuoteMeta t = bs ++ rest -> exists t', t = bs ++ t' /\ rest = QuoteMeta t'.
Proof.
  induction bs as [|b bs IH]; intros t rest F E; [exists t; auto|]. apply Forall_cons_iff in F. destruct F as (Hb & F).
  destruct t as [|c t]; [discriminate|]. cbn [QuoteMeta] in E. destruct (special c) eqn:S.
  - exfalso. cbn [app] in E. injection E as E _. lia.
  - cbn [app] in E. injection E as <- E. destruct (IH t rest F E) as (t' & -> & R). exists t'. auto.
Qed.
Lemma quote_bytes : forall t, Forall is_byte t -> Forall is_byte (QuoteMeta t).
Proof.
  induction 1 as [|b t H _ IH]; [constructor|]. cbn [QuoteMeta]. destruct (special b); repeat constructor; auto; unfold is_byte; lia.
Qed.
Lemma high_bytes : forall r bs, utf8 r bs -> 0x80 <= r -> Forall (fun b => 0x80 <= b) bs.
Proof. intros r bs U H. destruct U; repeat constructor; lia. Qed.

Section Fold.
Variable sf : N -> N.
Variable om : nat.

Definition read_as (fold : bool) (r : N) : N := if fold then minFoldRune sf om r else r.

(** One character of the text is one round of the loop. *)
Lemma next_utf8 : forall r bs rest, utf8 r bs -> nextRune (bs ++ rest) = Parsed (r, rest).
Proof.
  intros r bs rest U. unfold nextRune. rewrite (decode_utf8 r bs rest U).
  destruct (N.eqb_spec r rune_error) as [->|]; [|rewrite skipn_app, skipn_all, Nat.sub_diag; reflexivity].
  assert (Nat.eqb (length bs) 1 = false) as -> by (inversion U; subst; try reflexivity; unfold rune_error in *; lia).
  rewrite skipn_app, skipn_all, Nat.sub_diag. reflexivity.
Qed.
(** Characters that mean something by themselves. *)
Definition meta (b : N) : bool := existsb (N.eqb b) [92; 46; 43; 42; 63; 40; 41; 124; 91; 123; 94; 36].
Lemma meta_high : forall b, 0x80 <= b -> meta b = false.
Proof. intros b L. unfold meta. cbn [existsb]. repeat match goal with |- context [b =? ?x] => destruct (N.eqb_spec b x) as [->|]; [lia|] end. reflexivity. Qed.
Lemma plain_step : forall fuel c t ag p, meta c = false ->
  parse_loop sf om (S fuel) (c :: t) ag p = andthen (nextRune (c :: t)) (fun '(c, t) => andthen (literal sf om p c) (parse_loop sf om fuel t false)).
Proof.
  intros fuel c t ag p M. unfold meta in M. cbn [existsb] in M. repeat (apply orb_false_iff in M; let X := fresh in destruct M as (X & M)).
  cbn [parse_loop existsb]. repeat match goal with H : (c =? _) = false |- _ => rewrite H; clear H end. reflexivity.
Qed.
Lemma char_step : forall fuel r bs t ag p, utf8 r bs -> meta r = false ->
  parse_loop sf om (S fuel) (bs ++ t) ag p = andthen (literal sf om p r) (parse_loop sf om fuel t false).
Proof.
  intros fuel r bs t ag p U M. assert (M0 : exists b bs', bs = b :: bs' /\ meta b = false).
  { destruct (N.lt_ge_cases r 0x80) as [L|G].
    - exists r, []. split; [inversion U; subst; try reflexivity; lia|exact M].
    - pose proof (high_bytes r bs U G) as F. destruct bs as [|b bs]; [inversion U|]. exists b, bs. split; [reflexivity|]. apply meta_high, (Forall_inv F). }
  destruct M0 as (b & bs' & -> & Mb). change ((b :: bs') ++ t) with (b :: (bs' ++ t)). rewrite plain_step by exact Mb.
  change (b :: (bs' ++ t)) with ((b :: bs') ++ t). rewrite (next_utf8 r _ t U). reflexivity.
Qed.
Lemma not_alnum : forall r, alnum r = false -> control r = None /\ position r = None /\ perl_group r = None /\ left_out r = false /\ r <> 81.
Proof.
  intros r A. unfold control, position, perl_group, left_out. cbn [existsb].
  repeat match goal with |- context [r =? ?x] => destruct (N.eqb_spec r x) as [->|]; [discriminate A|] end. repeat split; auto. intros ->. discriminate A.
Qed.
Lemma escape_plain : forall r t, r < 0x80 -> alnum r = false -> parseEscape (r :: t) = Parsed (r, t).
Proof.
  intros r t L A. cbn [parseEscape]. change (r :: t) with ([r] ++ t). rewrite (next_utf8 r [r] t (utf8_1 r L)). cbn [andthen]. rewrite (proj1 (not_alnum r A)), A, (proj2 (N.ltb_lt _ _) L).
  unfold alnum in A. apply orb_false_iff in A. destruct A as (A & A3). apply orb_false_iff in A. destruct A as (A1 & A2).
  assert (D : ~ (48 <= r <= 57) /\ ~ (97 <= r <= 122)) by (split; intros (X & Y); [rewrite (proj2 (N.leb_le _ _) X), (proj2 (N.leb_le _ _) Y) in A1; discriminate|rewrite (proj2 (N.leb_le _ _) X), (proj2 (N.leb_le _ _) Y) in A3; discriminate]).
  destruct (N.eqb_spec r 48); [lia|]. destruct (N.eqb_spec r 120); [lia|]. destruct (N.leb_spec 49 r), (N.leb_spec r 55); try reflexivity. lia.
Qed.
Lemma escape_with : forall fuel c t r t2 ag p, parseEscape (c :: t) = Parsed (r, t2) -> position c = None -> perl_group c = None -> left_out c = false -> c <> 81 ->
  parse_loop sf om (S fuel) (92 :: c :: t) ag p = andthen (literal sf om (reuse (new_node p) 1) r) (parse_loop sf om fuel t2 false).
Proof.
  intros fuel c t r t2 ag p E P G LO NQ. cbn [parse_loop]. cbn [N.eqb Pos.eqb existsb orb]. rewrite LO. cbn [GoStr.has_prefix]. rewrite (proj2 (N.eqb_neq 81 c)) by congruence. cbn [andb]. rewrite P. cbn [perl_escape N.eqb Pos.eqb]. rewrite G, E. reflexivity.
Qed.
Lemma escape_step : forall fuel r t ag p, r < 0x80 -> alnum r = false ->
  parse_loop sf om (S fuel) (92 :: r :: t) ag p = andthen (literal sf om (reuse (new_node p) 1) r) (parse_loop sf om fuel t false).
Proof.
  intros fuel r t ag p L A. destruct (not_alnum r A) as (C & P & G & LO & NQ). apply escape_with; try assumption. apply escape_plain; assumption.
Qed.
Lemma one_character : forall fuel r bs t ag p, utf8 r bs -> exists p', (p' = p \/ p' = reuse (new_node p) 1) /\
  parse_loop sf om (S fuel) (QuoteMeta (bs ++ t)) ag p = andthen (literal sf om p' r) (parse_loop sf om fuel (QuoteMeta t) false).
Proof.
  intros fuel r bs t ag p U. rewrite quote_app. destruct (N.lt_ge_cases r 0x80) as [L|G].
  - assert (bs = [r]) as -> by (inversion U; subst; try reflexivity; lia). cbn [QuoteMeta]. destruct (special r) eqn:S.
    + destruct (special_cases r S) as (_ & A). exists (reuse (new_node p) 1). split; [right; reflexivity|]. cbn [app]. apply escape_step; assumption.
    + exists p. split; [left; reflexivity|]. apply char_step; [exact U|]. unfold special in S. unfold meta. cbn [existsb] in *.
      repeat (apply orb_false_iff in S; let X := fresh in destruct S as (X & S)). repeat match goal with H : (r =? _) = false |- _ => rewrite H; clear H end. reflexivity.
  - exists p. split; [left; reflexivity|]. rewrite (quote_high bs (high_bytes r bs U G)). apply char_step; [exact U|apply meta_high, G].
Qed.

(** The stack. *)
Definition built (f : bool) (rs : list N) (st : list item) : Prop :=
  (rs = [] /\ st = []) \/ (exists r, rs = [r] /\ st = [Node (GLiteral f [r])]) \/
  (exists a r, a <> [] /\ rs = a ++ [r] /\ st = [Node (GLiteral f [r]); Node (GLiteral f a)]).
Definition whole (f : bool) (rs : list N) : list item := match rs with [] => [] | _ => [Node (GLiteral f rs)] end.
Definition few_nodes (p : parser) : Prop := pa_num p = pa_free p + N.of_nat (length (pa_stack p)) /\ pa_num p <= 3.
Lemma built_whole : forall p rs, built (fl_fold (pa_flags p)) rs (pa_stack p) ->
  exists n, maybe_concat p = reuse (with_stack p (whole (fl_fold (pa_flags p)) rs)) n /\ N.of_nat (length (pa_stack p)) = n + N.of_nat (length (whole (fl_fold (pa_flags p)) rs)).
Proof.
  intros [fl st ru ca nu fr] rs B. cbn [pa_flags pa_stack] in *. unfold maybe_concat, reuse, with_stack. cbn [pa_flags pa_stack pa_runes pa_caps pa_num pa_free].
  destruct B as [(-> & ->)|[(r & -> & ->)|(a & r & NE & -> & ->)]].
  - exists 0. split; [rewrite N.add_0_r; reflexivity|reflexivity].
  - exists 0. split; [rewrite N.add_0_r; reflexivity|reflexivity].
  - exists 1. rewrite eqb_reflx. destruct a as [|x a]; [congruence|]. split; reflexivity.
Qed.
Lemma reused_few : forall p, few_nodes p -> (length (pa_stack p) <= 2)%nat -> few_nodes (reuse (new_node p) 1).
Proof.
  intros [fl st ru ca nu fr] (E & L) LS. cbn [pa_num pa_free pa_stack] in *. unfold few_nodes, reuse, new_node. cbn [pa_free]. destruct (N.ltb_spec 0 fr); cbn [pa_num pa_free pa_stack]; lia.
Qed.
Lemma built_short : forall f rs st, built f rs st -> (length st <= 2)%nat.
Proof. intros f rs st [(-> & ->)|[(r & -> & ->)|(a & r & NE & -> & ->)]]; cbn [length]; lia. Qed.
Lemma new_same : forall p, pa_flags (new_node p) = pa_flags p /\ pa_stack (new_node p) = pa_stack p /\ pa_runes (new_node p) = pa_runes p /\ pa_caps (new_node p) = pa_caps p.
Proof. intros p. unfold new_node. destruct (0 <? pa_free p); auto. Qed.
Lemma literal_built : forall p dn r, few_nodes p -> built (fl_fold (pa_flags p)) dn (pa_stack p) ->
  (max_runes < pa_runes p + 1 -> literal sf om p r = Refused) /\
  (pa_runes p + 1 <= max_runes -> exists p', literal sf om p r = Parsed p' /\ pa_flags p' = pa_flags p /\ pa_runes p' = pa_runes p + 1 /\ few_nodes p' /\
     built (fl_fold (pa_flags p)) (dn ++ [read_as (fl_fold (pa_flags p)) r]) (pa_stack p')).
Proof.
  intros p dn r FN B. unfold literal, push. destruct (new_same p) as (NF & NS & NR & NC).
  assert (NN : pa_num (new_node p) = pa_free (new_node p) + N.of_nat (length (pa_stack p)) + 1 /\ pa_num (new_node p) <= 3).
  { pose proof (built_short _ _ _ B) as LS. destruct FN as (E & L). unfold new_node. destruct (N.ltb_spec 0 (pa_free p)); cbn [pa_num pa_free]; lia. }
  set (i := Node _). set (p1 := mkParser (pa_flags (new_node p)) _ _ _ _ _).
  destruct (built_whole p1 dn) as (n & EM & EL). { cbn [p1 pa_flags pa_stack]. rewrite NF, NS. exact B. }
  rewrite EM. unfold check_limits. cbn [with_stack reuse p1 pa_runes pa_num pa_stack pa_flags pa_free pa_caps] in *. rewrite NF, NS, NR in *. change (runes_in i) with 1.
  destruct (N.ltb_spec max_runes (pa_runes p + 1)) as [X|X]; (split; [try reflexivity; lia|]); [lia|intros _].
  replace (max_size <=? pa_num (new_node p)) with false by (symmetry; apply N.leb_gt; unfold max_size; lia).
  change (Nat.ltb max_height (item_height i)) with false. eexists. split; [reflexivity|]. cbn [with_stack reuse p1 pa_flags pa_stack pa_runes]. rewrite NF, NR.
  split; [reflexivity|]. split; [reflexivity|]. split.
  - unfold few_nodes. cbn [with_stack reuse p1 pa_num pa_free pa_stack length]. lia.
  - subst i. unfold whole. destruct dn as [|x dn]; [right; left; eexists; split; reflexivity|]. right. right. exists (x :: dn). eexists. split; [discriminate|]. split; reflexivity.
Qed.

Lemma either_built : forall p p' dn, few_nodes p -> built (fl_fold (pa_flags p)) dn (pa_stack p) -> p' = p \/ p' = reuse (new_node p) 1 ->
  few_nodes p' /\ pa_flags p' = pa_flags p /\ pa_stack p' = pa_stack p /\ pa_runes p' = pa_runes p.
Proof.
  intros p p' dn FN B [-> | ->]; [auto|]. split; [apply reused_few; [exact FN|exact (built_short _ _ _ B)]|]. destruct (new_same p) as (NF & NS & NR & _). auto.
Qed.
Lemma read_text : forall chars rs, Forall2 utf8 rs chars -> forall fuel ag p dn,
  (length chars < fuel)%nat -> few_nodes p -> built (fl_fold (pa_flags p)) dn (pa_stack p) -> pa_runes p <= max_runes ->
  (max_runes < pa_runes p + N.of_nat (length rs) -> parse_loop sf om fuel (QuoteMeta (List.concat chars)) ag p = Refused) /\
  (pa_runes p + N.of_nat (length rs) <= max_runes -> exists p',
     parse_loop sf om fuel (QuoteMeta (List.concat chars)) ag p = Parsed p' /\ pa_flags p' = pa_flags p /\ pa_runes p' = pa_runes p + N.of_nat (length rs) /\ few_nodes p' /\
     built (fl_fold (pa_flags p)) (dn ++ map (read_as (fl_fold (pa_flags p))) rs) (pa_stack p')).
Proof.
  intros chars rs F. induction F as [|r bs rs chars U F IH]; intros fuel ag p dn L FN B M.
  - cbn [length]. split; [lia|]. intros _. exists p. destruct fuel; [lia|]. cbn [List.concat QuoteMeta parse_loop map].
    rewrite app_nil_r. change (N.of_nat 0) with 0. rewrite N.add_0_r. auto.
  - destruct fuel as [|fuel]; [lia|]. cbn [List.concat length]. destruct (one_character fuel r bs (List.concat chars) ag p U) as (q & Q & ->).
    destruct (either_built p q dn FN B Q) as (FQ & QF & QS & QR). destruct (literal_built q dn r FQ) as (A0 & B0); [rewrite QF, QS; exact B|]. rewrite QR, QF in *.
    destruct (N.lt_ge_cases max_runes (pa_runes p + 1)) as [G|G].
    { split; [intros _; rewrite (A0 G); reflexivity|lia]. }
    destruct (B0 G) as (p' & -> & PF & PR & PN & PB). cbn [andthen].
    destruct (IH fuel false p' (dn ++ [read_as (fl_fold (pa_flags p)) r])) as (A1 & A2).
    + cbn [length] in L. lia.
    + exact PN.
    + rewrite PF. exact PB.
    + lia.
    + split.
      * intros H. apply A1. lia.
      * intros H. destruct A2 as (p2 & E & PF2 & PR2 & PN2 & B2); [lia|]. exists p2. rewrite E. split; [reflexivity|]. split; [congruence|]. split; [lia|]. split; [exact PN2|].
        cbn [map]. rewrite PF in B2. rewrite <- app_assoc in B2. exact B2.
Qed.

(** The flags in front. *)
Lemma group_step : forall fuel t ag p, parse_loop sf om (S fuel) (40 :: 63 :: t) ag p =
  andthen (parsePerlFlags p t) (fun '(p, t) => parse_loop sf om fuel t false p).
Proof. intros fuel t ag p. cbn [parse_loop]. replace (GoStr.has_prefix (63 :: t) [63]) with true by (destruct t; reflexivity). reflexivity. Qed.
Lemma next_ascii : forall c t, c < 0x80 -> nextRune (c :: t) = Parsed (c, t).
Proof. intros c t L. exact (next_utf8 c [c] t (utf8_1 c L)). Qed.
Lemma flag_step : forall fuel c t fl neg saw, c < 0x80 -> flag_loop (S fuel) (c :: t) fl neg saw =
  (if c =? 105 then flag_loop fuel t (mkFlags (negb neg) (fl_oneline fl) (fl_dotnl fl) (fl_nongreedy fl)) neg true
   else if c =? 109 then flag_loop fuel t (mkFlags (fl_fold fl) neg (fl_dotnl fl) (fl_nongreedy fl)) neg true
   else if c =? 115 then flag_loop fuel t (mkFlags (fl_fold fl) (fl_oneline fl) (negb neg) (fl_nongreedy fl)) neg true
   else if c =? 85 then flag_loop fuel t (mkFlags (fl_fold fl) (fl_oneline fl) (fl_dotnl fl) (negb neg)) neg true
   else if c =? 45 then if neg then Refused else flag_loop fuel t fl true false
   else if c =? 58 then if neg && negb saw then Refused else Parsed (fl, true, t)
   else if c =? 41 then if neg && negb saw then Refused else Parsed (fl, false, t)
   else Refused).
Proof. intros fuel c t fl neg saw L. cbn [flag_loop]. rewrite (next_ascii c t L). reflexivity. Qed.
Lemma flag_group : forall p t, parsePerlFlags p (105 :: 41 :: t) = Parsed (with_flags p (mkFlags true (fl_oneline (pa_flags p)) (fl_dotnl (pa_flags p)) (fl_nongreedy (pa_flags p))), t) /\
  parsePerlFlags p (109 :: 41 :: t) = Parsed (with_flags p (mkFlags (fl_fold (pa_flags p)) false (fl_dotnl (pa_flags p)) (fl_nongreedy (pa_flags p))), t).
Proof.
  intros p t. unfold parsePerlFlags. cbn [GoStr.has_prefix N.eqb Pos.eqb andb orb length].
  split; rewrite flag_step by reflexivity; cbn [N.eqb Pos.eqb negb]; rewrite flag_step by reflexivity; reflexivity.
Qed.
Lemma flags_read : forall ic t, exists fuel, (length t < fuel)%nat /\
  parse_loop sf om (S (length (GetRegexpPattern t ic))) (GetRegexpPattern t ic) false parser0 =
  parse_loop sf om fuel t false (mkParser (mkFlags ic false false false) [] 0 0 0 0).
Proof.
  intros ic t. destruct ic; unfold GetRegexpPattern; cbn [app length].
  - eexists. rewrite group_step. rewrite (proj1 (flag_group _ _)). cbn [andthen]. rewrite group_step, (proj2 (flag_group _ _)). cbn [andthen].
    split; [|reflexivity]. lia.
  - eexists. rewrite group_step, (proj2 (flag_group _ _)). cbn [andthen].
    split; [|reflexivity]. lia.
Qed.

(** The whole pattern. *)
Definition text_expr (ic : bool) (rs : list N) : gre :=
  match rs with [] => GZero ZEmpty | _ => GLiteral ic (map (read_as ic) rs) end.
Lemma quote_length : forall s, (length s <= length (QuoteMeta s))%nat.
Proof. induction s as [|c s IH]; [cbn; lia|]. cbn [QuoteMeta]. destruct (special c); cbn [length]; lia. Qed.
Lemma chars_length : forall rs chars, Forall2 utf8 rs chars -> (length chars <= length (List.concat chars))%nat.
Proof.
  induction 1 as [|r bs rs chars U F IH]; [cbn; lia|]. cbn [List.concat length]. rewrite app_length.
  pose proof (utf8_nonempty r bs U). destruct bs; [congruence|cbn [length]; lia].
Qed.
Theorem parse_quoted : forall ic rs chars, Forall2 utf8 rs chars ->
  Parse sf om (GetRegexpPattern (QuoteMeta (List.concat chars)) ic) =
  if max_runes <? 3 * N.of_nat (length rs) then Refused else Parsed (text_expr ic rs).
Proof.
  intros ic rs chars F. destruct (flags_read ic (QuoteMeta (List.concat chars))) as (fuel & L & E). set (p0 := mkParser _ _ _ _ _ _) in E.
  pose proof (chars_length rs chars F) as CL. pose proof (quote_length (List.concat chars)) as QL.
  destruct (read_text chars rs F fuel false p0 []) as (A & B); [lia|split; [reflexivity|cbn; lia]|left; auto|cbn [p0 pa_runes]; unfold max_runes; lia|].
  cbn [p0 pa_runes pa_flags fl_fold] in A, B. rewrite N.add_0_l in A, B. fold p0 in A, B.
  unfold Parse. rewrite E. destruct (N.lt_ge_cases max_runes (N.of_nat (length rs))) as [G|G].
  { rewrite (A G). destruct (N.ltb_spec max_runes (3 * N.of_nat (length rs))); [reflexivity|lia]. }
  destruct (B G) as (p & -> & PF & PR & (PN & PL) & BT). cbn [andthen app] in *. clear A B E.
  unfold concat. destruct (built_whole p (map (read_as ic) rs)) as (k & EM & EL); [rewrite PF; exact BT|]. rewrite EM. rewrite PF in *. cbn [p0 pa_flags fl_fold] in *.
  destruct p as [fl st ru ca nu fr]. unfold reuse, with_stack in *. cbn [pa_flags pa_stack pa_runes pa_caps pa_num pa_free] in *. subst fl ru.
  destruct rs as [|r rs].
  { cbn [length map whole operands]. unfold new_node. cbn [pa_free pa_num]. destruct (N.ltb_spec 0 (fr + k)) as [Y|Y]; unfold push, maybe_concat, check_limits, with_stack; cbn [pa_flags pa_stack pa_runes pa_caps pa_num pa_free runes_in];
      change (N.of_nat 0 + 0) with 0; change (max_runes <? 0) with false; change (max_runes <? 3 * 0) with false; cbv iota;
      (match goal with |- context [max_size <=? ?x] => replace (max_size <=? x) with false by (symmetry; apply N.leb_gt; unfold max_size; lia) end);
      change (Nat.ltb max_height (item_height (Node (GZero ZEmpty)))) with false; cbn [andthen alternate operands pa_stack];
      unfold push, maybe_concat, check_limits, with_stack; cbn [pa_flags pa_stack pa_runes pa_caps pa_num pa_free runes_in];
      change (0 + 0) with 0; change (max_runes <? 0) with false; cbv iota;
      (match goal with |- context [max_size <=? ?x] => replace (max_size <=? x) with false by (symmetry; apply N.leb_gt; unfold max_size; lia) end); reflexivity. }
  cbn [map whole operands]. unfold push, maybe_concat, check_limits, with_stack. cbn [pa_flags pa_stack pa_runes pa_caps pa_num pa_free runes_in item_height height length].
  rewrite map_length. set (n := N.of_nat (S (length rs))) in *.
  replace (3 * n) with (n + n + n) by lia. destruct (N.ltb_spec max_runes (n + n)) as [H|H]; cbn [andthen].
  { destruct (N.ltb_spec max_runes (n + n + n)); [reflexivity|lia]. }
  replace (max_size <=? nu) with false by (symmetry; apply N.leb_gt; unfold max_size; lia). change (Nat.ltb max_height 1) with false. cbv iota. cbn [andthen alternate operands pa_stack].
  unfold push, maybe_concat, check_limits, with_stack. cbn [pa_flags pa_stack pa_runes pa_caps pa_num pa_free runes_in item_height height length]. rewrite map_length. fold n.
  replace (max_size <=? nu) with false by (symmetry; apply N.leb_gt; unfold max_size; lia). change (Nat.ltb max_height 1) with false.
  destruct (N.ltb_spec max_runes (n + n + n)); reflexivity.
Qed.

(** Texts that are not UTF-8. *)
Lemma decode_refused : forall t, Forall is_byte t -> t <> [] ->
  nextRune t = Refused \/ exists r bs rest, t = bs ++ rest /\ utf8 r bs.
Proof.
  intros [|p0 p] FB NE; [congruence|]. unfold nextRune. destruct (decode_rune (p0 :: p)) as (r & n) eqn:D.
  destruct (N.ltb_spec p0 0x80) as [L|G].
  { right. destruct (decode_accepts p0 p r n D (or_introl L) FB) as (rest & E & U & _). eauto. }
  destruct (Nat.eqb_spec n 1) as [->|NN].
  - left. assert (r = rune_error) as ->; [|rewrite N.eqb_refl; reflexivity]. clear - D G. unfold decode_rune in D.
    rewrite (proj2 (N.ltb_ge _ _) G) in D.
    repeat (match type of D with
            | context [match ?x with _ => _ end] => destruct x
            end; try congruence).
  - right. destruct (decode_accepts p0 p r n D (or_intror NN) FB) as (rest & E & U & _). eauto.
Qed.
Lemma refuse_text : forall fuel t ag p dn, few_nodes p -> built (fl_fold (pa_flags p)) dn (pa_stack p) -> Forall is_byte t -> (length t < fuel)%nat -> ~ valid_utf8 t ->
  parse_loop sf om fuel (QuoteMeta t) ag p = Refused.
Proof.
  induction fuel as [|fuel IH]; intros t ag p dn FN B FB L NV; [lia|]. destruct t as [|c t]; [exfalso; apply NV, valid_utf8_nil|].
  assert (G : (exists r bs t', c :: t = bs ++ t' /\ utf8 r bs) \/ (0x80 <= c /\ nextRune (QuoteMeta (c :: t)) = Refused)).
  { destruct (N.lt_ge_cases c 0x80) as [Lc|Gc].
    - left. exists c, [c], t. split; [reflexivity|apply utf8_1, Lc].
    - destruct (decode_refused (QuoteMeta (c :: t))) as [R|(r & bs & rest & E & U)].
      + apply quote_bytes, FB.
      + cbn [QuoteMeta]. rewrite (high_plain c Gc). discriminate.
      + right. auto.
      + left. destruct (N.lt_ge_cases r 0x80) as [Lr|Gr].
        { assert (bs = [r]) as -> by (inversion U; subst; try reflexivity; lia). cbn [QuoteMeta] in E. rewrite (high_plain c Gc) in E. cbn [app] in E. injection E as E _. lia. }
        destruct (quote_prefix bs (c :: t) rest (high_bytes r bs U Gr) E) as (t' & E' & _). eauto. }
  destruct G as [(r & bs & t' & E & U)|(Gc & R)].
  - rewrite E. destruct (one_character fuel r bs t' ag p U) as (q & Q & ->). destruct (either_built p q dn FN B Q) as (FQ & QF & QS & QR).
    destruct (literal_built q dn r FQ) as (A0 & B0); [rewrite QF, QS; exact B|].
    destruct (N.lt_ge_cases max_runes (pa_runes q + 1)) as [G|G]; [rewrite (A0 G); reflexivity|]. destruct (B0 G) as (p' & -> & PF & _ & PN & PB). cbn [andthen].
    rewrite <- PF in PB. apply (IH t' false p' _ PN PB).
    + rewrite E in FB. apply Forall_app in FB. apply FB.
    + pose proof (utf8_nonempty r bs U). assert (length (c :: t) = length bs + length t')%nat by (rewrite E, app_length; reflexivity).
      destruct bs; [congruence|]. cbn [length] in *. lia.
    + intros V. apply NV. rewrite E. eapply valid_utf8_cons; eauto.
  - assert (EQ : exists t2, QuoteMeta (c :: t) = c :: t2) by (cbn [QuoteMeta]; rewrite (high_plain c Gc); eauto).
    destruct EQ as (t2 & EQ). rewrite EQ in *. rewrite plain_step by (apply meta_high, Gc). rewrite R. reflexivity.
Qed.
Theorem parse_refused : forall ic s, Forall is_byte s -> ~ valid_utf8 s -> Parse sf om (GetRegexpPattern (QuoteMeta s) ic) = Refused.
Proof.
  intros ic s FB NV. destruct (flags_read ic (QuoteMeta s)) as (fuel & L & E). unfold Parse. rewrite E.
  rewrite (refuse_text _ _ _ _ []); [reflexivity|split; [reflexivity|cbn; lia]|left; auto|exact FB| |exact NV]. pose proof (quote_length s). lia.
Qed.

(** What is read means the text. *)
Hypothesis FO : folding sf om.
Lemma min_orbit_fold : forall n m r0 r, min_orbit sf n m r0 (sf r) = fold_left N.min (orbit sf n r0 r) m.
Proof.
  induction n as [|n IH]; intros m r0 r; [reflexivity|]. cbn [min_orbit orbit]. cbv zeta. destruct (sf r =? r0); [reflexivity|]. cbn [fold_left]. apply IH.
Qed.
Lemma fold_min : forall l m, fold_left N.min l m <= m /\ (forall x, In x l -> fold_left N.min l m <= x) /\ (fold_left N.min l m = m \/ In (fold_left N.min l m) l).
Proof.
  induction l as [|y l IH]; intros m; cbn [fold_left]; [split; [lia|split; [intros x []|left; reflexivity]]|].
  destruct (IH (N.min m y)) as (A & B & C). split; [lia|]. split.
  - intros x [<-|I]; [lia|apply B, I].
  - destruct C as [C|C]; [|right; right; exact C]. rewrite C. destruct (N.min_spec m y) as [(_ & ->)|(_ & ->)]; [left; reflexivity|right; left; reflexivity].
Qed.
Lemma iter_plus : forall a b r, Nat.iter (a + b) sf r = Nat.iter a sf (Nat.iter b sf r).
Proof. induction a as [|a IH]; intros b r; [reflexivity|]. cbn [Nat.add]. change (sf (Nat.iter (a + b) sf r) = sf (Nat.iter a sf (Nat.iter b sf r))). rewrite IH. reflexivity. Qed.
Lemma same_trans : forall a b c, same_letter sf a b -> same_letter sf b c -> same_letter sf a c.
Proof. intros a b c (i & ->) (j & ->). exists (j + i)%nat. symmetry. apply iter_plus. Qed.
Lemma same_sym : forall a b, same_letter sf a b -> same_letter sf b a.
Proof.
  intros a b (i & ->). destruct (fo_cycle _ _ FO a) as (k & (K1 & K2) & E).
  assert (M : forall n, Nat.iter (n * k) sf a = a) by (induction n as [|n IH]; [reflexivity|]; cbn [Nat.mul]; rewrite iter_plus, IH; exact E).
  exists (i * k - i)%nat. rewrite <- iter_plus. replace (i * k - i + i)%nat with (i * k)%nat by nia. symmetry. apply M.
Qed.
Lemma fixed_iter : forall r, sf r = r -> forall i, Nat.iter i sf r = r.
Proof. intros r F. induction i as [|i IH]; [reflexivity|]. change (sf (Nat.iter i sf r) = r). rewrite IH. exact F. Qed.
Lemma read_least : forall r, same_letter sf r (minFoldRune sf om r) /\ forall r', same_letter sf r r' -> minFoldRune sf om r <= r'.
Proof.
  intros r. unfold minFoldRune. destruct ((r <? min_fold) || (max_fold <? r)) eqn:O.
  - assert (F : sf r = r).
    { apply orb_true_iff in O. destruct O as [O|O]; apply N.ltb_lt in O; [apply (fo_low _ _ FO), O|apply (fo_high _ _ FO), O]. }
    split; [exists 0%nat; reflexivity|]. intros r' (i & ->). rewrite (fixed_iter r F). lia.
  - rewrite min_orbit_fold. destruct (fold_min (orbit sf om r r) r) as (A & B & C). split.
    + destruct C as [C|C]; [rewrite C; exists 0%nat; reflexivity|]. apply (orbit_same sf) in C. exact C.
    + intros r' S. destruct (same_in_orbit sf om r r' (fo_cycle _ _ FO r) S) as [->|I]; [exact A|apply B, I].
Qed.
Lemma read_spells : forall ic rs w, spells sf ic (map (read_as ic) rs) w <-> spells sf ic rs w.
Proof.
  intros ic. induction rs as [|r rs IH]; intros w; [reflexivity|]. cbn [map spells]. destruct (read_least r) as (S & _).
  split; intros (r' & u & v & E & U & SP & M); exists r', u, v; (split; [exact E|]); (split; [exact U|]); (split; [apply IH, SP|]); destruct ic; cbn [read_as] in *.
  - eapply same_trans; eassumption.
  - exact M.
  - eapply same_trans; [apply same_sym, S|exact M].
  - exact M.
Qed.

Lemma same_scalar : forall r, scalar r -> forall r', same_letter sf r r' -> scalar r'.
Proof. intros r S r' (i & ->). induction i as [|i IH]; [exact S|]. change (scalar (sf (Nat.iter i sf r))). apply (fo_scalar _ _ FO), IH. Qed.
Theorem text_expr_ok : forall ic rs, Forall scalar rs -> (ic = true -> forall r, In r rs -> 0x1044f < r -> sf r = r) ->
  parsed (text_expr ic rs) /\ runes_ok sf om (erase (text_expr ic rs)) /\
  forall pre w post, rmatch sf (erase (text_expr ic rs)) pre w post <-> spells sf ic rs w.
Proof.
  intros ic rs SC OLD. destruct rs as [|r0 rs0]; [cbn; tauto|]. set (rs := r0 :: rs0) in *.
  assert (E : text_expr ic rs = GLiteral ic (map (read_as ic) rs)) by reflexivity. rewrite E. clearbody rs. clear r0 rs0 E.
  split; [exact I|]. split; [|intros pre w post; cbn [erase rmatch]; apply read_spells].
  cbn [erase runes_ok]. apply Forall_forall. intros x I. apply in_map_iff in I. destruct I as (r & <- & I).
  rewrite Forall_forall in SC. specialize (SC r I). destruct ic; cbn [read_as negb wf_rune].
  - destruct (read_least r) as (S & LE). exists (minFoldRune sf om r). split; [reflexivity|]. split; [apply (fo_cycle _ _ FO)|]. split.
    + intros r' S'. assert (SR : same_letter sf r r') by (eapply same_trans; eassumption). split; [apply LE, SR|eapply same_scalar; eassumption].
    + intros [L|G]; [apply (fo_low _ _ FO); unfold min_fold; lia|]. assert (F : sf r = r).
      { apply (OLD eq_refl r I). pose proof (LE r (ex_intro _ 0%nat eq_refl)). lia. }
      destruct S as (i & S). rewrite (fixed_iter r F) in S. rewrite S. exact F.
  - split; [reflexivity|]. exists r. auto.
Qed.
End Fold.
