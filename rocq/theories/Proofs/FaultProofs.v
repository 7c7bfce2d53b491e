(** Faulty texts are refused by the parser. *)
From Verif Require Import Model.Base Model.Utf8 Model.Syntax Model.Utf Model.Analyze Model.GoRegexp Model.GoParse Model.Request Spec.Utf8Spec
  Spec.RegexSpec Spec.RuneProgSpec Spec.ParsedSpec Spec.LiteralSpec Spec.PatternSpec Spec.FaultSpec Proofs.Utf8Proofs Proofs.AnalyzeSound Proofs.UtfClass Proofs.ExprSearch Proofs.LiteralParse Proofs.ClassParse Proofs.PatternParse.
From Coq Require Import Lia.
Local Open Scope N_scope.

Section Fault.
Variable sf : N -> N.
Variable om : nat.
Hypothesis FO : folding sf om.
Variable ic ml : bool.
Notation st := (st sf om ic ml).
Notation loop := (parse_loop sf om).
Notation reading := (written_read sf om FO ic ml).
Definition start : parser := mkParser (fl0 ic ml) [] 0 0 0 0.
Definition open_one (ps : list pat) (base : list item) : Prop := match ps with [] => False | [_] => base = [] | _ => exists fl cap b, base = LeftParen fl cap :: b end.
Lemma start_st : st 0 [] [] start.
Proof. split; [reflexivity|]. split; [reflexivity|]. split; [left; reflexivity|]. split; [constructor|]. split; [cbn; lia|]. split; cbn; lia. Qed.
Lemma begun_nonempty : forall ps s, begun ps s -> exists p r, ps = p :: r.
Proof. destruct 1; eauto. Qed.
Lemma begun_read : forall ps s, begun ps s -> Forall (chars_ok sf om ic) ps -> (length s <= 997)%nat -> forall t fuel, no_quest t -> (length (s ++ t) < fuel)%nat ->
  exists fuel' ag c seg base p, loop fuel (s ++ t) false start = loop fuel' t ag p /\ (length t < fuel')%nat /\ st c seg base p /\ (c <= length s)%nat /\ open_one ps base.
Proof.
  induction 1 as [pt s W|ps pt s u B IH W|ps pt s u B IH W]; intros OK L t fuel NQ LF.
  - destruct (reading Seq pt s W (Forall_inv OK) t false start 0%nat [] [] fuel start_st) as (f1 & ag & p1 & seg1 & E1 & L1 & ST1 & _); [lia|exact LF|exact NQ|].
    exists f1, ag, (0 + length s)%nat, seg1, [], p1. split; [exact E1|]. split; [exact L1|]. split; [exact ST1|]. split; [lia|reflexivity].
  - rewrite <- !app_assoc in *. rewrite !app_length in L. cbn [app length] in *. destruct (IH (Forall_inv_tail OK)) with (t := 40 :: u ++ t) (fuel := fuel) as (f1 & ag & c & seg & base & p & E & L1 & ST & LC & O); [lia|intros t' X; discriminate X|exact LF|].
    rewrite E. destruct f1 as [|f1]; [lia|]. cbn [length] in L1. rewrite loop_group by (eapply sequence_start; eassumption). pose proof (proj1 ST) as EF. rewrite EF.
    destruct (new_same p) as (NF & NS & NR & _). pose proof (new_num p) as NN.
    destruct (opened_paren sf om ic ml c 0 seg base p (mkParser (fl0 ic ml) (pa_stack p) (pa_runes p) (S (pa_caps p)) (pa_num (new_node p)) (pa_free (new_node p))) (S (pa_caps p)) ST) as (p1 & seg1 & -> & ST1 & _);
      cbn [pa_flags pa_stack pa_runes pa_num]; [lia|congruence|reflexivity|reflexivity|lia|]. cbn [andthen].
    destruct (reading Seq pt u W (Forall_inv OK) t false p1 _ _ _ f1 ST1) as (f2 & ag2 & p2 & seg2 & E2 & L2 & ST2 & _); [lia|lia|exact NQ|].
    exists f2, ag2. eexists _, seg2, _, p2. split; [exact E2|]. split; [exact L2|]. split; [exact ST2|]. split; [rewrite !app_length; cbn [length]; lia|].
    destruct (begun_nonempty ps s B) as (p0 & r & ->). cbn [open_one]. eauto.
  - rewrite <- !app_assoc in *. rewrite !app_length in L. cbn [app length] in *. destruct (IH (Forall_inv_tail OK)) with (t := 40 :: 63 :: 58 :: u ++ t) (fuel := fuel) as (f1 & ag & c & seg & base & p & E & L1 & ST & LC & O); [lia|intros t' X; discriminate X|exact LF|].
    rewrite E. destruct f1 as [|f1]; [lia|]. cbn [length] in L1. rewrite group_step, plain_group. pose proof (proj1 ST) as EF. rewrite EF.
    destruct (new_same p) as (NF & NS & NR & _). pose proof (new_num p) as NN.
    destruct (opened_paren sf om ic ml c 2 seg base p (new_node p) 0 ST) as (p1 & seg1 & -> & ST1 & _); [lia|congruence|congruence|congruence|lia|]. cbn [andthen].
    assert (ST1' : st (c + 3) [] (LeftParen (fl0 ic ml) 0 :: map Node seg1 ++ base) (with_flags p1 (fl0 ic ml))) by (destruct ST1 as (_ & ST1); split; [reflexivity|exact ST1]).
    destruct (reading Seq pt u W (Forall_inv OK) t false _ _ _ _ f1 ST1') as (f2 & ag2 & p2 & seg2 & E2 & L2 & ST2 & _); [lia|lia|exact NQ|].
    exists f2, ag2. eexists _, seg2, _, p2. split; [exact E2|]. split; [exact L2|]. split; [exact ST2|]. split; [rewrite !app_length; cbn [length]; lia|].
    destruct (begun_nonempty ps s B) as (p0 & r & ->). cbn [open_one]. eauto.
Qed.

Lemma bad_read : forall b t, bad_count b -> exists min max b', b = 123 :: b' /\ parseRepeat (b' ++ t) = Some (min, max, t) /\
  (1000 <? min) || match max with Some m => (1000 <? m) || (m <? min) | None => false end = true.
Proof.
  intros b t C. destruct C as [n s D L|n s D L|n m s u D E L].
  - exists n, (Some n), (s ++ [125]). split; [reflexivity|]. split; [|rewrite (proj2 (N.ltb_lt _ _) L); reflexivity]. unfold parseRepeat. rewrite <- app_assoc. cbn [app]. rewrite (int_read n s 125 t D eq_refl). reflexivity.
  - exists n, None, (s ++ [44; 125]). split; [reflexivity|]. split; [|rewrite (proj2 (N.ltb_lt _ _) L); reflexivity]. unfold parseRepeat. rewrite <- app_assoc. cbn [app]. rewrite (int_read n s 44 _ D eq_refl). reflexivity.
  - exists n, (Some m), (s ++ [44] ++ u ++ [125]). split; [reflexivity|]. split; [|rewrite !orb_true_iff, !N.ltb_lt; tauto]. unfold parseRepeat. rewrite <- !app_assoc. cbn [app]. rewrite (int_read n s 44 _ D eq_refl). cbn [N.eqb Pos.eqb].
    rewrite (int_read m u 125 t E eq_refl). destruct E as (NE & _ & vs & F & _). destruct F as [|d v u vs (DD & _) _]; [congruence|]. cbn [app]. destruct (N.eqb_spec d 125) as [->|]; [lia|reflexivity].
Qed.
Lemma again_refused : forall fuel y t p, In y [42; 43] -> loop (S fuel) (y :: t) true p = Refused.
Proof. intros fuel y t p [<-|[<-|[]]]; cbn [parse_loop N.eqb Pos.eqb]; unfold repeat_op, repeat_with; destruct t as [|c t]; try reflexivity; destruct (c =? 63); reflexivity. Qed.
Lemma nothing_refused : forall fuel x t ag p, (In x [42; 43; 63]) -> match pa_stack p with Node _ :: _ => False | _ => True end -> loop (S fuel) (x :: t) ag p = Refused.
Proof.
  intros fuel x t ag p X S. assert (E : forall o, andthen (repeat_op p o t ag) (fun '(p, t) => loop fuel t true p) = Refused).
  { intros o. unfold repeat_op, repeat_with. destruct (match t with c :: r => if c =? 63 then (negb (fl_nongreedy (pa_flags p)), r) else (fl_nongreedy (pa_flags p), t) | [] => (fl_nongreedy (pa_flags p), t) end) as (ng, t').
    destruct ag; [reflexivity|]. destruct (pa_stack p) as [|[g|fl cap] r]; [reflexivity|destruct S|reflexivity]. }
  destruct X as [<-|[<-|[<-|[]]]]; apply E.
Qed.
Lemma two_open : forall ps base, open_one ps base -> forall x y, ps = x :: y -> y <> [] -> exists fl cap b, base = LeftParen fl cap :: b.
Proof. intros ps base O x y -> NE. destruct y; [congruence|exact O]. Qed.

Lemma atom_first : forall pt a t, written Atom pt a -> no_quest (a ++ t).
Proof. intros pt a t W t' E. destruct (piece_start Atom pt a W) as (c & s' & -> & NE); [discriminate|]. injection E as E _. contradiction. Qed.
Definition finish (o : outcome parser) : outcome gre :=
  andthen o (fun p => andthen (concat p) (fun p => andthen (alternate p) (fun p => match pa_stack p with [Node re] => if counted re && (max_size <? size re) then Beyond else Parsed re | _ => Refused end))).
Theorem fault_read : forall ps s, faulty ps s -> Forall (chars_ok sf om ic) ps -> (length s <= 997)%nat -> forall fuel, (length s < fuel)%nat -> finish (loop fuel s false start) = Refused.
Proof.
  intros ps s FA OK L fuel LF. destruct FA as [pt s rest B|pt q ps s B|x rest X|ps s x rest B X|ps s pt a x y rest B W X Y|ps s pt a b rest B W BC|ps s B].
  - rewrite app_length in L. destruct (begun_read _ s B OK ltac:(lia) ([41] ++ rest) fuel) as (f1 & ag & c & seg & base & p & -> & L1 & ST & LC & O); [intros t' E; discriminate E|exact LF|].
    cbn [open_one] in O. subst base. cbn [app]. destruct f1 as [|f1]; [lia|]. rewrite close_step. destruct (concat_end _ _ _ _ _ _ _ _ ST) as (p1 & p2 & g & E1 & E2 & S2 & _); [lia|].
    unfold parseRightParen. rewrite E1. cbn [andthen]. rewrite E2. cbn [andthen]. rewrite S2. reflexivity.
  - rewrite <- (app_nil_r s) in LF. destruct (begun_read _ s B OK L [] fuel) as (f1 & ag & c & seg & base & p & E & L1 & ST & LC & O); [intros t' X; discriminate X|exact LF|].
    rewrite app_nil_r in E. rewrite E. destruct f1 as [|f1]; [lia|]. cbn [open_one] in O. destruct O as (fl & cap & b & ->). cbn [parse_loop finish andthen].
    destruct (concat_end _ _ _ _ _ _ _ _ ST) as (p1 & p2 & g & E1 & E2 & S2 & _); [lia|]. unfold finish. cbn [andthen]. rewrite E1. cbn [andthen]. rewrite E2. cbn [andthen]. rewrite S2. reflexivity.
  - destruct fuel as [|fuel]; [lia|]. rewrite nothing_refused; [reflexivity|exact X|exact I].
  - rewrite app_length in L. cbn [length app] in L. destruct (begun_read _ s B OK ltac:(lia) ([40; x] ++ rest) fuel) as (f1 & ag & c & seg & base & p & -> & L1 & ST & LC & O); [intros t' E; discriminate E|exact LF|].
    cbn [app] in *. destruct f1 as [|f1]; [lia|]. cbn [length] in L1. rewrite loop_group by (intros t' E; injection E as -> _; destruct X as [X|[X|[]]]; discriminate X).
    pose proof (proj1 ST) as EF. rewrite EF. destruct (new_same p) as (NF & NS & NR & _). pose proof (new_num p) as NN.
    destruct (opened_paren sf om ic ml c 0 seg base p (mkParser (fl0 ic ml) (pa_stack p) (pa_runes p) (S (pa_caps p)) (pa_num (new_node p)) (pa_free (new_node p))) (S (pa_caps p)) ST) as (p1 & seg1 & -> & ST1 & _);
      cbn [pa_flags pa_stack pa_runes pa_num]; [lia|congruence|reflexivity|reflexivity|lia|]. cbn [andthen]. destruct f1 as [|f1]; [lia|].
    rewrite nothing_refused; [reflexivity|destruct X as [->|[->|[]]]; cbn [In]; auto|]. rewrite (proj1 (proj2 ST1)). exact I.
  - rewrite !app_length in L. cbn [length app] in L. destruct (begun_read _ s B (Forall_inv_tail OK) ltac:(lia) (a ++ [x; y] ++ rest) fuel) as (f1 & ag & c & seg & base & p & -> & L1 & ST & LC & O); [apply atom_first with pt, W|exact LF|].
    destruct (reading Atom pt a W (Forall_inv OK) ([x; y] ++ rest) ag p c seg base f1 ST) as (f2 & p2 & -> & L2 & (seg2 & g & ST2 & _)); [lia|exact L1|].
    cbn [app] in *. destruct f2 as [|f2]; [lia|]. cbn [length] in L2.
    assert (X' : exists o, (o = OStar /\ x = 42) \/ (o = OPlus /\ x = 43) \/ (o = OQuest /\ x = 63)) by (destruct X as [<-|[<-|[<-|[]]]]; [exists OStar|exists OPlus|exists OQuest]; auto).
    destruct X' as (o & X'). rewrite (repeat_reads sf om o x X').
    destruct (repeat_after sf om ic ml o _ seg2 base p2 g [] (y :: rest) ST2) as (p3 & ng & E3 & _); [left; reflexivity|intros _ t' E; injection E as -> _; destruct Y as [Y|[Y|[]]]; discriminate Y|cbn [length]; lia|].
    cbn [app] in E3. rewrite E3. cbn [andthen]. destruct f2 as [|f2]; [lia|]. rewrite again_refused by exact Y. reflexivity.
  - rewrite !app_length in L. destruct (begun_read _ s B (Forall_inv_tail OK) ltac:(lia) (a ++ b ++ rest) fuel) as (f1 & ag & c & seg & base & p & -> & L1 & ST & LC & O); [apply atom_first with pt, W|exact LF|].
    destruct (reading Atom pt a W (Forall_inv OK) (b ++ rest) ag p c seg base f1 ST) as (f2 & p2 & -> & L2 & _); [lia|exact L1|].
    destruct (bad_read b rest BC) as (mi & ma & b' & -> & P & BAD). cbn [app] in *. destruct f2 as [|f2]; [lia|]. cbn [parse_loop N.eqb Pos.eqb]. rewrite P, BAD. reflexivity.
  - rewrite app_length in L. destruct (begun_read _ s B OK ltac:(lia) [92] fuel) as (f1 & ag & c & seg & base & p & -> & L1 & ST & LC & O); [intros t' E; discriminate E|exact LF|].
    destruct f1 as [|f1]; [lia|]. reflexivity.
Qed.
End Fault.

(** With the flags of a search in front, and as a filter. *)
Theorem fault_search : forall sf om ic ps s, folding sf om -> faulty ps s -> Forall (chars_ok sf om ic) ps -> (length s <= 997)%nat -> Parse sf om (GetRegexpPattern s ic) = Refused.
Proof.
  intros sf om ic ps s FO FA OK L. destruct (flags_read sf om ic s) as (fuel & LF & E). unfold Parse. rewrite E. exact (fault_read sf om FO ic true ps s FA OK L fuel LF).
Qed.
Theorem fault_filter : forall sf om ps s, folding sf om -> faulty ps s -> Forall (classes_ok sf om false) ps -> (length s <= 997)%nat -> Parse sf om s = Refused.
Proof.
  intros sf om ps s FO FA OK L. refine (fault_read sf om FO false false ps s FA _ L (S (length s)) (Nat.lt_succ_diag_r _)).
  eapply Forall_impl; [|exact OK]. intros p C. split; [intros r _ E; discriminate E|exact C].
Qed.

