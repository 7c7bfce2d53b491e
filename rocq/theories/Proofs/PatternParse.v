(** Parsing a pattern as it is written. *)
From Verif Require Import Model.Base Model.Utf8 Model.Syntax Model.Utf Model.Analyze Model.GoRegexp Model.GoParse Model.Request Spec.Utf8Spec
  Spec.RegexSpec Spec.RuneProgSpec Spec.ParsedSpec Spec.LiteralSpec Spec.PatternSpec Proofs.Utf8Proofs Proofs.AnalyzeSound Proofs.UtfClass Proofs.ExprSearch Proofs.LiteralParse Proofs.ClassParse.
From Coq Require Import Lia.
Local Open Scope N_scope.

(** ** Meanings *)
Definition meaning := str -> str -> str -> Prop.
Definition eqm (M M' : meaning) : Prop := forall pre w post, M pre w post <-> M' pre w post.
Definition thenm (M M' : meaning) : meaning := fun pre w post => exists u v, w = u ++ v /\ M pre u (v ++ post) /\ M' (pre ++ u) v post.
Lemma eqm_refl : forall M, eqm M M.
Proof. intros M pre w post. reflexivity. Qed.
Lemma eqm_trans : forall A B C, eqm A B -> eqm B C -> eqm A C.
Proof. intros A B C X Y pre w post. rewrite (X pre w post). apply Y. Qed.
Lemma eqm_sym : forall A B, eqm A B -> eqm B A.
Proof. intros A B X pre w post. symmetry. apply X. Qed.
Lemma then_eq : forall A A' B B', eqm A A' -> eqm B B' -> eqm (thenm A B) (thenm A' B').
Proof.
  intros A A' B B' X Y pre w post. split; intros (u & v & E & P & Q); exists u, v; (split; [exact E|]); (split; [apply X|apply Y]; assumption).
Qed.
Lemma then_assoc : forall A B C, eqm (thenm (thenm A B) C) (thenm A (thenm B C)).
Proof.
  intros A B C pre w post. split.
  - intros (u & v & -> & (u1 & v1 & -> & P & Q) & R). exists u1, (v1 ++ v). split; [symmetry; apply app_assoc|]. split; [rewrite <- app_assoc; exact P|].
    exists v1, v. split; [reflexivity|]. split; [exact Q|]. rewrite <- app_assoc. exact R.
  - intros (u & v & -> & P & (u1 & v1 & -> & Q & R)). exists (u ++ u1), v1. split; [apply app_assoc|]. split.
    + exists u, u1. split; [reflexivity|]. rewrite <- app_assoc in P. auto.
    + rewrite app_assoc. exact R.
Qed.
Definition emptym : meaning := fun pre w post => w = [].
Lemma then_empty_r : forall A, eqm (thenm A emptym) A.
Proof.
  intros A pre w post. split.
  - intros (u & v & -> & P & ->). rewrite app_nil_r. exact P.
  - intros P. exists w, []. rewrite app_nil_r. split; [reflexivity|]. split; [exact P|reflexivity].
Qed.
Lemma then_empty_l : forall A, eqm (thenm emptym A) A.
Proof.
  intros A pre w post. split.
  - intros (u & v & -> & -> & P). rewrite app_nil_r in P. exact P.
  - intros P. exists [], w. split; [reflexivity|]. split; [reflexivity|]. rewrite app_nil_r. exact P.
Qed.

Section Parse.
Variable sf : N -> N.
Variable om : nat.
Hypothesis FO : folding sf om.
Variable ic ml : bool.

Definition sem (g : gre) : meaning := rmatch sf (erase g).
Definition sems (l : list gre) : meaning := rmatch sf (RConcat (map erase l)).
Lemma sems_cons : forall g l, eqm (sems (g :: l)) (thenm (sem g) (sems l)).
Proof. intros g l pre w post. reflexivity. Qed.
Lemma sems_nil : eqm (sems []) emptym.
Proof. intros pre w post. reflexivity. Qed.
Lemma sems_app : forall a b, eqm (sems (a ++ b)) (thenm (sems a) (sems b)).
Proof.
  induction a as [|g a IH]; intros b; cbn [app].
  - apply eqm_sym. eapply eqm_trans; [apply then_eq; [apply sems_nil|apply eqm_refl]|]. apply then_empty_l.
  - eapply eqm_trans; [apply sems_cons|]. eapply eqm_trans; [apply then_eq; [apply eqm_refl|apply IH]|]. apply eqm_sym.
    eapply eqm_trans; [apply then_eq; [apply sems_cons|apply eqm_refl]|]. apply then_assoc.
Qed.
Lemma sems_one : forall g, eqm (sems [g]) (sem g).
Proof. intros g. eapply eqm_trans; [apply sems_cons|]. eapply eqm_trans; [apply then_eq; [apply eqm_refl|apply sems_nil]|]. apply then_empty_r. Qed.
Lemma sem_literal : forall f a b, eqm (sem (GLiteral f (a ++ b))) (thenm (sem (GLiteral f a)) (sem (GLiteral f b))).
Proof.
  intros f a b. assert (X0 : forall w : str, spells sf f (a ++ b) w <-> exists u v, w = u ++ v /\ spells sf f a u /\ spells sf f b v).
  { induction a as [|r a IH]; intros w; cbn [app spells].
    - split; [intros X; exists [], w; auto|intros (u & v & -> & -> & X); exact X].
    - split.
      + intros (r' & u & v & -> & U & X & M). apply IH in X. destruct X as (u1 & v1 & -> & X & Y). exists (u ++ u1), v1. rewrite <- app_assoc. split; [reflexivity|]. split; [|exact Y].
        exists r', u, u1. auto.
      + intros (u & v & -> & (r' & u1 & v1 & -> & U & X & M) & Y). exists r', u1, (v1 ++ v). rewrite <- app_assoc. split; [reflexivity|]. split; [exact U|]. split; [|exact M].
        apply IH. exists v1, v. auto. }
  intros pre w post. exact (X0 w).
Qed.

(** ** Expressions that are made *)
Definition leaf (g : gre) : bool := match g with GLiteral _ [_] | GAnyNotNL | GAny | GClass _ => true | _ => false end.
Fixpoint small (g : gre) : Prop :=
  let fix all (l : list gre) : Prop := match l with [] => True | g :: l => small g /\ all l end in
  match g with
  | GClass rs => N.of_nat (length rs) <= 10000
  | GConcat l => all l
  | GCapture _ r | GStar _ r | GPlus _ r | GQuest _ r => small r
  | GRepeat _ min max r => leaf r = true /\ N.of_nat min <= 1000 /\ match max with Some m => N.of_nat m <= 1000 | None => True end /\ small r
  | GAlternate _ => False
  | _ => True
  end.
Definition good (g : gre) : Prop := parsed g /\ runes_ok sf om (erase g) /\ no_alternation (erase g) /\ (ml = true -> no_text_start (erase g)) /\ small g.
Lemma good_concat : forall l, Forall good l -> good (GConcat l).
Proof.
  intros l F. unfold good. cbn [parsed erase runes_ok no_alternation no_text_start small]. induction F as [|g l (A & B & C & D & S) _ IH]; cbn [map]; [auto 6|]. destruct IH as (A' & B' & C' & D' & S'). split; [split; assumption|]. split; [split; assumption|]. split; [split; assumption|].
  split; [intros E; split; [apply D, E|apply D', E]|split; assumption].
Qed.
Lemma concat_good : forall l, good (GConcat l) -> Forall good l.
Proof.
  unfold good. cbn [parsed erase runes_ok no_alternation no_text_start small]. induction l as [|g l IH]; intros H; [constructor|]. cbn [map] in H.
  destruct H as ((A & A') & (B & B') & (C & C') & D & (S & S')). constructor; [split; [exact A|split; [exact B|split; [exact C|split; [intros E; apply (D E)|exact S]]]]|apply IH; split; [exact A'|split; [exact B'|split; [exact C'|split; [intros E; apply (D E)|exact S']]]]].
Qed.
Lemma good_splice : forall l, Forall good l -> Forall good (splice l).
Proof.
  intros l F. unfold splice. induction F as [|g l G _ IH]; [constructor|]. cbn [flat_map]. apply Forall_app. split; [|exact IH].
  destruct g; try (constructor; [exact G|constructor]). apply concat_good. exact G.
Qed.
Lemma sems_splice : forall l, eqm (sems (splice l)) (sems l).
Proof.
  induction l as [|g l IH]; [apply eqm_refl|]. unfold splice. cbn [flat_map]. fold (splice l).
  eapply eqm_trans; [apply sems_app|]. eapply eqm_trans; [|apply eqm_sym, sems_cons]. apply then_eq; [|exact IH].
  destruct g; try apply sems_one. apply eqm_refl.
Qed.

(** ** Sizes *)
Fixpoint cost (g : gre) : nat :=
  let fix all (l : list gre) : nat := match l with [] => 0%nat | g :: l => (cost g + all l)%nat end in
  match g with
  | GLiteral _ rs => Nat.max 1 (length rs)
  | GCapture _ r | GStar _ r | GPlus _ r | GQuest _ r | GRepeat _ _ _ r => S (cost r)
  | GConcat l | GAlternate l => S (all l)
  | _ => 1%nat
  end.
Fixpoint costs (l : list gre) : nat := match l with [] => 0%nat | g :: l => (cost g + costs l)%nat end.
Lemma cost_concat : forall l, cost (GConcat l) = S (costs l).
Proof. intros l. reflexivity. Qed.
Lemma costs_app : forall a b, costs (a ++ b) = (costs a + costs b)%nat.
Proof. induction a as [|g a IH]; intros b; [reflexivity|]. cbn [app costs]. rewrite IH. lia. Qed.
Lemma costs_rev : forall a, costs (rev a) = costs a.
Proof. induction a as [|g a IH]; [reflexivity|]. cbn [rev]. rewrite costs_app, IH. cbn [costs]. lia. Qed.
Lemma costs_splice : forall l, (costs (splice l) <= costs l)%nat.
Proof.
  induction l as [|g l IH]; [cbn; lia|]. unfold splice. cbn [flat_map]. fold (splice l). rewrite costs_app. cbn [costs].
  destruct g; try (cbn [costs]; lia). rewrite cost_concat. lia.
Qed.
Lemma height_cost : forall g, (height g <= cost g)%nat.
Proof.
  fix IH 1. intros g. destruct g; cbn [height cost]; try (apply le_n_S, IH); try lia.
  - apply le_n_S. induction rs as [|g l IHl]; [apply le_n|]. pose proof (IH g). cbn. lia.
  - apply le_n_S. induction rs as [|g l IHl]; [apply le_n|]. pose proof (IH g). cbn. lia.
Qed.
Lemma size_cost : forall g, small g -> size g <= 3000 * N.of_nat (cost g).
Proof.
  fix IH 1. intros g. destruct g; cbn [small size cost]; intros S; try (specialize (IH _ S); lia); try lia.
  - destruct S as (L & A & B & S). assert (E : size g = 1 /\ cost g = 1%nat) by (destruct g as [| |f [|r [|r' l]]| | | | | | | | | |]; try discriminate L; split; reflexivity). destruct E as (-> & ->).
    destruct max as [m|]; [lia|]. destruct min; lia.
  - assert (X : (fix all (l : list gre) : N := match l with [] => 0 | g :: l => size g + all l end) rs <= 3000 * N.of_nat ((fix all (l : list gre) : nat := match l with [] => 0%nat | g :: l => (cost g + all l)%nat end) rs)).
    { induction rs as [|g l IHl]; [apply N.le_refl|]. destruct S as (S1 & S2). pose proof (IH g S1). specialize (IHl S2). lia. }
    lia.
Qed.
Definition item_cost (i : item) : nat := match i with Node g => cost g | LeftParen _ _ => 1%nat end.
Fixpoint stack_cost (st : list item) : nat := match st with [] => 0%nat | i :: st => (item_cost i + stack_cost st)%nat end.
Lemma stack_app : forall a b, stack_cost (a ++ b) = (stack_cost a + stack_cost b)%nat.
Proof. induction a as [|g a IH]; intros b; [reflexivity|]. cbn [app stack_cost]. rewrite IH. lia. Qed.
Lemma stack_nodes : forall l, stack_cost (map Node l) = costs l.
Proof. induction l as [|g l IH]; [reflexivity|]. cbn [map stack_cost costs item_cost]. rewrite IH. reflexivity. Qed.
Definition small_item (i : item) : Prop := match i with Node g => small g | LeftParen _ _ => True end.
Lemma runes_cost : forall i, small_item i -> (item_cost i <= 999)%nat -> runes_in i <= 10000.
Proof. intros [g|fl cap]; [|cbn; lia]. destruct g; cbn [runes_in item_cost cost small_item small]; lia. Qed.

(** ** The stack *)
Definition bottomed (base : list item) : Prop := base = [] \/ exists fl cap r, base = LeftParen fl cap :: r.

(** Merging the literals on top changes nothing else. *)
Lemma merge : forall p seg base, pa_stack p = map Node seg ++ base -> bottomed base -> Forall good seg ->
  exists seg' n, maybe_concat p = reuse (with_stack p (map Node seg' ++ base)) n /\ Forall good seg' /\ eqm (sems (rev seg')) (sems (rev seg)) /\ (costs seg' <= costs seg)%nat /\
    (seg = [] <-> seg' = []).
Proof.
  intros p seg base E B F.
  assert (SAME : maybe_concat p = p -> exists seg' n, maybe_concat p = reuse (with_stack p (map Node seg' ++ base)) n /\ Forall good seg' /\ eqm (sems (rev seg')) (sems (rev seg)) /\ (costs seg' <= costs seg)%nat /\ (seg = [] <-> seg' = [])).
  { intros X. exists seg, 0. split; [|split; [exact F|split; [apply eqm_refl|split; [lia|reflexivity]]]]. rewrite X. unfold reuse, with_stack. rewrite <- E. cbn. rewrite N.add_0_r. destruct p; reflexivity. }
  unfold maybe_concat in *. rewrite E in *. destruct seg as [|g1 seg]; [|destruct seg as [|g2 seg]].
  - apply SAME. cbn [map app]. destruct B as [->|(fl & cap & r & ->)]; reflexivity.
  - apply SAME. cbn [map app]. destruct B as [->|(fl & cap & r & ->)]; destruct g1; reflexivity.
  - cbn [map app] in *. destruct g1 as [| |f1 r1| | | | | | | | | |]; try (apply SAME; reflexivity). destruct g2 as [| |f2 r2| | | | | | | | | |]; try (apply SAME; reflexivity).
    destruct (Bool.eqb f1 f2) eqn:EF; [|apply SAME; reflexivity]. apply Bool.eqb_prop in EF. subst f2. clear SAME.
    exists (GLiteral f1 (r2 ++ r1) :: seg), 1. split; [reflexivity|]. apply Forall_cons_iff in F. destruct F as (G1 & F). apply Forall_cons_iff in F. destruct F as (G2 & F). split; [|split; [|split]].
    + constructor; [|exact F]. destruct G1 as (_ & R1 & _), G2 as (_ & R2 & _). split; [exact I|]. split; [|split; [exact I|split; [intros _; exact I|exact I]]]. cbn [erase runes_ok] in *. apply Forall_app. auto.
    + cbn [rev]. rewrite <- app_assoc. eapply eqm_trans; [apply sems_app|]. eapply eqm_trans; [|apply eqm_sym, sems_app]. apply then_eq; [apply eqm_refl|].
      eapply eqm_trans; [apply sems_one|]. eapply eqm_trans; [apply sem_literal|]. cbn [app]. eapply eqm_trans; [|apply eqm_sym, sems_cons]. apply then_eq; [apply eqm_refl|]. apply eqm_sym, sems_one.
    + cbn [costs cost]. rewrite app_length. lia.
    + split; discriminate.
Qed.
(** A node or a parenthesis is pushed. *)
Lemma pushed : forall p seg base i, pa_stack p = map Node seg ++ base -> bottomed base -> Forall good seg -> small_item i -> (item_cost i <= 999)%nat ->
  pa_runes p <= 30000000 -> pa_num p <= 2000 ->
  exists p' seg', push p i = Parsed p' /\ pa_stack p' = i :: map Node seg' ++ base /\ Forall good seg' /\ eqm (sems (rev seg')) (sems (rev seg)) /\ (costs seg' <= costs seg)%nat /\ (seg = [] -> seg' = []) /\
    pa_flags p' = pa_flags p /\ pa_runes p' <= pa_runes p + 10000 /\ pa_num p' = pa_num p /\ pa_caps p' = pa_caps p.
Proof.
  intros p seg base i E B F SI CI RU NU. unfold push. set (p1 := mkParser _ _ _ _ _ _).
  destruct (merge p1 seg base E B F) as (seg' & n & EM & F' & Q & C & Z). rewrite EM. unfold check_limits. cbn [with_stack reuse p1 pa_runes pa_num pa_stack pa_flags pa_caps pa_free].
  pose proof (runes_cost i SI CI) as RC. pose proof height_cost as HC.
  replace (max_runes <? pa_runes p + runes_in i) with false by (symmetry; apply N.ltb_ge; unfold max_runes; lia).
  replace (max_size <=? pa_num p) with false by (symmetry; apply N.leb_gt; unfold max_size; lia).
  replace (Nat.ltb max_height (item_height i)) with false.
  2: { symmetry. apply Nat.ltb_ge. unfold max_height. destruct i as [g|fl cap]; cbn [item_height item_cost] in *; [specialize (HC g); lia|lia]. }
  eexists. exists seg'. split; [reflexivity|]. cbn [with_stack reuse p1 pa_runes pa_num pa_stack pa_flags pa_caps pa_free].
  split; [reflexivity|]. split; [exact F'|]. split; [exact Q|]. split; [exact C|]. split; [intros X; apply Z, X|]. split; [reflexivity|]. split; [lia|]. split; reflexivity.
Qed.

Definition fl0 : flags := mkFlags ic (negb ml) false false.
(** The state after [c] bytes. *)
Definition st (c : nat) (seg : list gre) (base : list item) (p : parser) : Prop :=
  pa_flags p = fl0 /\ pa_stack p = map Node seg ++ base /\ bottomed base /\ Forall good seg /\ (costs seg + stack_cost base <= c)%nat /\
  pa_runes p <= 30000 * N.of_nat c /\ pa_num p <= 2 * N.of_nat c.
Lemma new_num : forall p, pa_num p <= pa_num (new_node p) <= pa_num p + 1.
Proof. intros p. unfold new_node. destruct (0 <? pa_free p); cbn [pa_num]; lia. Qed.

(** A node on the state. *)
Lemma st_node : forall c k seg base p p0 g, st c seg base p -> good g -> (cost g <= S k)%nat -> (c + S k <= 998)%nat ->
  pa_flags p0 = pa_flags p -> pa_stack p0 = pa_stack p -> pa_runes p0 = pa_runes p -> pa_num p0 <= pa_num p + 2 * N.of_nat (S k) ->
  exists p' seg', push p0 (Node g) = Parsed p' /\ st (c + S k) (g :: seg') base p' /\ eqm (sems (rev seg')) (sems (rev seg)).
Proof.
  intros c k seg base p p0 g (EF & ES & B & F & C & RU & NU) G CG L F0 S0 R0 N0. rewrite <- S0 in ES.
  destruct (pushed p0 seg base (Node g) ES B F (proj2 (proj2 (proj2 (proj2 G))))) as (p' & seg' & E & ES' & F' & Q & C' & _ & EF' & RU' & NU' & _); cbn [item_cost]; [lia|lia|lia|].
  exists p', seg'. split; [exact E|]. split; [|exact Q]. split; [congruence|]. split; [exact ES'|]. split; [exact B|]. split; [constructor; assumption|].
  cbn [costs]. split; [lia|]. split; lia.
Qed.

(** ** Single characters *)
Definition pm (p : pat) : meaning := pmatch sf ic ml p.
Definition char_ok (r : N) : Prop := scalar r /\ (ic = true -> 0x1044f < r -> sf r = r).
Lemma char_good : forall r, char_ok r -> good (GLiteral ic [read_as sf om ic r]) /\ eqm (sem (GLiteral ic [read_as sf om ic r])) (pm (PChar r)).
Proof.
  intros r (SC & OL). destruct (text_expr_ok sf om FO ic [r]) as (P & R & M).
  { constructor; [exact SC|constructor]. } { intros E r' [<-|[]]. apply OL, E. }
  split; [split; [exact P|split; [exact R|split; [exact I|split; [intros _; exact I|exact I]]]]|]. intros pre w post. unfold sem, pm. change (GLiteral ic [read_as sf om ic r]) with (text_expr sf om ic [r]). rewrite M. cbn [spells]. split.
  - intros (r' & u & v & -> & U & -> & X). rewrite app_nil_r. eapply pm_char; eauto.
  - intros X. inversion X; subst. exists r', w, []. rewrite app_nil_r. auto.
Qed.

(** What one atom does. *)
Definition after_atom (c n : nat) (seg : list gre) (base : list item) (pt : pat) (p' : parser) : Prop :=
  exists seg' g, st (c + n) (g :: seg') base p' /\ eqm (sems (rev seg')) (sems (rev seg)) /\ eqm (sem g) (pm pt) /\ (single pt = true -> leaf g = true).
Lemma zero_good : forall z, (ml = true -> z <> ZBeginText) -> good (GZero z).
Proof. intros z Z. split; [exact I|]. split; [exact I|]. split; [exact I|]. split; [|exact I]. intros E. specialize (Z E). destruct z; try exact I. contradiction. Qed.
Lemma literal_after : forall c k seg base p p0 r, st c seg base p -> char_ok r -> (c + S k <= 998)%nat ->
  pa_flags p0 = pa_flags p -> pa_stack p0 = pa_stack p -> pa_runes p0 = pa_runes p -> pa_num p0 <= pa_num p + 2 * N.of_nat k + 1 ->
  exists p', literal sf om p0 r = Parsed p' /\ after_atom c (S k) seg base (PChar r) p'.
Proof.
  intros c k seg base p p0 r ST OK L F0 S0 R0 N0. destruct (char_good r OK) as (G & M). destruct (new_same p0) as (NF & NS & NR & _). pose proof (new_num p0).
  unfold literal. rewrite F0. destruct ST as (EF & ST'). rewrite EF. cbn [fl0 fl_fold].
  destruct (st_node c k seg base p (new_node p0) _ (conj EF ST') G) as (p' & seg' & E & ST & Q); [cbn [cost length]; lia|exact L|congruence|congruence|congruence|lia|].
  exists p'. split; [exact E|]. eexists seg', _. split; [exact ST|]. auto.
Qed.
Lemma op_after : forall c k seg base p g pt, st c seg base p -> good g -> cost g = 1%nat -> eqm (sem g) (pm pt) -> (single pt = true -> leaf g = true) -> (c + S k <= 998)%nat ->
  exists p', op p g = Parsed p' /\ after_atom c (S k) seg base pt p'.
Proof.
  intros c k seg base p g pt ST G CG M LG L. destruct (new_same p) as (NF & NS & NR & _). pose proof (new_num p). unfold op.
  destruct (st_node c k seg base p (new_node p) g ST G) as (p' & seg' & E & ST' & Q); [lia|exact L|assumption|assumption|assumption|lia|].
  exists p'. split; [exact E|]. exists seg', g. auto.
Qed.

(** ** Classes *)
Definition class_node (l : list (N * N)) : gre :=
  match l with
  | [(a, b)] => if a =? b then GLiteral false [a] else if (a + 1 =? b) && swapped sf a b then GLiteral true [a] else GClass (runes_of l)
  | [(a, b); (c, d)] => if (a =? b) && (c =? d) && swapped sf a c then GLiteral true [a] else GClass (runes_of l)
  | _ => GClass (runes_of l)
  end.
Definition rangesm (l : list (N * N)) : meaning := fun _ w _ => exists r, utf8 r w /\ in_ranges l r.
Lemma okr_scalar : forall r, okr (r, r) -> scalar r.
Proof. intros r (A & B & C & D). unfold cut in *. cbn [fst snd] in *. unfold scalar. lia. Qed.
Lemma one_char : forall f r pre w post, sem (GLiteral f [r]) pre w post <-> exists r', utf8 r' w /\ (if f then same_letter sf r r' else r' = r).
Proof.
  intros f r pre w post. unfold sem. cbn [erase rmatch spells]. split.
  - intros (r' & u & v & -> & U & -> & X). rewrite app_nil_r. eauto.
  - intros (r' & U & X). exists r', w, []. rewrite app_nil_r. auto.
Qed.
Lemma swap_node : forall a b, okr (a, a) -> okr (b, b) -> a < b -> swapped sf a b = true -> (sf a = b -> sf b = a -> a <= 0x1044f) ->
  good (GLiteral true [a]) /\ forall x, same_letter sf a x <-> x = a \/ x = b.
Proof.
  intros a b A B L S LATE. unfold swapped in S. apply andb_true_iff in S. rewrite !N.eqb_eq in S. destruct S as (S1 & S2).
  assert (X : forall x, same_letter sf a x <-> x = a \/ x = b).
  { intros x. split; [|intros [-> | ->]; [apply same_refl|exists 1%nat; symmetry; exact S1]]. intros (i & ->). induction i as [|i IH]; [left; reflexivity|].
    change (Nat.iter (S i) sf a) with (sf (Nat.iter i sf a)). destruct IH as [-> | ->]; [right; exact S1|left; exact S2]. }
  split; [|exact X]. split; [exact I|]. split; [|split; [exact I|split; [intros _; exact I|exact I]]]. cbn [erase runes_ok negb wf_rune]. constructor; [|constructor].
  exists a. split; [reflexivity|]. split; [apply (fo_cycle _ _ FO)|]. split.
  - intros r' SR. apply X in SR. destruct SR as [-> | ->]; (split; [lia|apply okr_scalar; assumption]).
  - intros [Z|Z]; [apply (fo_low _ _ FO), Z|]. specialize (LATE S1 S2). lia.
Qed.
Lemma class_node_ok : forall l, Forall okr l -> separated l -> N.of_nat (length l) <= 5000 ->
  (forall r r', r < r' -> sf r = r' -> sf r' = r -> (forall x, in_ranges l x <-> x = r \/ x = r') -> r <= 0x1044f) ->
  good (class_node l) /\ eqm (sem (class_node l)) (rangesm l) /\ cost (class_node l) = 1%nat.
Proof.
  intros l F S L LATE. destruct (sorted_runes l F S) as (SO & IN).
  assert (CLASS : (forall r0 r2, runes_of l = [r0; r0; r2; r2] -> sf r0 = r2 -> sf r2 = r0 -> r2 < 0x80) -> good (GClass (runes_of l)) /\ eqm (sem (GClass (runes_of l))) (rangesm l) /\ cost (GClass (runes_of l)) = 1%nat).
  { intros NS. split; [|split; [|reflexivity]].
    - split; [exact I|]. split; [right; split; [exact SO|exact NS]|]. split; [exact I|]. split; [intros _; exact I|]. cbn [small]. unfold runes_of.
      replace (length (flat_map (fun lh : N * N => [fst lh; snd lh]) l)) with (2 * length l)%nat; [lia|]. clear. induction l as [|a l IH]; [reflexivity|]. cbn [flat_map app length]. lia.
    - intros pre w post. unfold sem, rangesm. cbn [erase rmatch]. split; intros (r & U & X); exists r; (split; [exact U|apply IN, X]). }
  assert (LIT : forall a, okr (a, a) -> good (GLiteral false [a])).
  { intros a A. split; [exact I|]. split; [|split; [exact I|split; [intros _; exact I|exact I]]]. cbn [erase runes_ok negb wf_rune]. constructor; [|constructor]. split; [reflexivity|]. exists a. split; [apply okr_scalar, A|auto]. }
  destruct l as [|(a, b) l]; [apply CLASS; discriminate|]. apply Forall_cons_iff in F. destruct F as (A & F). destruct l as [|(c, d) l]; [|destruct l as [|e l]].
  - cbn [class_node]. destruct (N.eqb_spec a b) as [<-|NE].
    + split; [apply LIT, A|]. split; [|reflexivity]. intros pre w post. rewrite one_char. unfold rangesm. split; intros (r & U & X); exists r; (split; [exact U|]); rewrite in_ranges_cons, in_ranges_nil in *; cbn [fst snd] in *; lia.
    + destruct ((a + 1 =? b) && swapped sf a b) eqn:SW; [|apply CLASS; intros r0 r2 E; discriminate E]. apply andb_true_iff in SW. rewrite N.eqb_eq in SW. destruct SW as (E & SW).
      assert (IR : forall x, in_ranges [(a, b)] x <-> x = a \/ x = b) by (intros x; rewrite in_ranges_cons, in_ranges_nil; cbn [fst snd]; lia).
      destruct (swap_node a b) as (G & X); [unfold okr, cut in *; cbn [fst snd] in *; lia|unfold okr, cut in *; cbn [fst snd] in *; lia|lia|exact SW|intros S1 S2; apply (LATE a b); [lia|exact S1|exact S2|exact IR]|].
      split; [exact G|]. split; [|reflexivity]. intros pre w post. rewrite one_char. unfold rangesm. split; intros (r & U & Y); exists r; (split; [exact U|]); [apply IR, X, Y|apply X, IR, Y].
  - cbn [class_node]. apply Forall_cons_iff in F. destruct F as (C & _). cbn [separated fst snd] in S. destruct S as (S & _).
    destruct ((a =? b) && (c =? d) && swapped sf a c) eqn:SW.
    + apply andb_true_iff in SW. destruct SW as (SW & SC). apply andb_true_iff in SW. rewrite !N.eqb_eq in SW. destruct SW as (<- & <-).
      assert (IR : forall x, in_ranges [(a, a); (c, c)] x <-> x = a \/ x = c) by (intros x; rewrite !in_ranges_cons, in_ranges_nil; cbn [fst snd]; lia).
      destruct (swap_node a c A C) as (G & X); [lia|exact SC|intros S1 S2; apply (LATE a c); [lia|exact S1|exact S2|exact IR]|].
      split; [exact G|]. split; [|reflexivity]. intros pre w post. rewrite one_char. unfold rangesm. split; intros (r & U & Y); exists r; (split; [exact U|]); [apply IR, X, Y|apply X, IR, Y].
    + apply CLASS. intros r0 r2 E S1 S2. exfalso. cbn in E. injection E as -> -> -> ->. rewrite !N.eqb_refl in SW. unfold swapped in SW. rewrite S1, S2, !N.eqb_refl in SW. discriminate SW.
  - cbn [class_node]. destruct e as (e1 & e2). apply CLASS. intros r0 r2 E. discriminate E.
Qed.
Lemma push_char_ok : forall p seg base f r n, pa_stack p = map Node seg ++ base -> bottomed base -> Forall good seg -> n <= 10000 -> pa_runes p <= 30000000 -> pa_num p <= 2000 ->
  exists p' seg', push_char p f r n = Parsed p' /\ pa_stack p' = Node (GLiteral f [r]) :: map Node seg' ++ base /\ Forall good seg' /\ eqm (sems (rev seg')) (sems (rev seg)) /\ (costs seg' <= costs seg)%nat /\
    pa_flags p' = pa_flags p /\ pa_runes p' <= pa_runes p + 10000 /\ pa_num p' = pa_num p.
Proof.
  intros p seg base f r n ES B F LN RU NU. unfold push_char. set (p1 := mkParser _ _ _ _ _ _).
  destruct (merge p1 seg base ES B F) as (seg' & m & EM & F' & Q & C & _). set (i := Node _).
  assert (SAME : maybe_concat p1 = p1 -> exists p' seg', check_limits (with_stack p1 (i :: pa_stack p1)) i = Parsed p' /\ pa_stack p' = i :: map Node seg' ++ base /\ Forall good seg' /\ eqm (sems (rev seg')) (sems (rev seg)) /\ (costs seg' <= costs seg)%nat /\
    pa_flags p' = pa_flags p /\ pa_runes p' <= pa_runes p + 10000 /\ pa_num p' = pa_num p).
  { intros _. exists (with_stack p1 (i :: pa_stack p1)), seg. unfold check_limits. cbn [with_stack p1 pa_runes pa_num pa_stack pa_flags].
    replace (max_runes <? pa_runes p + n) with false by (symmetry; apply N.ltb_ge; unfold max_runes; lia).
    replace (max_size <=? pa_num p) with false by (symmetry; apply N.leb_gt; unfold max_size; lia).
    split; [reflexivity|]. split; [rewrite ES; reflexivity|]. split; [exact F|]. split; [apply eqm_refl|]. split; [lia|]. split; [reflexivity|]. split; [lia|reflexivity]. }
  unfold maybe_concat in *. destruct (pa_stack p1) as [|[g1|fl1 cap1] [|[g2|fl2 cap2] rest]]; try (apply SAME; reflexivity);
    destruct g1 as [| |f1 r1| | | | | | | | | |]; try (apply SAME; reflexivity). destruct g2 as [| |f2 r2| | | | | | | | | |]; try (apply SAME; reflexivity).
  destruct (Bool.eqb f1 f2) eqn:EF; [|apply SAME; reflexivity]. eexists _, seg'. split; [reflexivity|]. cbn [with_stack p1 pa_stack pa_flags pa_runes pa_num].
  assert (ST : Node (GLiteral f2 (r2 ++ r1)) :: rest = map Node seg' ++ base) by (injection EM as EM; exact EM). rewrite ST.
  split; [reflexivity|]. split; [exact F'|]. split; [exact Q|]. split; [exact C|]. split; [reflexivity|]. split; [lia|reflexivity].
Qed.
Lemma class_after : forall c k seg base p p0 l pt, st c seg base p -> good (class_node l) -> cost (class_node l) = 1%nat -> eqm (sem (class_node l)) (pm pt) -> (c + S k <= 998)%nat ->
  pa_flags p0 = pa_flags p -> pa_stack p0 = pa_stack p -> pa_runes p0 = pa_runes p -> pa_num p0 <= pa_num p + 2 * N.of_nat (S k) ->
  exists p', push_class sf p0 l = Parsed p' /\ after_atom c (S k) seg base pt p'.
Proof.
  intros c k seg base p p0 l pt ST G CG M L F0 S0 R0 N0.
  assert (LG : single pt = true -> leaf (class_node l) = true).
  { intros _. unfold class_node. destruct l as [|(a, b) [|(a', b') [|]]]; try reflexivity; [destruct (a =? b), (a + 1 =? b), (swapped sf a b)|destruct (a =? b), (a' =? b'), (swapped sf a a')]; reflexivity. }
  assert (X : (push_class sf p0 l = push p0 (Node (class_node l))) \/ exists f r n, push_class sf p0 l = push_char p0 f r n /\ class_node l = GLiteral f [r] /\ n <= 10000).
  { unfold push_class, class_node. destruct l as [|(a, b) l]; [left; reflexivity|]. destruct l as [|(a', b') l]; [|destruct l as [|e l]; [|left; destruct e; reflexivity]].
    - destruct (a =? b); [right; exists false, a, 2; split; [reflexivity|split; [reflexivity|lia]]|]. destruct ((a + 1 =? b) && swapped sf a b); [right; exists true, a, 2; split; [reflexivity|split; [reflexivity|lia]]|left; reflexivity].
    - destruct ((a =? b) && (a' =? b') && swapped sf a a'); [right; exists true, a, 4; split; [reflexivity|split; [reflexivity|lia]]|left; reflexivity]. }
  destruct X as [->|(f & r & n & -> & EC & LN)].
  - destruct (st_node c k seg base p p0 (class_node l) ST G) as (p' & seg' & E & ST' & Q); [lia|exact L|assumption|assumption|assumption|lia|]. exists p'. split; [exact E|]. exists seg', (class_node l). auto.
  - destruct ST as (EF & ES & B & F & C & RU & NU). rewrite <- S0 in ES. destruct (push_char_ok p0 seg base f r n ES B F LN) as (p' & seg' & E & ES' & F' & Q & C' & EF' & RU' & NU'); [lia|lia|].
    exists p'. split; [exact E|]. exists seg', (GLiteral f [r]). rewrite EC in *. split; [|auto]. split; [congruence|]. split; [exact ES'|]. split; [exact B|]. split; [constructor; assumption|].
    cbn [costs]. split; [lia|]. split; lia.
Qed.

(** ** Ends *)
Lemma operands_nodes : forall seg base, bottomed base -> operands (map Node seg ++ base) = (seg, base).
Proof.
  intros seg base B. induction seg as [|g seg IH]; cbn [map app operands].
  - destruct B as [->|(fl & cap & r & ->)]; reflexivity.
  - rewrite IH. reflexivity.
Qed.
Lemma on_base : forall p base g, pa_stack p = base -> bottomed base -> small g -> (cost g <= 999)%nat -> pa_runes p <= 30000000 -> pa_num p <= 2000 ->
  exists p', push p (Node g) = Parsed p' /\ pa_stack p' = Node g :: base /\ pa_flags p' = pa_flags p /\ pa_runes p' <= pa_runes p + 10000 /\ pa_num p' = pa_num p.
Proof.
  intros p base g E B SM C R K. destruct (pushed p [] base (Node g) E B (Forall_nil _) SM) as (p' & seg' & EP & ES & _ & _ & _ & Z & EF & ER & EK & _); cbn [item_cost]; [lia|lia|lia|].
  rewrite (Z eq_refl) in ES. exists p'. split; [exact EP|]. auto.
Qed.
Lemma concat_end : forall c seg base p, st c seg base p -> (c <= 998)%nat ->
  exists p1 p' g, concat p = Parsed p1 /\ alternate p1 = Parsed p' /\ pa_stack p' = Node g :: base /\ good g /\ eqm (sem g) (sems (rev seg)) /\ (cost g <= S (costs seg))%nat /\
    pa_flags p' = fl0 /\ pa_runes p' <= pa_runes p + 20000 /\ pa_num p' <= pa_num p + 1.
Proof.
  intros c seg base p (EF & ES & B & F & C & RU & NU) L. unfold concat.
  destruct (merge p seg base ES B F) as (seg' & n & -> & F' & Q & C' & Z). cbn [reuse with_stack pa_stack]. rewrite (operands_nodes seg' base B).
  assert (X : forall p0 g, pa_stack p0 = base -> pa_flags p0 = fl0 -> pa_runes p0 = pa_runes p -> pa_num p0 <= pa_num p + 1 -> good g -> eqm (sem g) (sems (rev seg)) -> (cost g <= S (costs seg))%nat ->
    exists p1 p' g', push p0 (Node g) = Parsed p1 /\ alternate p1 = Parsed p' /\ pa_stack p' = Node g' :: base /\ good g' /\ eqm (sem g') (sems (rev seg)) /\ (cost g' <= S (costs seg))%nat /\
      pa_flags p' = fl0 /\ pa_runes p' <= pa_runes p + 20000 /\ pa_num p' <= pa_num p + 1).
  { intros p0 g S0 F0 R0 N0 G M CG. pose proof (proj2 (proj2 (proj2 (proj2 G)))) as SM. destruct (on_base p0 base g S0 B SM) as (p1 & E1 & S1 & F1 & R1 & N1); [lia|lia|lia|].
    destruct (on_base (with_stack p1 base) base g eq_refl B SM) as (p2 & E2 & S2 & F2 & R2 & N2); cbn [with_stack pa_runes pa_num pa_flags] in *; [lia|lia|lia|].
    exists p1, p2, g. split; [exact E1|]. split; [unfold alternate; rewrite S1; change (Node g :: base) with (map Node [g] ++ base); rewrite (operands_nodes [g] base B); exact E2|].
    split; [exact S2|]. split; [exact G|]. split; [exact M|]. split; [exact CG|]. split; [congruence|]. split; lia. }
  set (p0 := with_stack _ base). destruct (new_same p0) as (NF & NS & NR & _). pose proof (new_num p0) as NN.
  assert (P0 : pa_stack p0 = base /\ pa_flags p0 = fl0 /\ pa_runes p0 = pa_runes p /\ pa_num p0 = pa_num p) by (split; [reflexivity|split; [exact EF|split; reflexivity]]).
  destruct P0 as (P1 & P2 & P3 & P4). clearbody p0.
  destruct seg' as [|g1 seg']; [|destruct seg' as [|g2 seg']].
  - apply X; [congruence|congruence|congruence|lia|apply zero_good; intros _; discriminate| |cbn [cost]; lia].
    eapply eqm_trans; [|exact Q]. intros pre w post. cbn. tauto.
  - apply X; [congruence|congruence|congruence|lia|apply (Forall_inv F')| |cbn [costs] in C'; lia]. eapply eqm_trans; [apply eqm_sym, sems_one|exact Q].
  - apply X; cbn [reuse pa_stack pa_flags pa_runes pa_num]; [congruence|congruence|congruence|lia| | |].
    + apply good_concat, good_splice, Forall_rev, F'.
    + eapply eqm_trans; [apply sems_splice|exact Q].
    + rewrite cost_concat. pose proof (costs_splice (rev (g1 :: g2 :: seg'))) as CS. rewrite costs_rev in CS. lia.
Qed.

(** A group is closed. *)
Lemma closed : forall c seg cap seg0 base p, st c seg (LeftParen fl0 cap :: map Node seg0 ++ base) p -> bottomed base -> Forall good seg0 -> (S c <= 998)%nat ->
  exists p' seg' g, parseRightParen p = Parsed p' /\ st (S c) (g :: seg') base p' /\ eqm (sems (rev seg')) (sems (rev seg0)) /\ eqm (sem g) (sems (rev seg)).
Proof.
  intros c seg cap seg0 base p ST B F0 L. destruct (concat_end c seg _ p ST) as (p1 & p2 & g & E1 & E2 & S2 & G & M & CG & F2 & R2 & N2); [lia|].
  destruct ST as (EF & ES & _ & F & C & RU & NU). unfold parseRightParen. rewrite E1. cbn [andthen]. rewrite E2. cbn [andthen]. rewrite S2.
  set (g' := match cap with O => g | _ => GCapture cap g end).
  assert (G' : good g' /\ eqm (sem g') (sem g) /\ (cost g' <= S (cost g))%nat).
  { subst g'. destruct cap; [split; [exact G|split; [apply eqm_refl|lia]]|]. split; [exact G|]. split; [apply eqm_refl|cbn [cost]; lia]. }
  destruct G' as (G' & M' & CG'). cbn [stack_cost item_cost] in C. rewrite stack_app, stack_nodes in C.
  destruct (pushed (with_flags (with_stack p2 (map Node seg0 ++ base)) fl0) seg0 base (Node g') eq_refl B F0 (proj2 (proj2 (proj2 (proj2 G'))))) as (p' & seg' & E & ES' & F' & Q & C' & _ & EF' & RU' & NU' & _);
    cbn [item_cost with_flags with_stack pa_runes pa_num pa_flags] in *; [lia|lia|lia|].
  exists p', seg', g'. split; [exact E|]. split; [|split; [exact Q|eapply eqm_trans; eassumption]].
  split; [exact EF'|]. split; [exact ES'|]. split; [exact B|]. split; [constructor; assumption|]. cbn [costs]. split; [lia|]. split; lia.
Qed.
(** A group is opened. *)
Lemma opened_paren : forall c k seg base p p0 cap, st c seg base p -> (c + S k <= 998)%nat ->
  pa_flags p0 = pa_flags p -> pa_stack p0 = pa_stack p -> pa_runes p0 = pa_runes p -> pa_num p0 <= pa_num p + 1 ->
  exists p' seg', push p0 (LeftParen fl0 cap) = Parsed p' /\ st (c + S k) [] (LeftParen fl0 cap :: map Node seg' ++ base) p' /\ bottomed base /\ Forall good seg' /\ eqm (sems (rev seg')) (sems (rev seg)).
Proof.
  intros c k seg base p p0 cap (EF & ES & B & F & C & RU & NU) L F0 S0 R0 N0. rewrite <- S0 in ES.
  destruct (pushed p0 seg base (LeftParen fl0 cap) ES B F I) as (p' & seg' & E & ES' & F' & Q & C' & _ & EF' & RU' & NU' & _); cbn [item_cost] in *; [lia|lia|lia|].
  exists p', seg'. split; [exact E|]. split; [|auto]. split; [congruence|]. split; [exact ES'|]. split; [right; eauto|]. split; [constructor|].
  cbn [costs stack_cost item_cost]. rewrite stack_app, stack_nodes. split; [lia|]. split; lia.
Qed.

(** ** Repetitions *)
Lemma star_times : forall p M, eqm M (pm p) -> forall pre w post, (exists k, times M k pre w post) <-> pm (PStar p) pre w post.
Proof.
  intros p M Q pre w post. split.
  - intros (k & T). revert pre w post T. induction k as [|k IH]; intros pre w post T; cbn [times] in T; [subst; apply pm_none|].
    destruct T as (u & v & -> & A & T). eapply pm_more; [apply Q, A|apply IH, T].
  - intros X. unfold pm in X. remember (PStar p) as q eqn:EQ. revert EQ. induction X; intros EQ; try discriminate EQ.
    + exists 0%nat. reflexivity.
    + injection EQ as ->. destruct (IHX2 eq_refl) as (k & T). exists (S k), u, v. split; [reflexivity|]. split; [apply Q, X1|exact T].
Qed.
Lemma repeated_sem : forall o ng g p, eqm (sem g) (pm p) -> eqm (sem (repeated o ng g)) (pm (match o with OStar => PStar p | OPlus => PPlus p | OQuest => PQuest p end)).
Proof.
  intros o ng g p Q pre w post. destruct o; unfold sem; cbn [repeated erase rmatch].
  - apply (star_times p (sem g) Q).
  - split.
    + intros (k & u & v & -> & A & T). eapply pm_plus; [apply Q, A|]. apply (star_times p (sem g) Q). exists k. exact T.
    + intros X. unfold pm in X. inversion X; subst. match goal with H : pmatch _ _ _ (PStar p) _ _ _ |- _ => apply (star_times p (sem g) Q) in H; destruct H as (k & T) end.
      exists k, u, v. split; [reflexivity|]. split; [apply Q; assumption|exact T].
  - split.
    + intros [->|A]; [apply pm_quest0|apply pm_quest1, Q, A].
    + intros X. unfold pm in X. inversion X; subst; [left; reflexivity|right; apply Q; assumption].
Qed.
Lemma repeat_made : forall make n c seg base p g lz t, st c (g :: seg) base p -> In lz [[]; [63]] -> (lz = [] -> forall t', t <> 63 :: t') -> (c + S n <= 998)%nat ->
  (forall ng, cost (make ng g) = S (cost g) /\ (good g -> good (make ng g))) ->
  exists p' ng, repeat_with p make (lz ++ t) false = Parsed (p', t) /\ st (c + S n) (make ng g :: seg) base p'.
Proof.
  intros make n c seg base p g lz t (EF & ES & B & F & C & RU & NU) LZ NL L MK. unfold repeat_with. rewrite EF. cbn [fl0 fl_nongreedy].
  assert (X : exists ng, match lz ++ t with c :: r => if c =? 63 then (negb false, r) else (false, lz ++ t) | [] => (false, lz ++ t) end = (ng, t)).
  { destruct LZ as [<-|[<-|[]]]; cbn [app].
    - exists false. destruct t as [|x t]; [reflexivity|]. destruct (N.eqb_spec x 63) as [->|]; [exfalso; eapply NL; reflexivity|reflexivity].
    - exists true. reflexivity. }
  destruct X as (ng & ->). rewrite ES. cbn [map app]. destruct (new_same p) as (NF & NS & NR & _). pose proof (new_num p) as NN.
  unfold check_limits. cbn [with_stack pa_runes pa_num]. rewrite NR. cbn [costs] in C.
  destruct (MK ng) as (CR & GR). pose proof (height_cost (make ng g)) as HC.
  replace (max_runes <? pa_runes p) with false by (symmetry; apply N.ltb_ge; unfold max_runes; lia).
  replace (max_size <=? pa_num (new_node p)) with false by (symmetry; apply N.leb_gt; unfold max_size; lia).
  replace (Nat.ltb max_height (item_height (Node (make ng g)))) with false by (symmetry; apply Nat.ltb_ge; unfold max_height; cbn [item_height]; lia).
  cbn [andthen]. eexists _, ng. split; [reflexivity|]. unfold st. cbn [with_stack pa_flags pa_stack pa_runes pa_num]. rewrite NF, NR.
  split; [exact EF|]. split; [reflexivity|]. split; [exact B|]. split.
  - apply Forall_cons_iff in F. destruct F as (F1 & F). constructor; [apply GR, F1|exact F].
  - cbn [costs]. rewrite CR. split; [lia|]. split; lia.
Qed.
Lemma repeat_after : forall o c seg base p g lz t, st c (g :: seg) base p -> In lz [[]; [63]] -> (lz = [] -> forall t', t <> 63 :: t') -> (c + S (length lz) <= 998)%nat ->
  exists p' ng, repeat_op p o (lz ++ t) false = Parsed (p', t) /\ st (c + S (length lz)) (repeated o ng g :: seg) base p'.
Proof. intros o c seg base p g lz t ST LZ NL L. apply repeat_made; auto. intros ng. destruct o; (split; [reflexivity|intros G; exact G]). Qed.

(** ** The whole of what is written *)
Lemma not_in_meta : forall r, ~ In r metachars -> meta r = false.
Proof.
  intros r H. unfold meta. destruct (existsb (N.eqb r) [92; 46; 43; 42; 63; 40; 41; 124; 91; 123; 94; 36]) eqn:E; [|reflexivity].
  apply existsb_exists in E. destruct E as (x & I & EQ). apply N.eqb_eq in EQ. subst x. contradiction.
Qed.
Lemma not_letter : forall r, ~ letter_or_digit r -> alnum r = false.
Proof.
  intros r H. unfold alnum. unfold letter_or_digit in H. apply orb_false_iff. split; [apply orb_false_iff; split|]; apply andb_false_iff; rewrite !N.leb_gt; lia.
Qed.
Lemma control_step : forall fuel c r t ag p, In (c, r) controls ->
  parse_loop sf om (S fuel) (92 :: c :: t) ag p = andthen (literal sf om (reuse (new_node p) 1) r) (parse_loop sf om fuel t false).
Proof.
  intros fuel c r t ag p I. assert (X : c < 0x80 /\ position c = None /\ control c = Some r /\ perl_group c = None /\ left_out c = false /\ c <> 81).
  { unfold controls in I. cbn [In] in I. repeat (destruct I as [E|I]; [injection E as <- <-; split; [reflexivity|repeat split; try reflexivity; discriminate]|]). destruct I. }
  destruct X as (L & P & CO & G & LO & NQ). apply escape_with; try assumption. cbn [parseEscape]. rewrite (next_ascii c t L). cbn [andthen]. rewrite CO. reflexivity.
Qed.
Definition no_quest (t : str) : Prop := forall t', t <> 63 :: t'.
Definition at_end (t : str) : Prop := no_quest t.
Definition reads (lv : level) (pt : pat) (s : str) : Prop := forall t ag p c seg base fuel,
  st c seg base p -> (c + length s <= 997)%nat -> (length (s ++ t) < fuel)%nat ->
  match lv with
  | Atom => exists fuel' p', parse_loop sf om fuel (s ++ t) ag p = parse_loop sf om fuel' t false p' /\ (length t < fuel')%nat /\ after_atom c (length s) seg base pt p'
  | Piece => no_quest t -> exists fuel' ag' p', parse_loop sf om fuel (s ++ t) ag p = parse_loop sf om fuel' t ag' p' /\ (length t < fuel')%nat /\ after_atom c (length s) seg base pt p'
  | Seq => at_end t -> exists fuel' ag' p' seg', parse_loop sf om fuel (s ++ t) ag p = parse_loop sf om fuel' t ag' p' /\ (length t < fuel')%nat /\
      st (c + length s) seg' base p' /\ eqm (sems (rev seg')) (thenm (sems (rev seg)) (pm pt))
  end.
Definition chars_ok (pt : pat) : Prop := (forall r, In r (chars_of pt) -> ic = true -> 0x1044f < r -> sf r = r) /\ classes_ok sf om ic pt.
Lemma class_members_ok : forall neg ms, class_ok sf om ic neg ms -> Forall (member_ok sf ic) ms.
Proof.
  intros neg ms (A & _). apply Forall_forall. intros m I. unfold member_ok. destruct ic.
  - intros r MR x S. eapply A; eassumption.
  - destruct m as [lo hi|k n]; [apply A, I|exact Logic.I].
Qed.
Lemma room_total : forall neg ms, class_ok sf om ic neg ms -> (length ms <= 998)%nat -> N.of_nat (fold_right Nat.add 0%nat (map (room om ic) ms)) <= 4990.
Proof.
  intros neg ms (_ & _ & W) L. unfold room. destruct ic.
  - destruct (W eq_refl) as (OM & WD). assert (X : forall l, N.of_nat (fold_right Nat.add 0%nat (map (fun m => N.to_nat (width m) * S om)%nat l)) <= 5 * fold_right N.add 0 (map width l)).
    { induction l as [|m l IH]; [cbn; lia|]. cbn [map fold_right]. nia. }
    specialize (X ms). lia.
  - assert (X : forall l : list member, fold_right Nat.add 0%nat (map (fun _ => 5%nat) l) = (5 * length l)%nat) by (induction l as [|m l IH]; [reflexivity|]; cbn [map fold_right length]; lia). rewrite X. lia.
Qed.
Lemma members_len : forall ms s, class_members ms s -> (length ms <= length s)%nat.
Proof.
  assert (X : forall m s, class_member m s -> (1 <= length s)%nat) by (intros m s C; destruct (member_start m s C) as (c & s' & -> & _); cbn; lia).
  induction 1 as [m s C|m s C|m ms s t C CS IH]; pose proof (X _ _ C); rewrite ?app_length; cbn [length]; lia.
Qed.
(** What a class is read as. *)
Lemma class_ranges_pm : forall neg ms l, Forall okr l -> (forall z, z <= 0x10FFFF -> (in_ranges l z <-> in_members sf ic neg ms z)) -> eqm (rangesm l) (pm (PClass neg ms)).
Proof.
  intros neg ms l F H pre w post. unfold rangesm, pm. assert (SC : forall r w, utf8 r w -> r <= 0x10FFFF) by (intros r w' U; apply utf8_scalar in U; unfold scalar in U; lia). split.
  - intros (r & U & X). eapply pm_class; [exact U|]. apply H; [eapply SC, U|exact X].
  - intros X. inversion X; subst. exists r. split; [assumption|]. apply H; [eapply SC; eassumption|assumption].
Qed.
Lemma okr_top : forall l x, Forall okr l -> in_ranges l x -> x <= 0x10FFFF.
Proof. intros l x F (lh & I & A & B). rewrite Forall_forall in F. destruct (F lh I) as (_ & C & _). lia. Qed.
Lemma late_ok : forall neg ms l, class_ok sf om ic neg ms -> Forall okr l -> (forall z, z <= 0x10FFFF -> (in_ranges l z <-> in_members sf ic neg ms z)) ->
  forall r r', r < r' -> sf r = r' -> sf r' = r -> (forall x, in_ranges l x <-> x = r \/ x = r') -> r <= 0x1044f.
Proof.
  intros neg ms l (_ & LT & _) F H r r' L S1 S2 X. apply (LT r r' L S1 S2). intros x LX. rewrite <- (H x LX). apply X.
Qed.
Lemma parse_class_after : forall neg ms s t c seg base p, class_members ms s -> class_ok sf om ic neg ms -> st c seg base p -> (c + length ([91%N] ++ (if neg then [94%N] else []) ++ s ++ [93%N]) <= 997)%nat ->
  exists p', parseClass sf om p ((if neg then [94] else []) ++ s ++ 93 :: t) = Parsed (p', t) /\ after_atom c (length ([91%N] ++ (if neg then [94%N] else []) ++ s ++ [93%N])) seg base (PClass neg ms) p'.
Proof.
  intros neg ms s t c seg base p CM OK ST L. pose proof (proj1 ST) as EF. unfold parseClass. rewrite EF. cbn [fl0 fl_fold].
  destruct (members_start ms s CM) as (c0 & s0 & E0 & N1 & N2).
  assert (HP : GoStr.has_prefix ((if neg then [94] else []) ++ s ++ 93 :: t) [94] = neg).
  { destruct neg; cbn [app]; [destruct (s ++ 93 :: t); reflexivity|]. rewrite E0. cbn [app]. apply prefix_char, N2. }
  rewrite HP. replace (if neg then skipn 1 ((if neg then [94] else []) ++ s ++ 93 :: t) else (if neg then [94] else []) ++ s ++ 93 :: t) with (s ++ 93 :: t) by (destruct neg; reflexivity).
  destruct (loop_members sf om FO ic ms s CM (class_members_ok neg ms OK) (S (length (s ++ 93 :: t))) t true [] (Nat.le_succ_diag_r _) (Forall_nil _)) as (r & (A1 & A2 & A3) & ->). cbn [andthen].
  assert (LS : (length s <= 997)%nat) by (rewrite !app_length in L; lia). pose proof (members_len ms s CM) as LM. pose proof (room_total neg ms OK) as RT.
  destruct (clean_all r A1) as (C1 & C2 & C3 & C4). set (l := if neg then gaps 0 (cleanClass r) else cleanClass r).
  assert (LL : Forall okr l /\ separated l /\ (forall z, z <= 0x10FFFF -> (in_ranges l z <-> in_members sf ic neg ms z)) /\ (length l <= S (length r))%nat).
  { assert (H0 : forall z, z <= 0x10FFFF -> (in_ranges (cleanClass r) z <-> exists m, In m ms /\ stands_for sf ic m z)) by (intros z Z; rewrite C3, (A2 z Z), in_ranges_nil; tauto).
    subst l. destruct neg.
    - destruct (gaps_all _ 0 C1 C2) as (G1 & G2 & G3 & G4 & _); [destruct (cleanClass r); [exact I|lia]|left; lia|]. split; [exact G1|]. split; [exact G2|]. split; [|lia].
      intros z Z. rewrite G3, (H0 z Z). unfold in_members. split; [tauto|]. intros X. split; [lia|]. auto.
    - split; [exact C1|]. split; [exact C2|]. split; [exact H0|lia]. }
  destruct LL as (L1 & L2 & L3 & L4). cbn [length] in A3. assert (LN : N.of_nat (length l) <= 5000) by lia.
  destruct (class_node_ok l L1 L2 LN (late_ok neg ms l OK L1 L3)) as (G & M & CG).
  assert (K : exists k, length ([91] ++ (if neg then [94] else []) ++ s ++ [93]) = S k) by (cbn [app length]; eauto). destruct K as (k & K). rewrite K in *.
  destruct (new_same p) as (NF & NS & NR & _). pose proof (new_num p) as NN.
  destruct (class_after c k seg base p (new_node p) l (PClass neg ms) ST G CG) as (p' & E & A); [eapply eqm_trans; [exact M|apply class_ranges_pm; assumption]|lia|assumption|assumption|assumption|lia|].
  rewrite E. cbn [andthen]. exists p'. split; [reflexivity|exact A].
Qed.
Lemma kind_after : forall e k neg c seg base p, In (e, (k, neg)) kinds -> class_ok sf om ic false [MKind k neg] -> st c seg base p -> (c + 2 <= 997)%nat ->
  exists p', push_class sf (new_node p) (rev (add_group sf om (fl_fold (pa_flags p)) [] (perl_ranges k, neg))) = Parsed p' /\ after_atom c 2 seg base (PClass false [MKind k neg]) p'.
Proof.
  intros e k neg c seg base p IK OK ST L. rewrite (proj1 ST). cbn [fl0 fl_fold]. pose proof (Forall_inv (class_members_ok _ _ OK)) as MO.
  destruct (group_ok sf om FO ic k neg) as (x & E & X1 & X2 & X3 & X4). { intros EI y Y. unfold member_ok in MO. rewrite EI in MO. apply MO. exact Y. }
  rewrite E, append_order by (auto; constructor). rewrite app_nil_r, rev_involutive.
  assert (X3' : forall z, z <= 0x10FFFF -> (in_ranges x z <-> in_members sf ic false [MKind k neg] z)).
  { intros z Z. rewrite (X3 z Z). unfold in_members. split; [intros H; exists (MKind k neg); split; [left; reflexivity|exact H]|intros (m & [<-|[]] & H); exact H]. }
  pose proof (room_total _ _ OK) as RT. cbn [length map fold_right] in RT. assert (LN : N.of_nat (length x) <= 5000) by lia.
  destruct (class_node_ok x X1 X2 LN (late_ok _ _ x OK X1 X3')) as (G & M & CG). destruct (new_same p) as (NF & NS & NR & _). pose proof (new_num p) as NN.
  apply (class_after c 1 seg base p); auto; try lia. eapply eqm_trans; [exact M|apply class_ranges_pm; assumption].
Qed.
Lemma small_ok : forall r, r < 0x80 -> char_ok r.
Proof. intros r L. split; [unfold scalar; lia|]. intros _ G. lia. Qed.
Lemma escaped_after : forall c seg base p r, st c seg base p -> char_ok r -> (c + 2 <= 997)%nat ->
  exists p', literal sf om (reuse (new_node p) 1) r = Parsed p' /\ after_atom c 2 seg base (PChar r) p'.
Proof.
  intros c seg base p r ST OK L. destruct (new_same p) as (NF & NS & NR & _). pose proof (new_num p) as NN.
  apply (literal_after c 1 seg base p); [exact ST|exact OK|lia|exact NF|exact NS|exact NR|cbn [reuse pa_num]; lia].
Qed.
Lemma piece_start : forall lv pt s, written lv pt s -> lv <> Seq -> exists c s', s = c :: s' /\ c <> 63.
Proof.
  induction 1; intros NS; try congruence; try (eexists _, _; split; [reflexivity|discriminate]).
  - destruct bs as [|b bs]; [inversion H|]. exists b, bs. split; [reflexivity|]. intros ->. inversion H; subst; try lia. apply H0. do 4 right. left. reflexivity.
  - apply IHwritten. discriminate.
  - destruct IHwritten as (c & s' & -> & NE); [discriminate|]. exists c. eexists. split; [reflexivity|exact NE].
  - destruct IHwritten as (c & s' & -> & NE); [discriminate|]. exists c. eexists. split; [reflexivity|exact NE].
  - destruct IHwritten as (c & s' & -> & NE); [discriminate|]. exists c. eexists. split; [reflexivity|exact NE].
  - destruct IHwritten as (c & s' & -> & NE); [discriminate|]. exists c. eexists. split; [reflexivity|exact NE].
Qed.
Lemma sequence_start : forall pt s t, written Seq pt s -> at_end t -> no_quest (s ++ t).
Proof.
  intros pt s t W AE.
  intros t' E. inversion W as [| | | | | | | | | | | | | | | | | | |p1 q1 s1 t1 W1 W2|]; subst.
  - exact (AE t' E).
  - destruct (piece_start Piece p1 s1 W1) as (c & s' & -> & NE); [discriminate|]. cbn [app] in E. congruence.
  - discriminate E.
Qed.
Lemma then_pm : forall p q, eqm (pm (PThen p q)) (thenm (pm p) (pm q)).
Proof.
  intros p q pre w post. unfold pm. split.
  - intros X. inversion X; subst. exists u, v. auto.
  - intros (u & v & -> & A & B). apply pm_then; assumption.
Qed.
Lemma group_pm : forall p, eqm (pm (PGroup p)) (pm p).
Proof. intros p pre w post. unfold pm. split; intros X; [inversion X; subst; assumption|apply pm_group, X]. Qed.
Lemma loop_group : forall fuel t ag p, no_quest t -> parse_loop sf om (S fuel) (40 :: t) ag p =
  andthen (push (mkParser (pa_flags p) (pa_stack p) (pa_runes p) (S (pa_caps p)) (pa_num (new_node p)) (pa_free (new_node p))) (LeftParen (pa_flags p) (S (pa_caps p)))) (parse_loop sf om fuel t false).
Proof.
  intros fuel t ag p NQ. cbn [parse_loop N.eqb Pos.eqb]. replace (GoStr.has_prefix t [63]) with false; [reflexivity|].
  destruct t as [|c t]; [reflexivity|]. cbn [GoStr.has_prefix]. destruct (N.eqb_spec 63 c) as [<-|]; [exfalso; eapply NQ; reflexivity|]. reflexivity.
Qed.
Lemma plain_group : forall p t, parsePerlFlags p (58 :: t) = andthen (push (new_node p) (LeftParen (pa_flags p) 0)) (fun q => Parsed (with_flags q (pa_flags p), t)).
Proof.
  intros p t. unfold parsePerlFlags. replace (GoStr.has_prefix (58 :: t) [80; 60] || GoStr.has_prefix (58 :: t) [60]) with false by (destruct t; reflexivity).
  cbn [length]. rewrite flag_step by reflexivity. reflexivity.
Qed.
Lemma close_step : forall fuel t ag p, parse_loop sf om (S fuel) (41 :: t) ag p = andthen (parseRightParen p) (parse_loop sf om fuel t false).
Proof. reflexivity. Qed.

(** What a group does once it is opened. *)
Lemma group_rest : forall pt s, reads Seq pt s -> forall k t ag p c seg0 cap base fuel, st (c + S k) [] (LeftParen fl0 cap :: map Node seg0 ++ base) p -> bottomed base -> Forall good seg0 ->
  (c + S k + length s + 1 <= 997)%nat -> (length ((s ++ [41%N]) ++ t) < fuel)%nat ->
  exists fuel' p', parse_loop sf om fuel ((s ++ [41]) ++ t) ag p = parse_loop sf om fuel' t false p' /\ (length t < fuel')%nat /\ after_atom c (S k + length s + 1) seg0 base (PGroup pt) p'.
Proof.
  intros pt s R k t ag p c seg0 cap base fuel ST B F L LF. rewrite <- app_assoc in *. cbn [app] in *.
  destruct (R (41 :: t) ag p (c + S k)%nat [] _ fuel ST) as (f1 & ag1 & p1 & seg1 & E1 & L1 & ST1 & Q1); [lia|exact LF|intros t' X; discriminate X|].
  rewrite E1. destruct f1 as [|f1]; [lia|]. rewrite close_step.
  destruct (closed _ _ _ _ _ _ ST1 B F) as (p' & seg' & g & -> & ST' & Q' & M'); [lia|]. cbn [andthen]. exists f1, p'. split; [reflexivity|]. split; [cbn [length] in L1; lia|].
  exists seg', g. split; [replace (c + (S k + length s + 1))%nat with (S (c + S k + length s)) by lia; exact ST'|]. split; [exact Q'|]. split; [|discriminate].
  eapply eqm_trans; [exact M'|]. eapply eqm_trans; [exact Q1|]. eapply eqm_trans; [apply then_eq; [apply sems_nil|apply eqm_refl]|]. eapply eqm_trans; [apply then_empty_l|]. apply eqm_sym, group_pm.
Qed.
Lemma repeat_reads : forall o x, (o = OStar /\ x = 42) \/ (o = OPlus /\ x = 43) \/ (o = OQuest /\ x = 63) -> forall fuel t p,
  parse_loop sf om (S fuel) (x :: t) false p = andthen (repeat_op p o t false) (fun '(p, t) => parse_loop sf om fuel t true p).
Proof. intros o x [(-> & ->)|[(-> & ->)|(-> & ->)]] fuel t p; reflexivity. Qed.
Lemma piece_reads : forall o x pt s lz, (o = OStar /\ x = 42) \/ (o = OPlus /\ x = 43) \/ (o = OQuest /\ x = 63) -> reads Atom pt s -> In lz [[]; [63]] ->
  reads Piece (match o with OStar => PStar pt | OPlus => PPlus pt | OQuest => PQuest pt end) (s ++ [x] ++ lz).
Proof.
  intros o x pt s lz O R LZ t ag p c seg base fuel ST L LF NQ. rewrite <- app_assoc in *. cbn [app] in *. rewrite app_length in L. cbn [length] in L.
  destruct (R (x :: lz ++ t) ag p c seg base fuel ST) as (f1 & p1 & E1 & L1 & (seg1 & g & ST1 & Q1 & M1 & _)); [lia|exact LF|]. rewrite E1.
  destruct f1 as [|f1]; [lia|]. rewrite (repeat_reads o x O). destruct (repeat_after o _ seg1 base p1 g lz t ST1 LZ) as (p' & ng & -> & ST'); [intros _; exact NQ|lia|].
  cbn [andthen]. exists f1, true, p'. split; [reflexivity|]. split; [cbn [length] in L1; rewrite app_length in L1; lia|]. exists seg1, (repeated o ng g). rewrite app_length. cbn [length].
  split; [rewrite Nat.add_assoc; exact ST'|]. split; [exact Q1|]. split; [apply repeated_sem, M1|destruct o; discriminate].
Qed.

(** Counts. *)
Lemma digit_iff : forall c, digit c = true <-> 48 <= c <= 57.
Proof. intros c. unfold digit. rewrite andb_true_iff, !N.leb_le. tauto. Qed.
Lemma digits_read : forall s vs, Forall2 decimal_digit s vs -> forall n c t, digit c = false -> digits (s ++ c :: t) n = (fold_left (fun r v => 10 * r + v) vs n, c :: t).
Proof.
  induction 1 as [|d v s vs (D & ->) _ IH]; intros n c t NC; cbn [app digits fold_left]; [rewrite NC; reflexivity|].
  rewrite (proj2 (digit_iff d) D), IH by exact NC. do 2 f_equal. lia.
Qed.
Lemma int_read : forall n s c t, decimal n s -> digit c = false -> parseInt (s ++ c :: t) = Some (n, c :: t).
Proof.
  intros n s c t (NE & NZ & vs & F & ->) NC. rewrite <- (digits_read s vs F 0 c t NC). destruct F as [|d v s vs (D & ->) F]; [congruence|].
  unfold parseInt. cbn [app]. rewrite (proj2 (digit_iff d) D). destruct (N.eqb_spec d 48) as [->|]; [|reflexivity]. rewrite (NZ s eq_refl). cbn [app andb]. rewrite NC. reflexivity.
Qed.
Lemma count_read : forall min max b t, counting min max b -> exists min' max' b', b = 123 :: b' /\ parseRepeat (b' ++ t) = Some (min', max', t) /\ N.to_nat min' = min /\ option_map N.to_nat max' = max /\
  min' <= 1000 /\ match max' with Some m => min' <= m /\ m <= 1000 | None => True end.
Proof.
  intros min max b t C. destruct C as [n s D L|n s D L|n m s u D E L L'].
  - exists n, (Some n), (s ++ [125]). split; [reflexivity|]. split; [|repeat split; auto; lia]. unfold parseRepeat. rewrite <- app_assoc. cbn [app]. rewrite (int_read n s 125 t D eq_refl). reflexivity.
  - exists n, None, (s ++ [44; 125]). split; [reflexivity|]. split; [|repeat split; auto; lia]. unfold parseRepeat. rewrite <- app_assoc. cbn [app]. rewrite (int_read n s 44 _ D eq_refl). reflexivity.
  - exists n, (Some m), (s ++ [44] ++ u ++ [125]). split; [reflexivity|]. split; [|repeat split; auto; lia]. unfold parseRepeat. rewrite <- !app_assoc. cbn [app]. rewrite (int_read n s 44 _ D eq_refl). cbn [N.eqb Pos.eqb].
    rewrite (int_read m u 125 t E eq_refl). destruct E as (NE & _ & vs & F & _). destruct F as [|d v u vs (DD & _) _]; [congruence|]. cbn [app]. destruct (N.eqb_spec d 125) as [->|]; [lia|reflexivity].
Qed.
Lemma count_sem : forall g p, eqm (sem g) (pm p) -> forall ng min max, eqm (sem (GRepeat ng min max g)) (pm (PCount p min max)).
Proof.
  intros g p Q ng min max.
  assert (T : forall k, eqm (times (sem g) k) (pm (Nat.iter k (PThen p) PEmpty))).
  { induction k as [|k IH]; intros pre w post.
    - cbn [times Nat.iter]. unfold pm. split; [intros ->; apply pm_empty|intros X; inversion X; reflexivity].
    - cbn [times]. change (Nat.iter (S k) (PThen p) PEmpty) with (PThen p (Nat.iter k (PThen p) PEmpty)). unfold pm in *. split.
      + intros (u & v & -> & A & B). apply pm_then; [apply Q, A|apply IH, B].
      + intros X. inversion X; subst. exists u, v. split; [reflexivity|]. split; [apply Q; assumption|apply IH; assumption]. }
  intros pre w post. unfold sem. cbn [erase rmatch]. split.
  - intros (k & A & B & C). apply pm_count with k; [exact B|exact C|apply T, A].
  - intros X. unfold pm in X. inversion X; subst. exists k. split; [apply T; assumption|auto].
Qed.
Lemma leaf_valid : forall g n, leaf g = true -> repeat_valid g n = true.
Proof. intros g n L. destruct g; try discriminate L; reflexivity. Qed.
Lemma count_reads : forall pt s min max b lz, reads Atom pt s -> single pt = true -> counting min max b -> In lz [[]; [63]] -> reads Piece (PCount pt min max) (s ++ b ++ lz).
Proof.
  intros pt s min max b lz R SI CO LZ t ag p c seg base fuel ST L LF NQ. rewrite <- !app_assoc in *. rewrite !app_length in L.
  destruct (count_read min max b (lz ++ t) CO) as (min' & max' & b' & -> & P & <- & <- & L0 & L0'). cbn [app] in *. cbn [length] in L.
  destruct (R (123 :: b' ++ lz ++ t) ag p c seg base fuel ST) as (f1 & p1 & E1 & L1 & (seg1 & g & ST1 & Q1 & M1 & LG)); [lia|exact LF|]. rewrite E1. specialize (LG SI).
  destruct f1 as [|f1]; [lia|]. cbn [parse_loop N.eqb Pos.eqb]. rewrite P.
  replace ((1000 <? min') || match max' with Some m => (1000 <? m) || (m <? min') | None => false end) with false.
  2: { symmetry. apply orb_false_iff. split; [apply N.ltb_ge, L0|]. destruct max' as [m|]; [|reflexivity]. apply orb_false_iff. split; apply N.ltb_ge; tauto. }
  unfold repeat_count. destruct (repeat_made (fun ng sub => GRepeat ng (N.to_nat min') (option_map N.to_nat max') sub) (length b' + length lz) _ seg1 base p1 g lz t ST1 LZ) as (p' & ng & -> & ST'); [intros _; exact NQ|lia| |].
  { intros ng. split; [reflexivity|]. intros (A1 & A2 & A3 & A4 & A5). split; [split; [destruct max' as [m|]; [cbn [option_map]; lia|exact I]|exact A1]|]. split; [exact A2|]. split; [exact A3|]. split; [exact A4|].
    cbn [small]. split; [exact LG|]. split; [lia|]. split; [destruct max' as [m|]; [cbn [option_map]; lia|exact I]|exact A5]. }
  cbn [andthen]. rewrite (proj1 (proj2 ST')). cbn [map app].
  assert (V : repeat_valid (GRepeat ng (N.to_nat min') (option_map N.to_nat max') g) 1000 = true).
  { cbn [repeat_valid]. destruct max' as [m|]; cbn [option_map].
    - destruct (N.to_nat m) as [|k] eqn:EM; [reflexivity|]. replace (Nat.ltb 1000 (S k)) with false by (symmetry; apply Nat.ltb_ge; lia). apply leaf_valid, LG.
    - replace (Nat.ltb 1000 (N.to_nat min')) with false by (symmetry; apply Nat.ltb_ge; lia). destruct (N.to_nat min'); apply leaf_valid, LG. }
  rewrite V. cbn [negb]. rewrite andb_false_r. cbn [andthen]. exists f1, true, p'. split; [reflexivity|]. split; [cbn [length] in L1; rewrite !app_length in L1; lia|].
  exists seg1, (GRepeat ng (N.to_nat min') (option_map N.to_nat max') g). rewrite !app_length. cbn [length].
  split; [rewrite app_length, Nat.add_assoc; exact ST'|]. split; [exact Q1|]. split; [apply count_sem, M1|discriminate].
Qed.

(** Characters between \Q and \E. *)
Lemma cut_read : forall s t, (forall a b, s <> a ++ [92; 69] ++ b) -> cut_verbatim (s ++ 92 :: 69 :: t) = (s, t).
Proof.
  induction s as [|c s IH]; intros t NO; cbn [app cut_verbatim].
  - cbn [GoStr.has_prefix N.eqb Pos.eqb andb]. destruct t; reflexivity.
  - assert (H : GoStr.has_prefix (c :: s ++ 92 :: 69 :: t) [92; 69] = false).
    { cbn [GoStr.has_prefix]. destruct (N.eqb_spec 92 c) as [<-|]; [|reflexivity]. cbn [andb]. destruct s as [|d s]; [reflexivity|]. cbn [app GoStr.has_prefix]. destruct (N.eqb_spec 69 d) as [<-|]; [|reflexivity]. exfalso. apply (NO [] s). reflexivity. }
    rewrite H, IH; [reflexivity|]. intros a b E. apply (NO (c :: a) b). rewrite E. reflexivity.
Qed.
Lemma st_more : forall c c' seg base p, st c seg base p -> (c <= c')%nat -> st c' seg base p.
Proof. intros c c' seg base p (A & B & C & D & E & F & G) L. do 4 (split; [assumption|]). split; [lia|]. split; lia. Qed.
Lemma literals_read : forall rs s, spelled rs s -> forall fuel p c seg base, st c seg base p -> (c + length s <= 997)%nat -> (length s <= fuel)%nat -> Forall char_ok rs ->
  exists p' seg', literals sf om fuel s p = Parsed p' /\ st (c + length s) seg' base p' /\ eqm (sems (rev seg')) (thenm (sems (rev seg)) (pm (verbatim rs PEmpty))).
Proof.
  induction 1 as [|r bs rs s U SP IH]; intros fuel p c seg base ST L LF OK.
  - exists p, seg. split; [destruct fuel; reflexivity|]. cbn [length]. rewrite Nat.add_0_r. split; [exact ST|]. cbn [verbatim].
    apply eqm_sym. eapply eqm_trans; [apply then_eq; [apply eqm_refl|]|apply then_empty_r]. intros pre w post. unfold pm, emptym. split; [intros X; inversion X; reflexivity|intros ->; apply pm_empty].
  - apply Forall_cons_iff in OK. destruct OK as (O1 & OK). assert (NE : bs <> []) by (eapply utf8_nonempty; eauto). rewrite app_length in *. destruct bs as [|b bs]; [congruence|]. cbn [length] in *.
    destruct fuel as [|fuel]; [lia|]. cbn [app literals]. change (b :: bs ++ s) with ((b :: bs) ++ s). rewrite (next_utf8 r _ s U). cbn [andthen].
    destruct (literal_after c (length bs) seg base p p r ST O1) as (p1 & -> & (seg1 & g & ST1 & Q1 & M1 & _)); [lia|reflexivity|reflexivity|reflexivity|lia|]. cbn [andthen].
    destruct (IH fuel p1 _ _ base ST1) as (p2 & seg2 & E2 & ST2 & Q2); [lia|lia|exact OK|]. exists p2, seg2. split; [exact E2|]. rewrite Nat.add_assoc. split; [exact ST2|].
    eapply eqm_trans; [exact Q2|]. cbn [rev verbatim]. eapply eqm_trans; [apply then_eq; [eapply eqm_trans; [apply sems_app|apply then_eq; [exact Q1|eapply eqm_trans; [apply sems_one|exact M1]]]|apply eqm_refl]|].
    eapply eqm_trans; [apply then_assoc|]. apply then_eq; [apply eqm_refl|]. apply eqm_sym, then_pm.
Qed.
Lemma verbatim_then : forall rs q, eqm (pm (verbatim rs q)) (thenm (pm (verbatim rs PEmpty)) (pm q)).
Proof.
  induction rs as [|r rs IH]; intros q; cbn [verbatim].
  - apply eqm_sym. eapply eqm_trans; [apply then_eq; [|apply eqm_refl]|apply then_empty_l]. intros pre w post. unfold pm, emptym. split; [intros X; inversion X; reflexivity|intros ->; apply pm_empty].
  - eapply eqm_trans; [apply then_pm|]. eapply eqm_trans; [apply then_eq; [apply eqm_refl|apply IH]|]. eapply eqm_trans; [apply eqm_sym, then_assoc|]. apply then_eq; [apply eqm_sym, then_pm|apply eqm_refl].
Qed.
Lemma spelled_scalar : forall rs s, spelled rs s -> Forall scalar rs.
Proof. induction 1; constructor; [eapply utf8_scalar; eauto|assumption]. Qed.
Lemma verbatim_chars : forall rs q, chars_of (verbatim rs q) = rs ++ chars_of q /\ classes_of (verbatim rs q) = classes_of q.
Proof. induction rs as [|r rs IH]; intros q; [split; reflexivity|]. destruct (IH q) as (A & B). cbn [verbatim chars_of classes_of app]. rewrite A, B. split; reflexivity. Qed.
Theorem written_read : forall lv pt s, written lv pt s -> chars_ok pt -> reads lv pt s.
Proof.
  induction 1; intros OK.
  - intros t ag p c seg base fuel ST L LF. destruct fuel as [|fuel]; [lia|]. rewrite (char_step sf om fuel r bs t ag p H (not_in_meta r H0)).
    assert (NE : bs <> []) by (eapply utf8_nonempty; eauto). destruct (length bs) as [|k] eqn:EB; [destruct bs; [congruence|discriminate]|].
    destruct (literal_after c k seg base p p r ST) as (p' & -> & A); [split; [eapply utf8_scalar; eauto|intros E G; apply (proj1 OK); [left; reflexivity|exact E|exact G]]|lia|reflexivity|reflexivity|reflexivity|lia|].
    exists fuel, p'. split; [reflexivity|]. split; [rewrite app_length in LF; lia|exact A].
  - intros t ag p c seg base fuel ST L LF. destruct fuel as [|fuel]; [lia|]. cbn [app] in *. rewrite (escape_step sf om fuel r t ag p H (not_letter r H0)).
    destruct (escaped_after c seg base p r ST (small_ok r H)) as (p' & -> & A); [exact L|]. exists fuel, p'. split; [reflexivity|]. split; [cbn [length] in LF; lia|exact A].
  - intros t ag p c0 seg base fuel ST L LF. destruct fuel as [|fuel]; [lia|]. cbn [app] in *. rewrite (control_step fuel c r t ag p H).
    assert (R : r < 0x80). { unfold controls in H. cbn [In] in H. repeat (destruct H as [E|H]; [injection E as _ <-; reflexivity|]). destruct H. }
    destruct (escaped_after c0 seg base p r ST (small_ok r R)) as (p' & -> & A); [exact L|]. exists fuel, p'. split; [reflexivity|]. split; [cbn [length] in LF; lia|exact A].
  - intros t ag p c seg base fuel ST L LF. destruct fuel as [|fuel]; [lia|]. destruct (number_read r s H) as (R & SC & c0 & s' & -> & P & G & LO & NQ). cbn [app] in *. rewrite (escape_with sf om fuel c0 (s' ++ t) r t ag p (R t) P G LO NQ).
    destruct (new_same (reuse (new_node p) 1)) as (NF & NS & NR & _). destruct (new_same p) as (NF' & NS' & NR' & _). pose proof (new_num p) as NN.
    destruct (literal_after c (S (length s')) seg base p (reuse (new_node p) 1) r ST) as (p' & -> & A); [split; [exact SC|intros E Z; apply (proj1 OK); [left; reflexivity|exact E|exact Z]]|cbn [length] in L; lia|assumption|assumption|assumption|cbn [reuse pa_num]; lia|].
    exists fuel, p'. split; [reflexivity|]. split; [cbn [length] in LF; rewrite app_length in LF; lia|exact A].
  - intros t ag p c seg base fuel ST L LF. destruct fuel as [|fuel]; [lia|]. cbn [app length] in *. pose proof (proj1 ST) as EF.
    destruct (op_after c 0 seg base p GAnyNotNL PAny ST) as (p' & E & A); [repeat split|reflexivity| |reflexivity|lia|].
    { intros pre w post. unfold sem, pm. cbn [erase rmatch]. split; [intros (r & U & NE); eapply pm_any; eauto|intros X; inversion X; subst; eauto]. }
    exists fuel, p'. split; [|split; [lia|exact A]]. cbn [parse_loop N.eqb Pos.eqb]. rewrite EF. cbn [fl0 fl_dotnl]. rewrite E. reflexivity.
  - intros t ag p c seg base fuel ST L LF. destruct fuel as [|fuel]; [lia|]. destruct (parse_class_after neg ms s t c seg base p H) as (p' & E & A); [apply OK; left; reflexivity|exact ST|exact L|].
    exists fuel, p'. split; [|split; [rewrite app_length in LF; cbn [app length] in LF; rewrite !app_length in LF; lia|exact A]].
    replace (([91] ++ (if neg then [94] else []) ++ s ++ [93]) ++ t) with (91 :: ((if neg then [94] else []) ++ s ++ 93 :: t)) by (cbn [app]; rewrite <- !app_assoc; reflexivity).
    cbn [parse_loop N.eqb Pos.eqb]. rewrite E. reflexivity.
  - intros t ag p c0 seg base fuel ST L LF. destruct fuel as [|fuel]; [lia|]. cbn [app length] in *. destruct (perl_known c k neg H) as (EG & EP & LO & NQ).
    destruct (kind_after c k neg c0 seg base p H) as (p' & E & A); [apply OK; left; reflexivity|exact ST|exact L|].
    exists fuel, p'. split; [|split; [lia|exact A]]. cbn [parse_loop N.eqb Pos.eqb existsb orb]. rewrite LO. cbn [GoStr.has_prefix]. rewrite (proj2 (N.eqb_neq 81 c)) by congruence. cbn [andb]. rewrite EP. cbn [perl_escape N.eqb Pos.eqb skipn]. rewrite EG, E. reflexivity.
  - intros t ag p c seg base fuel ST L LF. destruct fuel as [|fuel]; [lia|]. cbn [app length] in *. pose proof (proj1 ST) as EF.
    destruct (op_after c 0 seg base p (GZero (if negb ml then ZBeginText else ZBeginLine)) PStart ST) as (p' & E & A); [apply zero_good; intros EM; rewrite EM; discriminate|reflexivity| |discriminate|lia|].
    { intros pre w post. unfold sem, pm. cbn [erase rmatch assertion]. destruct ml; cbn [negb assertion]; (split; [intros (-> & X); apply pm_start; tauto|intros X; inversion X; subst; split; [reflexivity|]; intuition congruence]). }
    exists fuel, p'. split; [|split; [lia|exact A]]. cbn [parse_loop N.eqb Pos.eqb]. rewrite EF. cbn [fl0 fl_oneline]. rewrite E. reflexivity.
  - intros t ag p c seg base fuel ST L LF. destruct fuel as [|fuel]; [lia|]. cbn [app length] in *. pose proof (proj1 ST) as EF.
    destruct (op_after c 0 seg base p (GZero (if negb ml then ZEndText else ZEndLine)) PEnd ST) as (p' & E & A); [apply zero_good; intros _; destruct ml; discriminate|reflexivity| |discriminate|lia|].
    { intros pre w post. unfold sem, pm. cbn [erase rmatch assertion]. destruct ml; cbn [negb assertion]; (split; [intros (-> & X); apply pm_end; tauto|intros X; inversion X; subst; split; [reflexivity|]; intuition congruence]). }
    exists fuel, p'. split; [|split; [lia|exact A]]. cbn [parse_loop N.eqb Pos.eqb]. rewrite EF. cbn [fl0 fl_oneline]. rewrite E. reflexivity.
  - intros t ag p c seg base fuel ST L LF. destruct fuel as [|fuel]; [lia|]. cbn [app length] in *.
    destruct (op_after c 1 seg base p (GZero ZWord) PEdge ST) as (p' & E & A); [apply zero_good; intros _; discriminate|reflexivity| |discriminate|lia|].
    { intros pre w post. unfold sem, pm. cbn [erase rmatch assertion]. split; [intros (-> & X); apply pm_edge, X|intros X; inversion X; subst; auto]. }
    exists fuel, p'. split; [|split; [lia|exact A]]. cbn [parse_loop N.eqb Pos.eqb existsb orb position left_out skipn GoStr.has_prefix andb]. rewrite E. reflexivity.
  - intros t ag p c seg base fuel ST L LF. destruct fuel as [|fuel]; [lia|]. cbn [app length] in *.
    destruct (op_after c 1 seg base p (GZero ZNoWord) PNoEdge ST) as (p' & E & A); [apply zero_good; intros _; discriminate|reflexivity| |discriminate|lia|].
    { intros pre w post. unfold sem, pm. cbn [erase rmatch assertion]. split; [intros (-> & X); apply pm_noedge, X|intros X; inversion X; subst; auto]. }
    exists fuel, p'. split; [|split; [lia|exact A]]. cbn [parse_loop N.eqb Pos.eqb existsb orb position left_out skipn GoStr.has_prefix andb]. rewrite E. reflexivity.
  - intros t ag q c seg base fuel ST L LF. destruct fuel as [|fuel]; [lia|]. cbn [app] in *. cbn [length] in L, LF. rewrite app_length in L. cbn [length] in L.
    rewrite loop_group by (rewrite <- app_assoc; eapply sequence_start; [eassumption|intros t' X; discriminate X]). pose proof (proj1 ST) as EF. rewrite EF.
    destruct (new_same q) as (NF & NS & NR & _). pose proof (new_num q) as NN.
    destruct (opened_paren c 0 seg base q (mkParser fl0 (pa_stack q) (pa_runes q) (S (pa_caps q)) (pa_num (new_node q)) (pa_free (new_node q))) (S (pa_caps q)) ST) as (p1 & seg1 & -> & ST1 & B & F1 & Q1);
      cbn [pa_flags pa_stack pa_runes pa_num]; [lia|congruence|reflexivity|reflexivity|lia|]. cbn [andthen].
    destruct (group_rest p s (IHwritten OK) 0 t false p1 c seg1 _ base fuel ST1 B F1) as (f2 & p2 & E2 & L2 & (seg2 & g & ST2 & Q2 & M2 & _)); [lia|lia|].
    rewrite E2. exists f2, p2. split; [reflexivity|]. split; [exact L2|]. exists seg2, g. cbn [length]. rewrite app_length. cbn [length]. split; [replace (S (length s + 1)) with (1 + length s + 1)%nat by lia; exact ST2|].
    split; [eapply eqm_trans; eassumption|]. split; [exact M2|discriminate].
  - intros t ag q c seg base fuel ST L LF. destruct fuel as [|fuel]; [lia|]. cbn [app] in *. cbn [length] in L, LF. rewrite app_length in L. cbn [length] in L.
    rewrite group_step, plain_group. pose proof (proj1 ST) as EF. rewrite EF.
    destruct (new_same q) as (NF & NS & NR & _). pose proof (new_num q) as NN.
    destruct (opened_paren c 2 seg base q (new_node q) 0 ST) as (p1 & seg1 & -> & ST1 & B & F1 & Q1); [lia|congruence|congruence|congruence|lia|]. cbn [andthen].
    assert (ST1' : st (c + 3) [] (LeftParen fl0 0 :: map Node seg1 ++ base) (with_flags p1 fl0)) by (destruct ST1 as (_ & ST1); split; [reflexivity|exact ST1]).
    destruct (group_rest p s (IHwritten OK) 2 t false _ c seg1 _ base fuel ST1' B F1) as (f2 & p2 & E2 & L2 & (seg2 & g & ST2 & Q2 & M2 & _)); [lia|lia|].
    rewrite E2. exists f2, p2. split; [reflexivity|]. split; [exact L2|]. exists seg2, g. cbn [length]. rewrite app_length. cbn [length]. split; [replace (S (S (S (length s + 1)))) with (3 + length s + 1)%nat by lia; exact ST2|].
    split; [eapply eqm_trans; eassumption|]. split; [exact M2|discriminate].
  - intros t ag q c seg base fuel ST L LF NQ. destruct (IHwritten OK t ag q c seg base fuel ST L LF) as (f & p' & E & X). exists f, false, p'. auto.
  - apply (piece_reads OStar 42); auto.
  - apply (piece_reads OPlus 43); auto.
  - apply (piece_reads OQuest 63); auto 6.
  - apply count_reads; auto.
  - intros t ag q c seg base fuel ST L LF AE. exists fuel, ag, q, seg. split; [reflexivity|]. split; [exact LF|]. cbn [length]. rewrite Nat.add_0_r. split; [exact ST|].
    apply eqm_sym. eapply eqm_trans; [apply then_eq; [apply eqm_refl|]|apply then_empty_r]. intros pre w post. unfold pm, emptym. split; [intros X; inversion X; reflexivity|intros ->; apply pm_empty].
  - intros t0 ag p0 c seg base fuel ST L LF AE. rewrite <- app_assoc in *. rewrite app_length in L.
    assert (OK1 : chars_ok p) by (destruct OK as (OA & OB); split; [intros r I; apply OA; cbn [chars_of]; apply in_or_app; auto|intros n ms I; apply OB; cbn [classes_of]; apply in_or_app; auto]).
    assert (OK2 : chars_ok q) by (destruct OK as (OA & OB); split; [intros r I; apply OA; cbn [chars_of]; apply in_or_app; auto|intros n ms I; apply OB; cbn [classes_of]; apply in_or_app; auto]).
    destruct (IHwritten1 OK1 (t ++ t0) ag p0 c seg base fuel ST) as (f1 & ag1 & p1 & E1 & L1 & (seg1 & g & ST1 & Q1 & M1 & _)); [lia|exact LF|eapply sequence_start; eassumption|].
    destruct (IHwritten2 OK2 t0 ag1 p1 _ _ base f1 ST1) as (f2 & ag2 & p2 & seg2 & E2 & L2 & ST2 & Q2); [lia|exact L1|exact AE|].
    exists f2, ag2, p2, seg2. split; [congruence|]. split; [exact L2|]. rewrite app_length, Nat.add_assoc. split; [exact ST2|].
    eapply eqm_trans; [exact Q2|]. cbn [rev]. eapply eqm_trans; [apply then_eq; [eapply eqm_trans; [apply sems_app|apply then_eq; [exact Q1|eapply eqm_trans; [apply sems_one|exact M1]]]|apply eqm_refl]|].
    eapply eqm_trans; [apply then_assoc|]. apply then_eq; [apply eqm_refl|]. apply eqm_sym, then_pm.
  - intros t0 ag p0 c seg base fuel ST L LF AE. destruct fuel as [|fuel]; [lia|]. destruct (verbatim_chars rs q) as (VC & VL).
    assert (OK1 : Forall char_ok rs). { apply Forall_forall. intros r I. split; [pose proof (spelled_scalar _ _ H) as F; rewrite Forall_forall in F; apply F, I|]. intros E G. apply (proj1 OK); [rewrite VC; apply in_or_app; auto|exact E|exact G]. }
    assert (OK2 : chars_ok q) by (destruct OK as (OA & OB); split; [intros r I; apply OA; rewrite VC; apply in_or_app; auto|intros n ms I; apply OB; rewrite VL; exact I]).
    replace (([92; 81] ++ s ++ [92; 69] ++ t) ++ t0) with (92 :: 81 :: s ++ 92 :: 69 :: t ++ t0) in * by (cbn [app]; rewrite <- app_assoc; reflexivity).
    cbn [length] in LF. rewrite app_length in LF. cbn [app length] in L, LF. rewrite app_length in L. cbn [length] in L.
    cbn [parse_loop N.eqb Pos.eqb existsb orb left_out GoStr.has_prefix andb skipn]. rewrite (cut_read s (t ++ t0) H0).
    destruct (literals_read rs s H (length s) p0 c seg base ST) as (p1 & seg1 & E1 & ST1 & Q1); [lia|lia|exact OK1|]. replace (GoStr.has_prefix (s ++ 92 :: 69 :: t ++ t0) []) with true by (destruct s; reflexivity).
    rewrite E1. cbn [andthen]. destruct (IHwritten OK2 t0 false p1 _ _ base fuel (st_more _ (c + length s + 4) _ _ _ ST1 (Nat.le_add_r _ _))) as (f2 & ag2 & p2 & seg2 & E2 & L2 & ST2 & Q2); [lia|lia|exact AE|].
    exists f2, ag2, p2, seg2. split; [exact E2|]. split; [exact L2|]. split; [eapply st_more; [exact ST2|]; cbn [app length]; rewrite app_length; cbn [length]; lia|].
    eapply eqm_trans; [exact Q2|]. eapply eqm_trans; [apply then_eq; [exact Q1|apply eqm_refl]|]. eapply eqm_trans; [apply then_assoc|]. apply then_eq; [apply eqm_refl|]. apply eqm_sym, verbatim_then.
Qed.

(** The whole pattern. *)
Lemma parse_from : forall pt s p0 fuel, written Seq pt s -> chars_ok pt -> (length s <= 997)%nat -> p0 = mkParser fl0 [] 0 0 0 0 -> (length s < fuel)%nat ->
  exists g, andthen (parse_loop sf om fuel s false p0) (fun p => andthen (concat p) (fun p => andthen (alternate p) (fun p => match pa_stack p with [Node re] => if counted re && (max_size <? size re) then Beyond else Parsed re | _ => Refused end))) = Parsed g /\
    good g /\ eqm (sem g) (pm pt).
Proof.
  intros pt s p0 fuel W OK L -> LF. set (p0 := mkParser _ _ _ _ _ _).
  assert (ST : st 0 [] [] p0). { split; [reflexivity|]. split; [reflexivity|]. split; [left; reflexivity|]. split; [constructor|]. split; [cbn; lia|]. split; cbn; lia. }
  destruct (written_read Seq pt s W OK [] false p0 0%nat [] [] fuel ST) as (f1 & ag1 & p1 & seg1 & E1 & L1 & ST1 & Q1); [lia|rewrite app_nil_r; exact LF|intros t' X; discriminate X|].
  rewrite app_nil_r in E1. destruct f1 as [|f1]; [lia|]. cbn [parse_loop] in E1.
  destruct (concat_end _ _ _ _ ST1) as (p2 & p3 & g & E2 & E3 & S3 & G & M & CG & _); [lia|].
  pose proof (size_cost g (proj2 (proj2 (proj2 (proj2 G))))) as SZ. pose proof (proj1 (proj2 (proj2 (proj2 (proj2 ST1))))) as C1. cbn [stack_cost] in C1.
  exists g. rewrite E1. cbn [andthen]. rewrite E2. cbn [andthen]. rewrite E3. cbn [andthen]. rewrite S3. split; [replace (max_size <? size g) with false by (symmetry; apply N.ltb_ge; unfold max_size; lia); rewrite andb_false_r; reflexivity|]. split; [exact G|].
  eapply eqm_trans; [exact M|]. eapply eqm_trans; [exact Q1|]. eapply eqm_trans; [apply then_eq; [apply sems_nil|apply eqm_refl]|]. apply then_empty_l.
Qed.
End Parse.

(** With the flags of a search in front, and as a filter. *)
Theorem parse_search : forall sf om ic pt s, folding sf om -> written Seq pt s -> chars_ok sf om ic pt -> (length s <= 997)%nat ->
  exists g, Parse sf om (GetRegexpPattern s ic) = Parsed g /\ good sf om true g /\ forall pre w post, rmatch sf (erase g) pre w post <-> pmatch sf ic true pt pre w post.
Proof.
  intros sf om ic pt s FO W OK L. destruct (flags_read sf om ic s) as (fuel & LF & E).
  destruct (parse_from sf om FO ic true pt s _ fuel W OK L eq_refl LF) as (g & EP & G & M). exists g. unfold Parse. rewrite E. split; [exact EP|]. split; [exact G|exact M].
Qed.
Theorem parse_filter : forall sf om pt s, folding sf om -> written Seq pt s -> classes_ok sf om false pt -> (length s <= 997)%nat ->
  exists g, Parse sf om s = Parsed g /\ good sf om false g /\ forall pre w post, rmatch sf (erase g) pre w post <-> pmatch sf false false pt pre w post.
Proof.
  intros sf om pt s FO W CO L.
  destruct (parse_from sf om FO false false pt s parser0 (S (length s)) W) as (g & EP & G & M); [split; [intros r _ E; discriminate E|exact CO]|exact L|reflexivity|lia|].
  exists g. split; [exact EP|]. split; [exact G|exact M].
Qed.
