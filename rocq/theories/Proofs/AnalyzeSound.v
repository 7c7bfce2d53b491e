(** The analysis on values never asks for more than a match contains. *)
From Verif Require Import Model.Base Model.Query Model.Utf8 Model.Syntax Model.Analyze
  Spec.QuerySpec Spec.Utf8Spec Spec.RegexSpec
  Proofs.ListLemmas Proofs.StrLemmas Proofs.QueryProofs Proofs.Utf8Proofs Proofs.StoreProofs Proofs.AnalyzePure.
Local Open Scope nat_scope.

Definition part (w t : str) : Prop := exists u v, w = u ++ t ++ v.
Definition affix (b : bool) (x w : str) : Prop := if b then exists u, w = u ++ x else exists v, w = x ++ v.

Lemma part_trans : forall a b c, part a b -> part b c -> part a c.
Proof. intros a b c (u & v & ->) (u' & v' & ->). exists (u ++ u'), (v' ++ v). rewrite <- !app_assoc. reflexivity. Qed.
Lemma affix_part : forall b x w, affix b x w -> part w x.
Proof. intros [|] x w (u & ->); [exists u, []; rewrite app_nil_r; reflexivity|exists [], u; reflexivity]. Qed.
Lemma affix_refl : forall b x, affix b x x.
Proof. intros [|] x; exists []; [reflexivity|symmetry; apply app_nil_r]. Qed.
Lemma affix_trans : forall b x y w, affix b x y -> affix b y w -> affix b x w.
Proof.
  intros [|] x y w (u & ->) (u' & ->); [exists (u' ++ u); apply app_assoc|exists (u ++ u'); symmetry; apply app_assoc].
Qed.
Lemma affix_nil : forall b w, affix b [] w.
Proof. intros [|] w; exists w; [symmetry; apply app_nil_r|reflexivity]. Qed.

Lemma trigrams_part : forall x t, In t (trigrams_of x) -> part x t.
Proof.
  induction x as [|a x IH]; intros t I; [contradiction|].
  destruct x as [|b [|c x]]; cbn [trigrams_of] in I; [contradiction|destruct I|].
  destruct I as [<-|I].
  - exists [], x. reflexivity.
  - destruct (IH t I) as (u & v & E). exists (a :: u), v. cbn. rewrite <- E. reflexivity.
Qed.

Lemma sat_mono : forall (T U : str -> Prop) q, (forall t, T t -> U t) -> sat T q -> sat U q.
Proof.
  intros T U. fix IH 1. intros [op tri sub] M S. destruct op; cbn [sat] in *; auto.
  - destruct S as (A & B). split; [auto|]. clear A.
    revert sub B. fix G 1. intros [|x sub] B; cbn in *; [exact I|]. destruct B as (B1 & B2). split; [apply IH; assumption|apply G, B2].
  - destruct S as [(t & I & A)|B]; [left; exists t; auto|right].
    revert sub B. fix G 1. intros [|x sub] B; cbn in *; [exact B|]. destruct B as [B|B]; [left; apply IH; assumption|right; apply G, B].
Qed.

Definition holds (p : pinfo) (w : str) : Prop :=
  sat (part w) (p_match p) /\
  match p_exact p with
  | Some l => In w l
  | None => (exists x, In x (p_prefix p) /\ affix false x w) /\ (exists x, In x (p_suffix p) /\ affix true x w)
  end.
Definition pwf (p : pinfo) : Prop := wf_query (p_match p).

(* sets *)
Lemma trunc_affix : forall n b x, affix b (trunc n b x) x.
Proof.
  intros n b x. unfold trunc. destruct (Nat.leb n (length x)); [|apply affix_refl]. destruct b.
  - exists (firstn (length x - n + 1) x). symmetry. apply firstn_skipn.
  - exists (skipn (n - 1) x). symmetry. apply firstn_skipn.
Qed.

Lemma round_covers : forall b n l w, (exists x, In x l /\ affix b x w) -> exists x, In x (p_round b n l) /\ affix b x w.
Proof.
  intros b n l w (x & I & A). exists (trunc n b x). split.
  - unfold p_round. apply clean_in, dedup_none_in, in_map, I.
  - eapply affix_trans; [apply trunc_affix|exact A].
Qed.

Lemma has_prefix_ok : forall p x, has_prefix x p = true -> exists v, x = p ++ v.
Proof.
  induction p as [|c p IH]; intros x H; cbn in H; [exists x; reflexivity|].
  destruct x as [|d x]; [discriminate|]. apply andb_true_iff in H. destruct H as (E & H). apply N.eqb_eq in E. subst d.
  destruct (IH x H) as (v & ->). exists v. reflexivity.
Qed.
Lemma has_affix_ok : forall b x p, has_affix b x p = true -> affix b p x.
Proof.
  intros [|] x p H; cbn in *; apply has_prefix_ok in H; destruct H as (v & E).
  - exists (rev v). rewrite <- (rev_involutive x), E, rev_app_distr, rev_involutive. reflexivity.
  - exists v. exact E.
Qed.

Lemma drop_covers : forall b l last w, (exists x, In x l /\ affix b x w) ->
  (exists x, In x (drop_longer b last l) /\ affix b x w) \/ (exists y, last = Some y /\ affix b y w).
Proof.
  induction l as [|x l IH]; intros last w (z & I & A); [contradiction|]. cbn [drop_longer].
  destruct last as [y|].
  - destruct (has_affix b x y) eqn:H.
    + destruct I as [<-|I].
      * right. exists y. split; [reflexivity|]. eapply affix_trans; [apply has_affix_ok, H|exact A].
      * apply IH. exists z. auto.
    + destruct I as [<-|I]; [left; exists x; split; [left; reflexivity|exact A]|].
      destruct (IH (Some x) w) as [(u & J & B)|(u & E & B)]; [exists z; auto|left; exists u; split; [right; exact J|exact B]|].
      injection E as <-. left. exists x. split; [left; reflexivity|exact B].
  - destruct I as [<-|I]; [left; exists x; split; [left; reflexivity|exact A]|].
    destruct (IH (Some x) w) as [(u & J & B)|(u & E & B)]; [exists z; auto|left; exists u; split; [right; exact J|exact B]|].
    injection E as <-. left. exists x. split; [left; reflexivity|exact B].
Qed.

Lemma reduce_covers : forall b l w, (exists x, In x l /\ affix b x w) -> exists x, In x (p_reduce b l) /\ affix b x w.
Proof.
  intros b l w H. unfold p_reduce. apply (round_covers b 3) in H.
  set (l3 := p_round b 3 l) in *. clearbody l3.
  assert (exists x, In x (if max_set <? length l3 then p_round b 2 l3 else l3) /\ affix b x w) as H2.
  { destruct (Nat.ltb _ _); [apply round_covers, H|exact H]. }
  set (l2 := if max_set <? length l3 then p_round b 2 l3 else l3) in *. clearbody l2.
  assert (exists x, In x (if max_set <? length l2 then p_round b 1 l2 else l2) /\ affix b x w) as H1.
  { destruct (Nat.ltb _ _); [apply round_covers, H2|exact H2]. }
  destruct (drop_covers b _ None w H1) as [K|(y & E & _)]; [exact K|discriminate].
Qed.

(** Adding the trigrams of alternatives, one of which is in the text. *)
Lemma and_trigrams_holds : forall q l w, wf_query q -> sat (part w) q -> (exists x, In x l /\ part w x) ->
  wf_query (and_trigrams q l) /\ sat (part w) (and_trigrams q l).
Proof.
  intros q l w W S (x & I & P). destruct (and_trigrams_spec (part w) q l W) as (A & B). split; [exact A|].
  apply B. split; [exact S|]. right. exists x. split; [exact I|]. intros t J.
  eapply part_trans; [exact P|]. apply trigrams_part, J.
Qed.
Lemma and_trigrams_wf : forall q l, wf_query q -> wf_query (and_trigrams q l).
Proof. intros q l W. apply (and_trigrams_spec (fun _ => True) q l W). Qed.

Lemma sets_wf : forall p, pwf p -> pwf (p_sets p).
Proof. intros p W. unfold p_sets, p_simplify_set, pwf in *. cbn [p_exact p_prefix p_suffix p_match p_can]. apply and_trigrams_wf, and_trigrams_wf, W. Qed.

Lemma sets_holds : forall p w, pwf p -> p_exact p = None -> holds p w -> holds (p_sets p) w.
Proof.
  intros p w W E (S & H). rewrite E in H. destruct H as (HP & HS). unfold holds, p_sets, p_simplify_set. cbn [p_exact p_prefix p_suffix p_match p_can].
  assert (exists x, In x (clean_list false (p_prefix p)) /\ affix false x w) as HP'.
  { destruct HP as (x & I & A). exists x. split; [apply clean_in, I|exact A]. }
  assert (exists x, In x (clean_list true (p_suffix p)) /\ affix true x w) as HS'.
  { destruct HS as (x & I & A). exists x. split; [apply clean_in, I|exact A]. }
  rewrite E. split; [|split; apply reduce_covers; assumption].
  destruct (and_trigrams_holds (p_match p) (clean_list false (p_prefix p)) w W S) as (W1 & S1).
  { destruct HP' as (x & I & A). exists x. split; [exact I|]. eapply affix_part, A. }
  apply and_trigrams_holds; [exact W1|exact S1|].
  destruct HS' as (x & I & A). exists x. split; [exact I|]. eapply affix_part, A.
Qed.

Lemma head2_affix : forall x, affix false (head2 x) x.
Proof. intros x. unfold head2. destruct (Nat.ltb _ _); [apply affix_refl|]. exists (skipn 2 x). symmetry. apply firstn_skipn. Qed.
Lemma tail2_affix : forall x, affix true (tail2 x) x.
Proof. intros x. unfold tail2. destruct (Nat.ltb _ _); [apply affix_refl|]. eexists. symmetry. apply firstn_skipn. Qed.

Lemma simplify_wf : forall p force, pwf p -> pwf (p_simplify p force).
Proof.
  intros p force W. unfold p_simplify. destruct (p_exact p) as [e|]; [|apply sets_wf, W].
  cbv zeta. destruct (big _ _); [|exact W]. apply sets_wf. unfold pwf. cbn [p_exact p_prefix p_suffix p_match p_can]. apply and_trigrams_wf, W.
Qed.

Lemma simplify_holds : forall p force w, pwf p -> holds p w -> holds (p_simplify p force) w.
Proof.
  intros p force w W H. unfold p_simplify. destruct (p_exact p) as [e|] eqn:E; [|apply sets_holds; assumption].
  destruct H as (S & H). rewrite E in H. cbv zeta.
  assert (In w (clean_list false e)) as J by (apply clean_in, H).
  destruct (big _ _).
  - destruct (and_trigrams_holds (p_match p) (clean_list false e) w W S) as (W1 & S1).
    { exists w. split; [exact J|]. exists [], []. rewrite app_nil_r. reflexivity. }
    apply sets_holds; [exact W1|reflexivity|]. split; [exact S1|]. cbn [p_exact p_prefix p_suffix p_match p_can]. split.
    + exists (head2 w). split; [apply in_or_app; right; apply in_map, J|apply head2_affix].
    + exists (tail2 w). split; [apply in_or_app; right; apply in_map, J|apply tail2_affix].
  - split; [exact S|]. cbn [p_exact p_prefix p_suffix p_match p_can]. exact J.
Qed.

Lemma cross_in : forall b s t x y, In x s -> In y t -> In (x ++ y) (p_cross b s t).
Proof.
  intros b s t x y I J. unfold p_cross. apply clean_in. unfold cross_list. apply in_flat_map.
  exists x. split; [exact I|]. apply (in_map (fun tt => x ++ tt)), J.
Qed.

Lemma affix_app_l : forall x u v, affix false x u -> affix false x (u ++ v).
Proof. intros x u v (z & ->). exists (z ++ v). symmetry. apply app_assoc. Qed.
Lemma affix_app_r : forall x u v, affix true x v -> affix true x (u ++ v).
Proof. intros x u v (z & ->). exists (u ++ z). apply app_assoc. Qed.
Lemma affix_cat_l : forall y u v, affix false y v -> affix false (u ++ y) (u ++ v).
Proof. intros y u v (z & ->). exists z. apply app_assoc. Qed.
Lemma affix_cat_r : forall x u v, affix true x u -> affix true (x ++ v) (u ++ v).
Proof. intros x u v (z & ->). exists z. symmetry. apply app_assoc. Qed.

Lemma part_app_l : forall u v t, part u t -> part (u ++ v) t.
Proof. intros u v t (a & b & ->). exists a, (b ++ v). rewrite <- !app_assoc. reflexivity. Qed.
Lemma part_app_r : forall u v t, part v t -> part (u ++ v) t.
Proof. intros u v t (a & b & ->). exists (u ++ a), b. rewrite <- !app_assoc. reflexivity. Qed.

Lemma and_wf : forall q r, wf_query q -> wf_query r -> wf_query (and_or q r QAnd).
Proof. intros. apply and_or_wf; [left; reflexivity|assumption|assumption]. Qed.
Lemma or_wf : forall q r, wf_query q -> wf_query r -> wf_query (and_or q r QOr).
Proof. intros. apply and_or_wf; [right; reflexivity|assumption|assumption]. Qed.

Lemma concat_wf : forall x y, pwf x -> pwf y -> pwf (p_concat x y).
Proof.
  intros x y WX WY. unfold p_concat. cbv zeta.
  assert (wf_query (and_or (p_match x) (p_match y) QAnd)) as W by (apply and_wf; assumption).
  destruct (p_exact x), (p_exact y); apply simplify_wf; try exact W.
  destruct (_ && _ && _)%bool; [|exact W]. unfold pwf. cbn [p_exact p_prefix p_suffix p_match p_can]. apply and_trigrams_wf, W.
Qed.

Lemma concat_holds : forall x y u v, pwf x -> pwf y -> holds x u -> holds y v -> holds (p_concat x y) (u ++ v).
Proof.
  intros x y u v WX WY (SX & HX) (SY & HY). unfold p_concat. cbv zeta.
  set (m := and_or (p_match x) (p_match y) QAnd).
  assert (wf_query m) as W by (apply and_wf; assumption).
  assert (sat (part (u ++ v)) m) as S.
  { apply and_or_sat; [left; reflexivity|assumption|assumption|]. split.
    - eapply sat_mono; [|exact SX]. intros t. apply part_app_l.
    - eapply sat_mono; [|exact SY]. intros t. apply part_app_r. }
  assert (p_exact x = None \/ p_exact y = None -> holds (p_concat_sets x y m) (u ++ v)) as SETS.
  { intros NB. split; [exact S|]. unfold p_concat_sets. cbn [p_exact p_prefix p_suffix p_match p_can]. split.
    - destruct (p_exact x) as [e|] eqn:EX.
      + destruct NB as [NB|NB]; [discriminate|]. rewrite NB in HY. destruct HY as ((z & I & A) & _).
        exists (u ++ z). split; [apply cross_in; assumption|apply affix_cat_l, A].
      + destruct HX as ((z & I & A) & _). exists z. split; [|apply affix_app_l, A].
        destruct (p_can x); [apply union_in; left; exact I|exact I].
    - destruct (p_exact y) as [e|] eqn:EY.
      + destruct NB as [NB|NB]; [|discriminate]. rewrite NB in HX. destruct HX as (_ & (z & I & A)).
        exists (z ++ v). split; [apply cross_in; assumption|apply affix_cat_r, A].
      + destruct HY as (_ & (z & I & A)). exists z. split; [|apply affix_app_r, A].
        destruct (p_can y); [apply union_in; left; exact I|exact I]. }
  destruct (p_exact x) as [e|] eqn:EX; destruct (p_exact y) as [f|] eqn:EY.
  - apply simplify_holds; [exact W|]. split; [exact S|]. cbn [p_exact p_prefix p_suffix p_match p_can]. apply cross_in; assumption.
  - apply simplify_holds; [exact W|]. apply SETS. right. reflexivity.
  - apply simplify_holds; [exact W|]. apply SETS. left. reflexivity.
  - assert (holds (p_concat_sets x y m) (u ++ v)) as H by (apply SETS; left; reflexivity).
    destruct (_ && _ && _)%bool.
    + destruct HX as (_ & (a & IA & A)). destruct HY as ((b & IB & B) & _).
      destruct (and_trigrams_holds m (p_cross false (p_suffix x) (p_prefix y)) (u ++ v) W S) as (W1 & S1).
      { exists (a ++ b). split; [apply cross_in; assumption|].
        destruct A as (z & ->). destruct B as (z' & ->). exists z, z'. rewrite <- !app_assoc. reflexivity. }
      apply simplify_holds; [exact W1|]. destruct H as (_ & H). split; [exact S1|exact H].
    + apply simplify_holds; [exact W|exact H].
Qed.

Lemma alternate_wf : forall x y, pwf x -> pwf y -> pwf (p_alternate x y).
Proof.
  intros x y WX WY. unfold p_alternate. cbv zeta. apply simplify_wf. unfold pwf, p_add_exact.
  destruct (p_exact x), (p_exact y); cbn; apply or_wf; try assumption; apply and_trigrams_wf; assumption.
Qed.

Lemma add_exact_holds : forall x w, pwf x -> holds x w -> wf_query (p_add_exact x) /\ sat (part w) (p_add_exact x).
Proof.
  intros x w W (S & H). unfold p_add_exact. destruct (p_exact x) as [l|]; [|split; assumption].
  apply and_trigrams_holds; [exact W|exact S|]. exists w. split; [exact H|]. exists [], []. rewrite app_nil_r. reflexivity.
Qed.

Lemma alternate_holds : forall x y w, pwf x -> pwf y -> holds x w \/ holds y w -> holds (p_alternate x y) w.
Proof.
  intros x y w WX WY H. unfold p_alternate. cbv zeta.
  assert (wf_query (p_add_exact x)) as WX'. { unfold p_add_exact. destruct (p_exact x); [apply and_trigrams_wf|]; exact WX. }
  assert (wf_query (p_add_exact y)) as WY'. { unfold p_add_exact. destruct (p_exact y); [apply and_trigrams_wf|]; exact WY. }
  assert (forall q r, wf_query q -> wf_query r -> sat (part w) q \/ sat (part w) r -> wf_query (and_or q r QOr) /\ sat (part w) (and_or q r QOr)) as OR.
  { intros q r A B C. split; [apply or_wf; assumption|]. apply and_or_sat; [right; reflexivity|assumption|assumption|exact C]. }
  assert (sat (part w) (p_match x) \/ sat (part w) (p_match y)) as S by (destruct H as [(S & _)|(S & _)]; auto).
  destruct (p_exact x) as [a|] eqn:EX; destruct (p_exact y) as [b|] eqn:EY; apply simplify_holds.
  - apply OR; assumption.
  - split; [apply OR; assumption|]. cbn [p_exact p_prefix p_suffix p_match p_can]. apply union_in.
    destruct H as [(_ & H)|(_ & H)]; [rewrite EX in H|rewrite EY in H]; auto.
  - apply or_wf; assumption.
  - split.
    + apply OR; [assumption|assumption|]. destruct H as [H|(H & _)]; [left; apply add_exact_holds; assumption|right; exact H].
    + cbn [p_exact p_prefix p_suffix p_match p_can]. destruct H as [(_ & H)|(_ & H)].
      * rewrite EX in H. split; exists w; (split; [apply union_in; left; exact H|apply affix_refl]).
      * rewrite EY in H. destruct H as ((z & I & A) & (z' & I' & A')).
        split; [exists z|exists z']; (split; [apply union_in; right; assumption|assumption]).
  - apply or_wf; assumption.
  - split.
    + apply OR; [assumption|assumption|]. destruct H as [(H & _)|H]; [left; exact H|right; apply add_exact_holds; assumption].
    + cbn [p_exact p_prefix p_suffix p_match p_can]. destruct H as [(_ & H)|(_ & H)].
      * rewrite EX in H. destruct H as ((z & I & A) & (z' & I' & A')).
        split; [exists z|exists z']; (split; [apply union_in; left; assumption|assumption]).
      * rewrite EY in H. split; exists w; (split; [apply union_in; right; exact H|apply affix_refl]).
  - apply or_wf; assumption.
  - split; [apply OR; assumption|]. cbn [p_exact p_prefix p_suffix p_match p_can].
    destruct H as [(_ & H)|(_ & H)]; [rewrite EX in H|rewrite EY in H]; destruct H as ((z & I & A) & (z' & I' & A'));
      (split; [exists z|exists z']; (split; [apply union_in; auto|assumption])).
Qed.

Lemma any_holds : forall e w, holds (p_any e) w.
Proof. intros e w. split; [exact I|]. cbn [p_any p_exact p_prefix p_suffix p_match p_can]. split; exists []; (split; [left; reflexivity|apply affix_nil]). Qed.
Lemma any_wf : forall e, pwf (p_any e).
Proof. intros e. split; reflexivity. Qed.
Lemma empty_holds : holds p_empty [].
Proof. split; [exact I|]. left. reflexivity. Qed.
Lemma empty_wf : pwf p_empty.
Proof. split; reflexivity. Qed.
Lemma none_wf : pwf p_none.
Proof. split; reflexivity. Qed.

(* classes *)
Lemma utf8_encode : forall r w, utf8 r w -> w = encode_rune r.
Proof. intros r w U. eapply utf8_fun; [exact U|]. apply encode_rune_utf8. eapply utf8_scalar, U. Qed.

Lemma range_in : forall lo hi r, (lo <= r)%N -> (r <= hi)%N -> In r (range_runes lo hi).
Proof.
  intros lo hi r A B. unfold range_runes. apply in_map_iff. exists (N.to_nat (r - lo)). split; [lia|]. apply in_seq. lia.
Qed.
Lemma class_in : forall k rs r, (length rs <= k)%nat -> length rs <> 1 -> in_class rs r ->
  (forall x, rs <> [x]) -> In r (class_runes rs) \/ exists x, r = x /\ In x rs /\ Nat.even (length rs) = false.
Proof.
  induction k as [|k IH]; intros rs r L N1 C N; [destruct rs; [contradiction|cbn in L; lia]|].
  destruct rs as [|lo [|hi rs]]; [contradiction|cbn in N1; lia|]. cbn in C. destruct C as [(A & B)|C].
  - left. cbn. apply in_or_app. left. apply range_in; assumption.
  - destruct rs as [|x [|y rs]]; [contradiction| |].
    + cbn in C. subst r. right. exists x. split; [reflexivity|]. split; [right; right; left; reflexivity|reflexivity].
    + destruct (IH (x :: y :: rs) r) as [I|(z & E & I & O)]; [cbn in *; lia|cbn; lia|exact C|discriminate| |].
      * left. cbn [class_runes]. apply in_or_app. right. exact I.
      * right. exists z. split; [exact E|]. split; [right; right; exact I|exact O].
Qed.

Lemma class_holds : forall rs r w, wf_class rs -> in_class rs r -> utf8 r w -> holds (p_class rs) w.
Proof.
  intros rs r w WF C U. unfold p_class. destruct rs as [|x [|y rs]]; [contradiction| |].
  - cbn in C. subst r. apply simplify_holds; [split; reflexivity|]. split; [exact I|]. left. symmetry. apply utf8_encode, U.
  - destruct (Z.ltb 100 _); [apply any_holds|]. apply simplify_holds; [split; reflexivity|]. split; [exact I|]. cbn [p_exact].
    rewrite (utf8_encode _ _ U). apply in_map.
    destruct (class_in _ (x :: y :: rs) r (Nat.le_refl _)) as [K|(z & _ & _ & O)]; [cbn; lia|exact C|discriminate|exact K|].
    destruct WF as [WF|WF]; [congruence|cbn in WF; lia].
Qed.
Lemma class_wf : forall rs, pwf (p_class rs).
Proof.
  intros rs. unfold p_class. destruct rs as [|x [|y rs]]; [apply none_wf|apply simplify_wf; split; reflexivity|].
  destruct (Z.ltb 100 _); [apply any_wf|apply simplify_wf; split; reflexivity].
Qed.

Section Fold.
Variable simple_fold : N -> N.
Variable orbit_max : nat.
Notation cyclic := (cyclic simple_fold orbit_max).
Notation wf_re := (wf_re simple_fold orbit_max).

Lemma iter_succ : forall k r, Nat.iter (S k) simple_fold r = Nat.iter k simple_fold (simple_fold r).
Proof. induction k as [|k IH]; intros r; [reflexivity|]. cbn in *. rewrite IH. reflexivity. Qed.

Lemma iter_mod : forall k r n, (1 <= k)%nat -> Nat.iter k simple_fold r = r -> exists j, (j < k)%nat /\ Nat.iter n simple_fold r = Nat.iter j simple_fold r.
Proof.
  intros k r n K C. induction n as [|n (j & J & E)]; [exists 0; split; [lia|reflexivity]|].
  change (Nat.iter (S n) simple_fold r) with (simple_fold (Nat.iter n simple_fold r)).
  rewrite E. destruct (Nat.eq_dec (S j) k) as [<-|NE].
  - exists 0. split; [lia|]. exact C.
  - exists (S j). split; [lia|reflexivity].
Qed.

Lemma orbit_in : forall fuel r0 r k, (1 <= k <= fuel)%nat ->
  (forall i, (1 <= i < k)%nat -> Nat.iter i simple_fold r <> r0) ->
  forall j, (1 <= j < k)%nat -> In (Nat.iter j simple_fold r) (orbit simple_fold fuel r0 r).
Proof.
  induction fuel as [|fuel IH]; intros r0 r k K D j J; [lia|]. cbn [orbit].
  assert (simple_fold r <> r0) as N1 by (apply (D 1%nat); lia).
  destruct (N.eqb_spec (simple_fold r) r0) as [E|_]; [contradiction|].
  destruct j as [|[|j]]; [lia|left; reflexivity|right].
  rewrite iter_succ. apply (IH r0 (simple_fold r) (k - 1)); [lia| |lia].
  intros i I. rewrite <- iter_succ. apply D. lia.
Qed.

Lemma same_in_orbit : forall r r', cyclic r -> same_letter simple_fold r r' -> r' = r \/ In r' (orbit simple_fold orbit_max r r).
Proof.
  intros r r' (k & K & C) (n & ->).
  (* the least period *)
  assert (exists k, (1 <= k <= orbit_max)%nat /\ Nat.iter k simple_fold r = r /\ forall i, (1 <= i < k)%nat -> Nat.iter i simple_fold r <> r) as (p & P & CP & MIN).
  { revert k K C. induction k as [k IH] using lt_wf_ind. intros K C.
    destruct (List.Exists_dec (fun i => Nat.iter i simple_fold r = r) (seq 1 (k - 1)) (fun i => N.eq_dec _ _)) as [X|X].
    - apply Exists_exists in X. destruct X as (i & I & E). apply in_seq in I. apply (IH i); [lia|lia|exact E].
    - exists k. split; [exact K|]. split; [exact C|]. intros i I E. apply X, Exists_exists. exists i. split; [apply in_seq; lia|exact E]. }
  destruct (iter_mod p r n ltac:(lia) CP) as (j & J & ->).
  destruct j as [|j]; [left; reflexivity|right]. apply (orbit_in orbit_max r r p P MIN). lia.
Qed.

Lemma flat_class : forall l x, In x l -> in_class (flat_map (fun x => [x; x]) l) x.
Proof.
  induction l as [|y l IH]; intros x I; [contradiction|]. cbn. destruct I as [->|I]; [left; lia|right; auto].
Qed.
Lemma flat_even : forall l : list N, Nat.even (length (flat_map (fun x => [x; x]) l)) = true.
Proof. induction l as [|x l IH]; [reflexivity|]. cbn. exact IH. Qed.

Lemma folded_rune_holds : forall r r' w, cyclic r -> same_letter simple_fold r r' -> utf8 r' w ->
  holds (p_folded_rune simple_fold orbit_max r) w.
Proof.
  intros r r' w C S U. unfold p_folded_rune. apply (class_holds _ r'); [left; cbn; apply flat_even| |exact U].
  cbn. destruct (same_in_orbit r r' C S) as [->|I]; [left; lia|right; apply flat_class, I].
Qed.

Lemma folded_holds : forall rs w, Forall cyclic rs -> spells simple_fold true rs w -> holds (p_folded simple_fold orbit_max rs) w.
Proof.
  assert (forall rs i u w, Forall cyclic rs -> pwf i -> holds i u -> spells simple_fold true rs w ->
    holds (fold_left (fun i r => p_concat i (p_folded_rune simple_fold orbit_max r)) rs i) (u ++ w)) as L.
  { induction rs as [|r rs IH]; intros i u w F W H S; cbn in S.
    - subst w. rewrite app_nil_r. exact H.
    - destruct S as (r' & a & b & -> & U & S & E). inversion F as [|? ? F1 F2]; subst. cbn [fold_left].
      rewrite app_assoc. apply IH; [exact F2|apply concat_wf; [exact W|apply class_wf]| |exact S].
      apply concat_holds; [exact W|apply class_wf|exact H|]. eapply folded_rune_holds; eassumption. }
  intros rs w F S. unfold p_folded. destruct rs as [|r [|r2 rs]].
  - cbn in S. subst w. apply empty_holds.
  - cbn in S. destruct S as (r' & a & b & -> & U & -> & E). rewrite app_nil_r.
    inversion F; subst. eapply folded_rune_holds; eassumption.
  - apply (L (r :: r2 :: rs) p_empty [] w F empty_wf empty_holds S).
Qed.
Lemma folded_wf : forall rs, pwf (p_folded simple_fold orbit_max rs).
Proof.
  assert (forall rs i, pwf i -> pwf (fold_left (fun i r => p_concat i (p_folded_rune simple_fold orbit_max r)) rs i)) as L.
  { induction rs as [|r rs IH]; intros i W; [exact W|]. cbn [fold_left]. apply IH, concat_wf; [exact W|apply class_wf]. }
  intros rs. unfold p_folded. destruct rs as [|r [|r2 rs]]; [apply empty_wf|apply class_wf|apply L, empty_wf].
Qed.

Lemma spells_encode : forall rs w, spells simple_fold false rs w -> w = encode_runes rs.
Proof.
  induction rs as [|r rs IH]; intros w S; cbn in S; [exact S|]. destruct S as (r' & u & v & -> & U & S & ->).
  unfold encode_runes. cbn. rewrite (utf8_encode _ _ U), (IH v S). reflexivity.
Qed.

Lemma wf_all : forall l, (fix all (l : list regexp) : Prop := match l with [] => True | r :: l' => wf_re r /\ all l' end) l -> Forall wf_re l.
Proof. induction l as [|r l IH]; intros H; constructor; [apply H|apply IH, H]. Qed.

Notation pana := (p_analyze simple_fold orbit_max).

Lemma plus_wf : forall i, pwf i -> pwf (p_plus i).
Proof. intros i W. unfold p_plus. destruct (p_exact i); apply simplify_wf; exact W. Qed.
Lemma p_fold_wf : forall f, (forall x y, pwf x -> pwf y -> pwf (f x y)) -> forall l acc,
  Forall pwf l -> match acc with Some x => pwf x | None => True end ->
  match p_fold f acc l with Some x => pwf x | None => True end.
Proof.
  intros f F. unfold p_fold. induction l as [|y l IH]; intros acc W A; [exact A|]. inversion W; subst. cbn [fold_left].
  apply IH; [assumption|]. destruct acc; [apply F|]; assumption.
Qed.

Lemma analyze_wf : forall re, pwf (pana re).
Proof.
  induction re using regexp_ind'; cbn [p_analyze]; try apply none_wf; try apply empty_wf; try apply any_wf; try apply class_wf; try exact IHre.
  - destruct f; [apply folded_wf|]. apply simplify_wf. split; reflexivity.
  - apply plus_wf, IHre.
  - apply alternate_wf; [exact IHre|apply empty_wf].
  - destruct (Nat.eqb a 0); [apply any_wf|apply plus_wf, IHre].
  - pose proof (p_fold_wf p_concat concat_wf (map pana rs) None) as F. destruct (p_fold _ _ _); [|apply empty_wf].
    apply F; [|exact I]. apply Forall_map. exact H.
  - pose proof (p_fold_wf p_alternate alternate_wf (map pana rs) None) as F. destruct (p_fold _ _ _); [|apply none_wf].
    apply F; [|exact I]. apply Forall_map. exact H.
Qed.

Lemma times_ends : forall (P : str -> str -> str -> Prop) k pre w post, times P (S k) pre w post ->
  (exists u v p q, w = u ++ v /\ P p u q) /\ (exists u v p q, w = u ++ v /\ P p v q).
Proof.
  induction k as [|k IH]; intros pre w post H.
  - cbn in H. destruct H as (u & v & -> & H & ->). split; [exists u, [], pre, post|exists [], u, pre, post]; (split; [|exact H]).
    + reflexivity.
    + rewrite app_nil_r. reflexivity.
  - cbn [times] in H. destruct H as (u & v & -> & H & T).
    destruct (IH _ _ _ T) as (_ & (u' & v' & p & q & -> & L)). split.
    + exists u, (u' ++ v'), pre. eexists. split; [reflexivity|exact H].
    + exists (u ++ u'), v', p, q. split; [apply app_assoc|exact L].
Qed.

Lemma plus_sound : forall (P : str -> str -> str -> Prop) i, pwf i -> (forall pre w post, P pre w post -> holds i w) ->
  forall k pre w post, times P (S k) pre w post -> holds (p_plus i) w.
Proof.
  intros P i W H k pre w post T. destruct (times_ends _ _ _ _ _ T) as ((u & v & p & q & E & A) & (u' & v' & p' & q' & E' & B)).
  apply H in A. apply H in B.
  assert (sat (part w) (p_match i)) as S.
  { eapply sat_mono; [|apply A]. intros t. subst w. apply part_app_l. }
  unfold p_plus. destruct (p_exact i) as [e|] eqn:EX; (apply simplify_holds; [exact W|]).
  - destruct A as (_ & A), B as (_ & B). rewrite EX in A, B. split; [exact S|]. cbn [p_exact p_prefix p_suffix p_match p_can]. split.
    + exists u. split; [exact A|]. exists v. exact E.
    + exists v'. split; [exact B|]. exists u'. exact E'.
  - destruct A as (_ & A), B as (_ & B). rewrite EX in A, B. split; [exact S|]. rewrite EX. split.
    + destruct A as ((x & I & AX) & _). exists x. split; [exact I|]. rewrite E. apply affix_app_l, AX.
    + destruct B as (_ & (x & I & AX)). exists x. split; [exact I|]. rewrite E'. apply affix_app_r, AX.
Qed.

Notation rmatch := (rmatch simple_fold).

Fixpoint cat (l : list regexp) (pre w post : str) {struct l} : Prop :=
  match l with
  | [] => w = []
  | r :: l' => exists u v, w = u ++ v /\ rmatch r pre u (v ++ post) /\ cat l' (pre ++ u) v post
  end.
Lemma rmatch_cat : forall l pre w post, rmatch (RConcat l) pre w post <-> cat l pre w post.
Proof.
  induction l as [|r l IH]; intros pre w post; [reflexivity|].
  change (rmatch (RConcat (r :: l)) pre w post) with (exists u v, w = u ++ v /\ rmatch r pre u (v ++ post) /\ rmatch (RConcat l) (pre ++ u) v post).
  cbn [cat]. split; intros (u & v & A & B & C); exists u, v; (split; [exact A|split; [exact B|apply IH, C]]).
Qed.
Lemma rmatch_alt : forall l pre w post, rmatch (RAlternate l) pre w post <-> Exists (fun r => rmatch r pre w post) l.
Proof.
  induction l as [|r l IH]; intros pre w post; [split; [intros []|intros H; inversion H]|].
  change (rmatch (RAlternate (r :: l)) pre w post) with (rmatch r pre w post \/ rmatch (RAlternate l) pre w post).
  rewrite IH, Exists_cons. reflexivity.
Qed.

Theorem analyze_holds : forall re, wf_re re -> forall pre w post, rmatch re pre w post -> holds (pana re) w.
Proof.
  induction re using regexp_ind'; intros WR pre w post M.
  - contradiction.
  - destruct M as (-> & _). apply empty_holds.
  - destruct f; cbn [p_analyze]; [apply folded_holds; [exact WR|exact M]|].
    apply simplify_holds; [split; reflexivity|]. split; [exact I|]. left. symmetry. apply spells_encode, M.
  - apply any_holds.
  - apply any_holds.
  - cbn [p_analyze]. destruct M as (r & U & C). eapply class_holds; [exact WR|exact C|exact U].
  - cbn [p_analyze]. eapply IHre; [exact WR|exact M].
  - apply any_holds.
  - cbn [p_analyze]. destruct M as (k & T). eapply plus_sound; [apply analyze_wf|intros p x q; apply IHre, WR|exact T].
  - cbn [p_analyze]. apply alternate_holds; [apply analyze_wf|apply empty_wf|].
    destruct M as [->|M]; [right; apply empty_holds|left; eapply IHre; [exact WR|exact M]].
  - cbn [p_analyze]. destruct (Nat.eqb_spec a 0) as [_|NZ]; [apply any_holds|].
    destruct M as (k & T & L & _). destruct k as [|k]; [lia|].
    eapply plus_sound; [apply analyze_wf|intros p x q; apply IHre, WR|exact T].
  - cbn [p_analyze]. apply wf_all in WR. apply rmatch_cat in M.
    assert (forall rs, Forall (fun re => wf_re re -> forall pre w post, rmatch re pre w post -> holds (pana re) w) rs -> Forall wf_re rs ->
      forall acc u pre w post, match acc with Some x => pwf x /\ holds x u | None => u = [] end -> cat rs pre w post ->
      match p_fold p_concat acc (map pana rs) with Some x => holds x (u ++ w) | None => u ++ w = [] end) as L.
    { clear. induction rs as [|r rs IH]; intros F W acc u pre w post A C.
      - cbn in C. subst w. cbn. rewrite app_nil_r. destruct acc; [apply A|exact A].
      - inversion F as [|? ? F1 F2]; subst. inversion W as [|? ? W1 W2]; subst. destruct C as (a & b & -> & M & C).
        cbn [map]. unfold p_fold. cbn [fold_left]. rewrite app_assoc.
        apply (IH F2 W2 _ (u ++ a) (pre ++ a) b post); [|exact C].
        apply F1 in M; [|exact W1]. destruct acc as [x|].
        + split; [apply concat_wf; [apply A|apply analyze_wf]|]. apply concat_holds; [apply A|apply analyze_wf|apply A|exact M].
        + subst u. cbn. split; [apply analyze_wf|exact M]. }
    specialize (L rs H WR None [] pre w post eq_refl M). destruct (p_fold _ _ _); [exact L|]. cbn in L. subst w. apply empty_holds.
  - cbn [p_analyze]. apply wf_all in WR. apply rmatch_alt in M.
    assert (forall rs, Forall (fun re => wf_re re -> forall pre w post, rmatch re pre w post -> holds (pana re) w) rs -> Forall wf_re rs ->
      forall acc, match acc with Some x => pwf x | None => True end ->
      Exists (fun r => rmatch r pre w post) rs \/ (exists x, acc = Some x /\ holds x w) ->
      exists x, p_fold p_alternate acc (map pana rs) = Some x /\ holds x w) as L.
    { clear. induction rs as [|r rs IH]; intros F W acc A C.
      - destruct C as [C|(x & -> & C)]; [inversion C|]. exists x. split; [reflexivity|exact C].
      - inversion F as [|? ? F1 F2]; subst. inversion W as [|? ? W1 W2]; subst.
        cbn [map]. unfold p_fold. cbn [fold_left]. apply (IH F2 W2).
        + destruct acc; [apply alternate_wf; [exact A|apply analyze_wf]|apply analyze_wf].
        + destruct C as [C|(x & -> & C)].
          * inversion C as [? ? M|? ? M]; subst; [right|left; exact M]. apply F1 in M; [|exact W1].
            destruct acc as [x|]; eexists; (split; [reflexivity|]); [|exact M].
            apply alternate_holds; [exact A|apply analyze_wf|right; exact M].
          * right. eexists. split; [reflexivity|]. apply alternate_holds; [exact A|apply analyze_wf|left; exact C]. }
    destruct (L rs H WR None I (or_introl M)) as (x & -> & HX). exact HX.
Qed.

Theorem query_sound : forall re pre w post, wf_re re -> rmatch re pre w post ->
  wf_query (p_query simple_fold orbit_max re) /\ sat (part (pre ++ w ++ post)) (p_query simple_fold orbit_max re).
Proof.
  intros re pre w post WR M. unfold p_query.
  assert (holds (p_simplify (pana re) true) w) as H.
  { apply simplify_holds; [apply analyze_wf|]. eapply analyze_holds; eassumption. }
  destruct (add_exact_holds _ w (simplify_wf _ true (analyze_wf re)) H) as (A & B). split; [exact A|].
  eapply sat_mono; [|exact B]. intros t. intros (a & b & ->). exists (pre ++ a), (b ++ post).
  rewrite <- !app_assoc. reflexivity.
Qed.
Theorem query_wf : forall re, wf_query (p_query simple_fold orbit_max re).
Proof.
  intros re. unfold p_query, p_add_exact. pose proof (simplify_wf _ true (analyze_wf re)) as W.
  destruct (p_exact _); [apply and_trigrams_wf|]; exact W.
Qed.
End Fold.
