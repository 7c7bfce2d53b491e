From Verif Require Import Model.Base Model.Query Model.Utf8 Model.Syntax Model.Analyze
  Spec.QuerySpec Spec.RegexSpec Proofs.QueryProofs Proofs.StoreProofs Proofs.AnalyzePure Proofs.AnalyzeSim Proofs.AnalyzeSound.
Local Open Scope nat_scope.

(** Only substrings of three bytes matter. *)
Lemma sat_tri3 : forall (T : str -> Prop) q, wf_query q -> sat T q -> sat (fun t => length t = 3 /\ T t) q.
Proof.
  intros T. fix IH 1. intros [op tri sub] W S. destruct op; cbn [sat] in *; auto.
  - apply wf_and in W. destruct W as (_ & W3 & WS). destruct S as (A & B). split; [intros t I; split; [apply W3, I|apply A, I]|]. clear A.
    revert sub B WS. fix G 1. intros [|x sub] B WS; cbn in *; [exact I|]. inversion WS; subst. destruct B as (B1 & B2).
    split; [apply IH; assumption|apply G; assumption].
  - apply wf_or in W. destruct W as (W3 & WS). destruct S as [(t & J & A)|B]; [left; exists t; split; [exact J|split; [apply W3, J|exact A]]|right].
    revert sub B WS. fix G 1. intros [|x sub] B WS; cbn in *; [exact B|]. inversion WS; subst.
    destruct B as [B|B]; [left; apply IH; assumption|right; apply G; assumption].
Qed.

Theorem prefilter : forall grow fold orbit_max re h q, wf_re fold orbit_max re ->
  regexp_query grow fold orbit_max re = (h, q) -> st_shared h = false ->
  forall pre w post, rmatch fold re pre w post -> sat (trigram_in (pre ++ w ++ post)) q.
Proof.
  intros grow fold om re h q W E S pre w post M.
  pose proof (query_ok grow fold om re) as Q. rewrite E in Q. rewrite (Q S).
  destruct (query_sound fold om re pre w post W M) as (A & B). apply sat_tri3; [exact A|exact B].
Qed.

Theorem prefilter_wf : forall grow fold orbit_max re h q,
  regexp_query grow fold orbit_max re = (h, q) -> st_shared h = false -> wf_query q.
Proof.
  intros grow fold om re h q E S. pose proof (query_ok grow fold om re) as Q. rewrite E in Q. rewrite (Q S). apply query_wf.
Qed.

(* without alternation nothing is shared *)
Section NoAlt.
Variable grow : nat -> nat -> nat.
Variable simple_fold : N -> N.
Variable orbit_max : nat.
Notation ana := (analyze grow simple_fold orbit_max).

Lemma alternate_exact_shared : forall h x y, have (i_exact y) = true -> st_shared (fst (alternate grow h x y)) = st_shared h.
Proof.
  intros h x y H. unfold alternate. cbv zeta. rewrite H.
  match goal with |- context [let '(_, _) := ?t in _] =>
    assert (st_shared (fst t) = st_shared h) as A; [|destruct t as [h1 xy]; rewrite simplify_shared; exact A] end.
  destruct (have (i_exact x)); cbn [andb].
  - pose proof (s_union_shared grow h (i_exact x) (i_exact y) false) as B. destruct (s_union _ _ _ _ _). exact B.
  - pose proof (s_union_shared grow h (i_prefix x) (i_exact y) false) as B. destruct (s_union grow h _ _ false) as [h1 p1]. cbn [fst] in *.
    pose proof (s_copy_shared grow h1 (i_exact y)) as C. destruct (s_copy grow h1 _) as [h2 c2]. cbn [fst] in *.
    pose proof (s_union_shared grow h2 (i_suffix x) c2 true) as E. destruct (s_union grow h2 _ _ true) as [h3 s3]. cbn [fst] in *. congruence.
Qed.

Lemma no_alt_all : forall l, (fix all (l : list regexp) : Prop := match l with [] => True | r :: l' => no_alternation r /\ all l' end) l ->
  Forall no_alternation l.
Proof. induction l as [|r l IH]; intros H; constructor; [apply H|apply IH, H]. Qed.

Lemma fold_all_shared : forall f, (forall h x y, st_shared (fst (f h x y)) = st_shared h) ->
  forall rs, Forall (fun r => forall h, st_shared (fst (ana r h)) = st_shared h) rs ->
  forall acc h, st_shared (fst (fold_all ana f acc rs h)) = st_shared h.
Proof.
  intros f F. induction rs as [|r rs IH]; intros G acc h; [reflexivity|]. inversion G as [|? ? G1 G2]; subst. cbn [fold_all].
  fold (fold_all ana). pose proof (G1 h) as A. destruct (ana r h) as [h1 i1]. cbn [fst] in A. destruct acc as [x|].
  - pose proof (F h1 x i1) as B. destruct (f h1 x i1) as [h2 xy]. cbn [fst] in B. rewrite (IH G2). congruence.
  - rewrite (IH G2). exact A.
Qed.

Lemma plus_shared : forall h1 i, st_shared (fst (if have (i_exact i) then
      let '(h2, s) := s_copy grow h1 (i_exact i) in
      simplify grow h2 (mkInfo (i_can_empty i) None (i_exact i) s (i_match i)) false
    else simplify grow h1 i false)) = st_shared h1.
Proof.
  intros h1 i. destruct (have (i_exact i)); [|apply simplify_shared].
  pose proof (s_copy_shared grow h1 (i_exact i)) as A. destruct (s_copy grow h1 (i_exact i)) as [h2 s2].
  rewrite simplify_shared. exact A.
Qed.

Lemma no_alt_shared : forall re, no_alternation re -> forall h, st_shared (fst (ana re h)) = st_shared h.
Proof.
  induction re using regexp_ind'; intros NA h; try reflexivity; try (apply IHre, NA).
  - destruct f; [apply folded_ok|]. cbn [analyze]. unfold literal, alloc. rewrite simplify_shared. reflexivity.
  - apply (class_ok grow orbit_max rs h).
  - cbn [analyze]. specialize (IHre NA h). destruct (ana re h) as [h1 i1]. rewrite plus_shared. exact IHre.
  - cbn [analyze]. specialize (IHre NA h). destruct (ana re h) as [h1 i1]. cbn [fst] in IHre.
    destruct (empty_string h1) as [h2 e2] eqn:E. unfold empty_string, literal, alloc in E. injection E as <- <-.
    rewrite alternate_exact_shared by reflexivity. exact IHre.
  - cbn [analyze]. destruct (Nat.eqb a 0); [reflexivity|]. specialize (IHre NA h). destruct (ana re h) as [h1 i1].
    rewrite plus_shared. exact IHre.
  - rewrite analyze_concat. apply no_alt_all in NA.
    assert (Forall (fun r => forall h, st_shared (fst (ana r h)) = st_shared h) rs) as G.
    { rewrite Forall_forall in *. intros r I. apply H; [exact I|apply NA, I]. }
    pose proof (fold_all_shared (concat grow) (concat_shared grow) rs G None h) as A.
    destruct (fold_all ana (concat grow) None rs h) as [h1 [i1|]]; cbn [fst] in *; [exact A|]. exact A.
  - rewrite analyze_alternate. destruct NA as (L & NA). apply no_alt_all in NA.
    destruct rs as [|r [|r2 rs]]; [reflexivity| |cbn in L; lia]. cbn [fold_all].
    inversion H as [|? ? H1 _]; subst. inversion NA as [|? ? N1 _]; subst. specialize (H1 N1 h).
    destruct (ana r h) as [h1 i1]. exact H1.
Qed.

Lemma no_alt_query : forall re h q, no_alternation re -> regexp_query grow simple_fold orbit_max re = (h, q) -> st_shared h = false.
Proof.
  intros re h q NA E. unfold regexp_query in E. pose proof (no_alt_shared re NA (mkStore [] false)) as A.
  destruct (ana re (mkStore [] false)) as [h1 i1]. cbn [fst] in A.
  pose proof (simplify_shared grow h1 i1 true) as B. destruct (simplify grow h1 i1 true) as [h2 i2]. cbn [fst] in B.
  injection E as <- _. rewrite B. exact A.
Qed.
End NoAlt.
