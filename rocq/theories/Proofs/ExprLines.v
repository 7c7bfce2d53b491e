(** Matching an expression looks at the adjacent bytes only, so lines can be tried alone. *)
From Verif Require Import Model.Base Model.Syntax Model.Utf Spec.Utf8Spec Spec.RegexSpec Spec.MatchSpec Spec.GrepSpec
  Spec.RuneProgSpec Spec.ExprSpec Proofs.SplitProofs Proofs.AnalyzeSound.
Local Open Scope N_scope.

(** The byte before / after. *)
Definition before (pre : str) : option N := hd_error (rev pre).
Definition after (post : str) : option N := hd_error post.

Lemma before_app : forall p p' u, before p = before p' -> before (p ++ u) = before (p' ++ u).
Proof. intros p p' u E. unfold before in *. rewrite !rev_app_distr. destruct (rev u); [exact E|reflexivity]. Qed.
Lemma after_app : forall p p' u, after p = after p' -> after (u ++ p) = after (u ++ p').
Proof. intros p p' u E. unfold after in *. destruct u; [exact E|reflexivity]. Qed.
Lemma before_nil : forall p, p = [] <-> before p = None.
Proof.
  intros p. unfold before. split; [intros ->; reflexivity|]. intros E. destruct p as [|c p] using rev_ind; [reflexivity|].
  rewrite rev_app_distr in E. discriminate.
Qed.
Lemma before_some : forall p c, (exists q, p = q ++ [c]) <-> before p = Some c.
Proof.
  intros p c. unfold before. split.
  - intros (q & ->). rewrite rev_app_distr. reflexivity.
  - intros E. destruct p as [|d p _] using rev_ind; [discriminate|]. rewrite rev_app_distr in E. injection E as ->. exists p. reflexivity.
Qed.
Lemma after_nil : forall p, p = [] <-> after p = None.
Proof. intros [|c p]; split; intros; try reflexivity; discriminate. Qed.
Lemma after_some : forall p c, (exists q, p = c :: q) <-> after p = Some c.
Proof. intros [|d p] c; split; [intros (q & E); discriminate|discriminate|intros (q & E); injection E as -> _; reflexivity|]. intros E. injection E as ->. exists p. reflexivity. Qed.

Lemma ends_word_ctx : forall p p', before p = before p' -> (ends_word p <-> ends_word p').
Proof.
  assert (forall p, ends_word p <-> exists c, before p = Some c /\ word_byte c) as G.
  { intros p. unfold ends_word. split.
    - intros (q & c & E & W). exists c. split; [apply before_some; exists q; exact E|exact W].
    - intros (c & E & W). apply before_some in E. destruct E as (q & E). exists q, c. auto. }
  intros p p' E. rewrite !G, E. reflexivity.
Qed.
Lemma starts_word_ctx : forall p p', after p = after p' -> (starts_word p <-> starts_word p').
Proof.
  assert (forall p, starts_word p <-> exists c, after p = Some c /\ word_byte c) as G.
  { intros p. unfold starts_word. split.
    - intros (c & q & E & W). exists c. split; [apply after_some; exists q; exact E|exact W].
    - intros (c & E & W). apply after_some in E. destruct E as (q & E). exists c, q. auto. }
  intros p p' E. rewrite !G, E. reflexivity.
Qed.
Lemma assertion_ctx : forall z p p' q q', before p = before p' -> after q = after q' -> (assertion z p q <-> assertion z p' q').
Proof.
  intros z p p' q q' P Q. destruct z; cbn [assertion].
  - reflexivity.
  - rewrite !before_nil, !before_some, P. reflexivity.
  - rewrite !after_nil, !after_some, Q. reflexivity.
  - rewrite !before_nil, P. reflexivity.
  - rewrite !after_nil, Q. reflexivity.
  - rewrite (ends_word_ctx _ _ P), (starts_word_ctx _ _ Q). reflexivity.
  - rewrite (ends_word_ctx _ _ P), (starts_word_ctx _ _ Q). reflexivity.
Qed.

Definition ctx_free (R : str -> str -> str -> Prop) : Prop :=
  forall p p' q q' w, before p = before p' -> after q = after q' -> R p w q -> R p' w q'.
Lemma times_ctx : forall R, ctx_free R -> forall k, ctx_free (times R k).
Proof.
  intros R C. induction k as [|k IH]; intros p p' q q' w P Q M; cbn [times] in *; [exact M|].
  destruct M as (u & v & E & M1 & M2). exists u, v. split; [exact E|]. split.
  - eapply C; [exact P| |exact M1]. apply after_app, Q.
  - eapply IH; [|exact Q|exact M2]. apply before_app, P.
Qed.
Lemma rmatch_ctx : forall sf re, ctx_free (rmatch sf re).
Proof.
  intros sf. induction re using regexp_ind'; intros p p' q q' w P Q M; try exact M.
  - destruct M as (-> & M). split; [reflexivity|]. eapply assertion_ctx; [| |exact M]; congruence.
  - exact (IHre _ _ _ _ _ P Q M).
  - destruct M as (k & M). exists k. eapply times_ctx; eauto.
  - destruct M as (k & M). exists k. eapply times_ctx; eauto.
  - destruct M as [M|M]; [left; exact M|right; eapply IHre; eauto].
  - destruct M as (k & M & L). exists k. split; [|exact L]. eapply times_ctx; eauto.
  - apply rmatch_cat in M. apply rmatch_cat. revert p p' w P M. induction H as [|r rs Hr _ IH]; intros p p' w P M; [exact M|].
    destruct M as (u & v & E & M1 & M2). exists u, v. split; [exact E|]. split.
    + eapply Hr; [exact P| |exact M1]. apply after_app, Q.
    + eapply IH; [|exact M2]. apply before_app, P.
  - apply rmatch_alt in M. apply rmatch_alt. rewrite Forall_forall in H. rewrite Exists_exists in *.
    destruct M as (r & I & M). exists r. split; [exact I|]. eapply H; eauto.
Qed.

Lemma newlines_app : forall a b, newlines (a ++ b) = (newlines a + newlines b)%nat.
Proof. intros. apply count_occ_app. Qed.
Lemma newlines_none : forall a, ~ In 10 a -> newlines a = 0%nat.
Proof. intros a H. apply count_occ_not_In. exact H. Qed.

Notation nlc := (fun a => concat (map (fun l : bytes => l ++ [10]) a)).
Lemma newlines_lines : forall a, Forall (fun l => ~ In 10 l) a -> newlines (nlc a) = length a.
Proof.
  induction 1 as [|l a H _ IH]; [reflexivity|]. cbn [map concat length]. rewrite !newlines_app, IH, newlines_none by assumption. reflexivity.
Qed.
Lemma before_lines : forall a, before (nlc a) = match a with [] => None | _ => Some 10 end.
Proof.
  intros a. destruct a as [|l a _] using rev_ind; [reflexivity|]. rewrite map_app, concat_app. cbn [map concat]. rewrite app_nil_r, app_assoc.
  unfold before. rewrite rev_app_distr. destruct a; reflexivity.
Qed.

(** Where the part lies among the pieces between newlines. *)
Lemma split_at : forall pre w post, ~ In 10 w -> exists a u v b,
  split_nl (pre ++ w ++ post) = a ++ (u ++ w ++ v) :: b /\ length a = newlines pre /\
  before pre = before ((match a with [] => [] | _ => [10] end) ++ u) /\
  after post = after (v ++ match b with [] => [] | _ => [10] end).
Proof.
  intros pre w post W. destruct (split_ex pre) as (a & u & F & ->). apply Forall_app in F. destruct F as (Fa & Fu). apply Forall_inv in Fu.
  destruct (split_ex post) as (init & last & F & ->). apply Forall_app in F. destruct F as (Fi & Fl). apply Forall_inv in Fl.
  assert (length a = newlines (nlc a ++ u)) as LA by (rewrite newlines_app, newlines_lines, (newlines_none u) by assumption; lia).
  assert (before (nlc a ++ u) = before ((match a with [] => [] | _ => [10] end) ++ u)) as BA.
  { apply before_app. rewrite before_lines. destruct a; reflexivity. }
  destruct init as [|v init].
  - exists a, u, last, []. cbn [map concat app]. split; [|split; [exact LA|split; [exact BA|rewrite app_nil_r; reflexivity]]].
    replace ((nlc a ++ u) ++ w ++ last) with (nlc a ++ u ++ w ++ last) by (rewrite <- app_assoc; reflexivity).
    apply split_nl_unique. apply Forall_app. split; [exact Fa|]. constructor; [|constructor].
    rewrite !in_app_iff. tauto.
  - apply Forall_cons_iff in Fi. destruct Fi as (Fv & Fi). exists a, u, v, (init ++ [last]).
    split; [|split; [exact LA|split; [exact BA|]]].
    + replace ((nlc a ++ u) ++ w ++ nlc (v :: init) ++ last) with (nlc (a ++ (u ++ w ++ v) :: init) ++ last).
      2:{ rewrite map_app, concat_app. cbn [map concat]. rewrite <- !app_assoc. reflexivity. }
      replace (a ++ (u ++ w ++ v) :: init ++ [last]) with ((a ++ (u ++ w ++ v) :: init) ++ [last]) by (rewrite <- app_assoc; reflexivity).
      apply split_nl_unique. rewrite <- app_assoc. apply Forall_app. split; [exact Fa|]. constructor; [rewrite !in_app_iff; tauto|].
      apply Forall_app. split; [exact Fi|]. constructor; [exact Fl|constructor].
    + cbn [map concat]. rewrite <- !app_assoc. apply after_app. destruct init; reflexivity.
Qed.

Lemma expr_lines : forall sf re text k, expr_on_line sf re text k <-> line_matches (in_line sf re) text k.
Proof.
  intros sf re text k. split.
  - intros (pre & w & post & -> & <- & W & M). destruct (split_at pre w post W) as (a & u & v & b & E & L & B & A).
    exists (split_nl (pre ++ w ++ post)), (u ++ w ++ v). split; [apply splits_iff; reflexivity|]. rewrite E, <- L. split.
    + rewrite nth_error_app2, Nat.sub_diag by lia. reflexivity.
    + exists u, w, v. split; [reflexivity|]. eapply rmatch_ctx; [| |exact M].
      * rewrite B. destruct a; reflexivity.
      * rewrite A. rewrite app_length. cbn [length].
        destruct b; cbn [length]; [rewrite (proj2 (Nat.eqb_eq _ _)) by lia|rewrite (proj2 (Nat.eqb_neq _ _)) by lia]; reflexivity.
  - intros (pieces & line & S & Nk & u & w & v & -> & M).
    apply nth_error_split in Nk. destruct Nk as (a & b & -> & <-). destruct S as (_ & F & init & last & E & T).
    apply Forall_app in F. destruct F as (Fa & F). apply Forall_cons_iff in F. destruct F as (Fl & Fb).
    rewrite !in_app_iff in Fl.
    assert (exists post, text = (nlc a ++ u) ++ w ++ v ++ post /\ after post = after (match b with [] => [] | _ => [10] end)) as (post & ET & AP).
    { destruct b as [|y b _] using rev_ind.
      - change (a ++ [u ++ w ++ v]) with (a ++ [u ++ w ++ v]) in E. apply app_inj_tail in E. destruct E as (<- & <-).
        exists []. split; [rewrite T, app_nil_r, <- app_assoc; reflexivity|reflexivity].
      - replace (a ++ (u ++ w ++ v) :: b ++ [y]) with ((a ++ (u ++ w ++ v) :: b) ++ [y]) in E by (rewrite <- app_assoc; reflexivity).
        apply app_inj_tail in E. destruct E as (<- & <-). exists (10 :: nlc b ++ y). split; [|destruct b; reflexivity].
        rewrite T, map_app, concat_app. cbn [map concat]. rewrite <- !app_assoc. reflexivity. }
    exists (nlc a ++ u), w, (v ++ post). split; [exact ET|]. split; [|split; [tauto|]].
    + rewrite newlines_app, newlines_lines, (newlines_none u) by tauto. lia.
    + eapply rmatch_ctx; [| |exact M].
      * apply before_app. rewrite before_lines. destruct a; reflexivity.
      * apply after_app. rewrite AP. rewrite app_length. cbn [length].
        destruct b; cbn [length]; [rewrite (proj2 (Nat.eqb_eq _ _)) by lia|rewrite (proj2 (Nat.eqb_neq _ _)) by lia]; reflexivity.
Qed.

(** The literal without case folding: its bytes occur in the line. *)
Lemma spells_encode : forall sf rs w, Forall scalar rs -> (spells sf false rs w <-> w = Model.Utf8.encode_runes rs).
Proof.
  intros sf rs. induction rs as [|r rs IH]; intros w F; [reflexivity|]. apply Forall_cons_iff in F. destruct F as (Sr & F).
  change (Model.Utf8.encode_runes (r :: rs)) with (Model.Utf8.encode_rune r ++ Model.Utf8.encode_runes rs). cbn [spells]. split.
  - intros (r' & u & v & -> & U & S & ->). apply IH in S; [|exact F]. subst v. f_equal.
    eapply Proofs.Utf8Proofs.utf8_fun; [exact U|]. apply Proofs.Utf8Proofs.encode_rune_utf8, Sr.
  - intros ->. exists r, (Model.Utf8.encode_rune r), (Model.Utf8.encode_runes rs). split; [reflexivity|].
    split; [apply Proofs.Utf8Proofs.encode_rune_utf8, Sr|]. split; [|reflexivity]. apply IH; [exact F|reflexivity].
Qed.
