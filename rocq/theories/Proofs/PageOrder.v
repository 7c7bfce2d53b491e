(** The order of the repositories on the page. *)
From Verif Require Import Model.Base Model.Search Model.PageState Spec.LoadSpec.
From Coq Require Import Lia Sorted.
Local Open Scope Z_scope.

(** localeCompare: an order of names. *)
Definition collates (locale : str -> str -> Z) : Prop :=
  (forall a b, locale a b <= 0 \/ locale b a <= 0) /\
  (forall a b c, locale a b <= 0 -> locale b c <= 0 -> locale a c <= 0) /\
  (forall a b, 0 < locale a b -> locale b a <= 0).
(** More files first, then by name. *)
Definition comes_first (locale : str -> str -> Z) (a b : result) : Prop :=
  (length (r_matches b) < length (r_matches a))%nat \/
  (length (r_matches b) = length (r_matches a) /\ locale (r_repo a) (r_repo b) <= 0).

Section Order.
Variable locale : str -> str -> Z.
Hypothesis C : collates locale.
Lemma compare_le : forall a b, compare_results locale a b <= 0 -> comes_first locale a b.
Proof.
  intros a b X. unfold compare_results in X. destruct (Z.eqb_spec (Z.of_nat (length (r_matches b)) - Z.of_nat (length (r_matches a))) 0) as [D|D].
  - right. split; [lia|exact X].
  - left. lia.
Qed.
Lemma compare_gt : forall a b, 0 < compare_results locale a b -> comes_first locale b a.
Proof.
  intros a b X. unfold compare_results in X. destruct (Z.eqb_spec (Z.of_nat (length (r_matches b)) - Z.of_nat (length (r_matches a))) 0) as [D|D].
  - right. split; [lia|]. destruct C as (_ & _ & A). apply A. exact X.
  - left. lia.
Qed.
Lemma first_trans : forall a b c, comes_first locale a b -> comes_first locale b c -> comes_first locale a c.
Proof.
  intros a b c [X|(X & X')] [Y|(Y & Y')]; [left; lia|left; lia|left; lia|]. right. split; [lia|].
  destruct C as (_ & T & _). exact (T _ _ _ X' Y').
Qed.
Lemma insert_in : forall x l y, In y (insert locale x l) -> y = x \/ In y l.
Proof.
  intros x l. induction l as [|z l IH]; intros y H; cbn [insert] in H.
  - destruct H as [<-|[]]. auto.
  - destruct (0 <? compare_results locale x z).
    + destruct H as [<-|H]; [right; left; reflexivity|]. destruct (IH _ H) as [->|I]; [auto|right; right; exact I].
    + destruct H as [<-|H]; [auto|right; exact H].
Qed.
Lemma insert_sorted : forall x l, StronglySorted (comes_first locale) l -> StronglySorted (comes_first locale) (insert locale x l).
Proof.
  intros x l S. induction S as [|y l S IH F]; cbn [insert].
  - constructor; constructor.
  - destruct (Z.ltb_spec 0 (compare_results locale x y)) as [G|G].
    + constructor; [exact IH|]. apply Forall_forall. intros z Z. destruct (insert_in _ _ _ Z) as [->|I].
      * apply compare_gt. exact G.
      * exact (proj1 (Forall_forall _ _) F _ I).
    + pose proof (compare_le _ _ G) as X. constructor; [constructor; [exact S|exact F]|]. constructor; [exact X|].
      eapply Forall_impl; [|exact F]. intros z Z. exact (first_trans _ _ _ X Z).
Qed.
Lemma sort_sorted : forall l, StronglySorted (comes_first locale) (sort_results locale l).
Proof. induction l as [|x l IH]; [constructor|]. cbn [sort_results fold_right]. apply insert_sorted. exact IH. Qed.

Lemma nth_seq : forall (objs new : list result) rs, Forall2 (fun i x => nth_error (objs ++ new) i = Some x) (seq (length objs) (length new)) rs -> rs = new.
Proof.
  intros objs new. revert objs. induction new as [|x new IH]; intros objs rs F; cbn [length seq] in F.
  - inversion F. reflexivity.
  - destruct rs as [|y rs]; [inversion F|]. inversion F as [|? ? ? ? E F']. subst.
    rewrite nth_error_app2 in E by lia. rewrite Nat.sub_diag in E. cbn [nth_error] in E. injection E as ->. f_equal.
    apply (IH (objs ++ [y])). rewrite app_length. cbn [length]. rewrite Nat.add_1_r, <- app_assoc. exact F'.
Qed.
Theorem shown_in_order : forall s req rep s' rs,
  page_step locale s (Arrive (PSearch req) rep) s' -> displays s' rs -> StronglySorted (comes_first locale) rs.
Proof.
  intros s req rep s' rs ST D. inversion ST as [| |before after a rep' s'' E R]. subst. unfold search_answer in R.
  destruct rep as [ans stats|msg|].
  - destruct stats; [|discriminate]. cbn [pg_params pg_objs pg_results pg_by pg_pending v_results v_error] in R.
    injection R as <-. destruct D as (_ & ids & V & F). cbn [v_results pg_objs] in *. injection V as <-.
    rewrite (nth_seq _ _ _ F). apply sort_sorted.
  - destruct msg; [discriminate|]. injection R as <-. destruct D as (E' & _). discriminate E'.
  - injection R as <-. destruct D as (E' & _). discriminate E'.
Qed.
End Order.
