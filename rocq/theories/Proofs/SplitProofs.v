(** Splitting a text at newlines. *)
From Verif Require Import Model.Base Spec.MatchSpec.
Local Open Scope N_scope.

Fixpoint split_nl (t : bytes) : list bytes :=
  match t with
  | [] => [[]]
  | c :: r =>
      if c =? 10 then [] :: split_nl r
      else match split_nl r with
           | l :: ls => (c :: l) :: ls
           | [] => [[c]]
           end
  end.

Lemma split_nl_nonempty : forall t, split_nl t <> [].
Proof.
  induction t as [|c r IH]; cbn [split_nl]; [discriminate|].
  destruct (c =? 10); [discriminate|]. destruct (split_nl r); discriminate.
Qed.

Lemma split_nl_line : forall l rest, ~ In 10 l -> split_nl (l ++ 10 :: rest) = l :: split_nl rest.
Proof.
  induction l as [|c l IH]; intros rest N; cbn [app split_nl]; [reflexivity|].
  rewrite (proj2 (N.eqb_neq c 10)) by (intros ->; apply N; left; reflexivity).
  rewrite IH by (intros X; apply N; right; assumption). reflexivity.
Qed.
Lemma split_nl_last : forall l, ~ In 10 l -> split_nl l = [l].
Proof.
  induction l as [|c l IH]; intros N; cbn [split_nl]; [reflexivity|].
  rewrite (proj2 (N.eqb_neq c 10)) by (intros ->; apply N; left; reflexivity).
  rewrite IH by (intros X; apply N; right; assumption). reflexivity.
Qed.
Lemma split_nl_unique : forall init last, Forall (fun l => ~ In 10 l) (init ++ [last]) ->
  split_nl (concat (map (fun l => l ++ [10]) init) ++ last) = init ++ [last].
Proof.
  induction init as [|l init IH]; intros last F; cbn [map concat app] in *.
  - inversion F; subst. apply split_nl_last. assumption.
  - inversion F as [|? ? N F']; subst. rewrite <- !app_assoc. cbn [app].
    rewrite split_nl_line by assumption. f_equal. apply IH. assumption.
Qed.

Lemma split_ex : forall t, exists init last, Forall (fun l => ~ In 10 l) (init ++ [last]) /\
  t = concat (map (fun l => l ++ [10]) init) ++ last.
Proof.
  induction t as [|c t (init & last & F & E)].
  - exists [], []. split; [repeat constructor; intros []|reflexivity].
  - destruct (N.eq_dec c 10) as [->|NE].
    + exists ([] :: init), last. split; [constructor; [intros []|assumption]|]. cbn. rewrite E. reflexivity.
    + destruct init as [|l init].
      * exists [], (c :: last). cbn in *. inversion F as [|? ? NL _]; subst. split; [|reflexivity].
        constructor; [|constructor]. intros [X|X]; contradiction.
      * exists ((c :: l) :: init), last. inversion F as [|? ? NL F']; subst. split.
        -- constructor; [|assumption]. intros [X|X]; contradiction.
        -- reflexivity.
Qed.

Lemma splits_iff : forall t lines, splits t lines <-> lines = split_nl t.
Proof.
  intros t lines. split.
  - intros (_ & F & init & last & -> & ->). symmetry. apply split_nl_unique. assumption.
  - intros ->. destruct (split_ex t) as (init & last & F & ->). rewrite split_nl_unique by assumption.
    split; [destruct init; discriminate|]. split; [assumption|]. eauto.
Qed.

Lemma splits_total : forall t, exists lines, splits t lines /\ forall lines', splits t lines' -> lines' = lines.
Proof.
  intros t. exists (split_nl t). split; [apply splits_iff; reflexivity|]. intros l. apply splits_iff.
Qed.
