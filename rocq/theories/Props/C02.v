(** C02: Boolean query combination preserves meaning. [sat] and [wf_query] are in
    Spec/QuerySpec.v; [and_or] models Query.andOr. *)
From Verif Require Import Model.Base Model.Query Spec.QuerySpec Proofs.QueryProofs.
Local Open Scope N_scope.

Theorem C02_and_meaning : forall T q r, wf_query q -> wf_query r ->
  wf_query (and_or q r QAnd) /\ (sat T (and_or q r QAnd) <-> sat T q /\ sat T r).
Proof.
  exact (fun T q r Hq Hr => conj (and_or_wf q r QAnd (or_introl eq_refl) Hq Hr)
                                 (and_or_sat T q r QAnd (or_introl eq_refl) Hq Hr)).
Qed.
Print Assumptions C02_and_meaning.

Theorem C02_or_meaning : forall T q r, wf_query q -> wf_query r ->
  wf_query (and_or q r QOr) /\ (sat T (and_or q r QOr) <-> sat T q \/ sat T r).
Proof.
  exact (fun T q r Hq Hr => conj (and_or_wf q r QOr (or_intror eq_refl) Hq Hr)
                                 (and_or_sat T q r QOr (or_intror eq_refl) Hq Hr)).
Qed.
Print Assumptions C02_or_meaning.

(** The recursion of andOr terminates (the model's fuel is never exhausted). *)
Theorem C02_terminates : forall q r op,
  and_or_f (S (q_size q + q_size r)) q r op = Some (and_or q r op).
Proof. exact and_or_some. Qed.
Print Assumptions C02_terminates.

(** Adding the trigrams of a set of alternatives. *)
Theorem C02_and_trigrams_meaning : forall T q t, wf_query q ->
  wf_query (and_trigrams q t) /\
  (sat T (and_trigrams q t) <->
   sat T q /\ (min_len t < 3 \/ exists w, In w t /\ forall x, In x (trigrams_of w) -> T x)%nat).
Proof. exact and_trigrams_spec. Qed.
Print Assumptions C02_and_trigrams_meaning.

(** A non-trivial instance: unsorted lists with a common trigram that is factored out,
    and the combination really is neither of its arguments. *)
Definition ex_q : query := Query QAnd [[98;98;98]; [97;97;97]] [Query QOr [[99;99;99]; [100;100;100]] []].
Definition ex_r : query := Query QAnd [[98;98;98]; [101;101;101]] [].
Example C02_example : wf_query ex_q /\ wf_query ex_r /\
  and_or ex_q ex_r QOr <> ex_q /\ and_or ex_q ex_r QOr <> ex_r /\
  q_op (and_or ex_q ex_r QOr) = QAnd.
Proof.
  repeat split; try (vm_compute; discriminate); try (left; discriminate);
    try (vm_compute; reflexivity); cbn; intros t H; intuition; subst; reflexivity.
Qed.
