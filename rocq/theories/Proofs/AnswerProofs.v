(** The JSON of an answer. *)
From Verif Require Import Model.Base Model.GoFmt Model.Json Model.Grep Model.Search Model.Wire
  Spec.Names Spec.ApiSpec Spec.Utf8Spec Spec.JsonSpec Spec.JsonValueSpec Spec.WireSpec Spec.OfferSpec Spec.AnswerSpec Spec.JsonGrammar
  Proofs.JsonProofs Proofs.JsonValueProofs Proofs.WireProofs Proofs.OfferProofs Proofs.GrammarProofs.
Local Open Scope N_scope.

Lemma all_arrived : forall {A} (f : A -> jv) (rd : A -> jv -> Prop) l vs, (forall a v, vreplaced (f a) v -> rd a v) ->
  Forall2 vreplaced (map f l) vs -> Forall2 rd l vs.
Proof. intros A f rd l vs D. revert vs. induction l as [|a l IH]; intros vs F; inversion F; subst; constructor; auto. Qed.
Lemma slice_read_arrived : forall {A} (f : A -> jv) (rd : A -> jv -> Prop) l v, (forall a v, vreplaced (f a) v -> rd a v) ->
  vreplaced (enc_slice f l) v -> slice_read rd l v.
Proof.
  intros A f rd l v D R. destruct l as [|a l]; cbn [enc_slice] in R; [left; inversion R; auto|].
  right. split; [discriminate|]. destruct (arr_arrived _ _ R) as (vs & -> & F). exists vs. split; [reflexivity|].
  exact (all_arrived f rd (a :: l) vs D F).
Qed.
Lemma match_shape : forall h v, vreplaced (enc_match h) v -> match_read h v.
Proof.
  intros h v R. destruct (obj_arrived _ _ R) as (l & -> & M); [keys|]. clear R. members M. exists v, v0, v1, v2. split; [reflexivity|].
  split; [apply text_arrived; assumption|]. split; [apply int_arrived; assumption|]. split; apply texts_arrived; assumption.
Qed.
Lemma file_shape : forall f v, vreplaced (enc_file f) v -> file_read f v.
Proof.
  intros f v R. destruct (obj_arrived _ _ R) as (l & -> & M); [keys|]. clear R. members M. exists v, v0, v1. split; [reflexivity|].
  split; [apply text_arrived; assumption|]. split; [|apply bool_arrived; assumption].
  eapply slice_read_arrived; [|eassumption]. exact match_shape.
Qed.
Lemma response_shape : forall r v, vreplaced (enc_response r) v -> response_read r v.
Proof.
  intros r v R. destruct (obj_arrived _ _ R) as (l & -> & M); [keys|]. clear R. members M. exists v, v0, v1. split; [reflexivity|].
  split; [eapply slice_read_arrived; [|eassumption]; exact file_shape|]. split; [apply int_arrived; assumption|apply text_arrived; assumption].
Qed.
Lemma stats_shape : forall st v, vreplaced (enc_stats st) v -> stats_read st v.
Proof.
  intros st v R. destruct (obj_arrived _ _ R) as (l & -> & M); [keys|]. clear R. members M. exists v, v0. split; [reflexivity|].
  split; apply int_arrived; assumption.
Qed.
Lemma results_shape : forall l v, Forall result_sent l -> vreplaced (VObj (map (fun p => (fst p, enc_response (snd p))) l)) v -> results_read l v.
Proof.
  intros l v F R. destruct (obj_arrived _ _ R (valid_keys _ F)) as (m & -> & M). exists m. split; [reflexivity|]. clear F R.
  revert m M. induction l as [|[k r] l IH]; intros m M; inversion M as [|? [k' v] ? m' [K V] M']; subst; constructor; [|apply IH; exact M'].
  cbn [fst snd] in *. split; [exact K|apply response_shape; exact V].
Qed.

Theorem answer_json : forall short results stats, Forall result_sent results ->
  exists v, answer_read results stats v /\ exists t, json_text v t /\ write_json short (enc_answer results stats) = t ++ [10].
Proof.
  intros short results stats F. destruct (json_written short (enc_answer results stats) (answer_writable _ _ F)) as (v & R & J).
  exists v. split; [|exists (print short (enc_answer results stats)); auto]. clear J.
  destruct (obj_arrived _ _ R) as (l & -> & M).
  { apply Forall_cons; [cbn [fst]; apply ascii_valid; ascii|]. destruct stats; keys. }
  clear R. destruct stats as [st|]; members M; cbn [answer_read].
  - exists v, v0. split; [reflexivity|]. split; [apply results_shape; assumption|apply stats_shape; assumption].
  - exists v. split; [reflexivity|]. apply results_shape; assumption.
Qed.

Theorem error_json : forall short err, Forall is_byte err ->
  exists v, error_read err v /\ exists t, json_text v t /\ write_json short (enc_error err) = t ++ [10].
Proof.
  intros short err B. assert (W : writable (enc_error err)). { constructor. apply Forall_cons; [split; [wkey|constructor; exact B]|constructor]. }
  destruct (json_written short (enc_error err) W) as (v & R & J). exists v. split; [|exists (print short (enc_error err)); auto].
  destruct (obj_arrived _ _ R) as (l & -> & M); [keys|]. members M. exists v. split; [reflexivity|]. apply text_arrived; assumption.
Qed.
