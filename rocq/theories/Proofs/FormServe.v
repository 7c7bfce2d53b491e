(** The requests of the page reach the modelled server as they are. *)
From Verif Require Import Model.Base Model.PageState Model.PageAddress Model.Request Model.Api Model.Whole Model.PageForm Spec.Utf8Spec Spec.AddressSpec Spec.FormSpec Spec.Names
  Proofs.StrLemmas Proofs.ApiProofs Proofs.RequestProofs Proofs.AddressProofs Proofs.FormProofs Proofs.PageServe.
Local Open Scope N_scope.

Lemma same_pairs_formed : forall p pb, Forall2 same_pair p pb -> Forall pair_formed p.
Proof. intros p pb F. induction F as [|kv kb p pb (A & B) _ IH]; constructor; [split; eapply same_formed; eassumption|exact IH]. Qed.
Theorem same_request_read : forall p pb o, Forall2 same_pair p pb -> object_of p o -> exists form, seen_by_server o = Some form /\
  (forall k kb, same_text k kb -> form kb = PageServe.form_value pb kb) /\
  forall servers def, request servers def pb = read_search form (map (fun s => (fst s, fst (snd s))) servers) def.
Proof.
  intros p pb o F O1. destruct (object_seen p o (same_pairs_formed p pb F) O1) as (form & E & V). exists form. split; [exact E|].
  assert (G : forall k kb, same_text k kb -> form kb = PageServe.form_value pb kb).
  { intros k kb T. specialize (V k kb T). pose proof (get_same p pb k kb F T) as S1. unfold PageServe.form_value.
    destruct (get_param p k), (get_param pb kb); try contradiction; [exact (same_fun _ _ _ V S1)|exact V]. }
  split; [exact G|]. intros servers def. unfold request, read_search.
  rewrite <- (G f_rng f_rng), <- (G f_stats f_stats), <- (G f_repos f_repos), <- (G f_q f_q), <- (G f_files f_files), <- (G f_exclude f_exclude), <- (G f_i f_i),
    <- (G f_literal f_literal), <- (G f_limit f_limit), <- (G f_ctx f_ctx) by (apply names_ascii; reflexivity). reflexivity.
Qed.
