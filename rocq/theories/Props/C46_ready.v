(** C46: 503 until ready, then never again; the health check always answers 200. For all
    interleavings of any number of requests with the switch. *)
From Verif Require Import Model.Base Model.Web Proofs.WebProofs.

Theorem C46_answers : forall h tr s, reach h tr s -> forall t1 id p r t2, tr = t1 ++ Answer id p r :: t2 ->
  In (Begin id p) t1 /\ (forall p' r', ~ In (Answer id p' r') t1) /\
  (p = h -> r = Healthy) /\ (p <> h -> ~ In Ready t1 -> r = Unavailable) /\ (p <> h -> In Ready t1 -> r = Served).
Proof. exact answers. Qed.
Print Assumptions C46_answers.

Theorem C46_stays_ready : forall h tr s, reach h tr s ->
  forall t1 id p t2 id' p' r t3, tr = t1 ++ Answer id p Served :: t2 ++ Answer id' p' r :: t3 ->
  p' <> h -> r = Served.
Proof. exact stays_ready. Qed.
Print Assumptions C46_stays_ready.

Theorem C46_health : forall h tr s id, reach h tr s -> who s id = Begun h ->
  exists s', step s (Some (Answer id h Healthy)) s'.
Proof. exact health_answers. Qed.
Print Assumptions C46_health.

Theorem C46_no_deadlock : forall h tr s id, reach h tr s -> who s id <> Fresh -> who s id <> Finished ->
  exists e s', step s e s'.
Proof. exact no_deadlock. Qed.
Print Assumptions C46_no_deadlock.

(** A request before the switch, the switch, a request after it. *)
Example C46_example : exists s, reach [104%N]
  [Begin 0 []; Answer 0 [] Unavailable; Begin 1 []; Ready; Answer 1 [] Served] s.
Proof.
  pose proof (reach_init [104%N]) as R.
  eapply reach_event in R; [|apply (st_begin _ 0 []); reflexivity].
  eapply reach_silent in R; [|apply (st_other _ 0 []); [reflexivity|discriminate]].
  eapply reach_silent in R; [|apply (st_rlock _ 0 []); reflexivity].
  eapply reach_silent in R; [|apply (st_read _ 0 []); reflexivity].
  eapply reach_event in R; [|apply (st_answer _ 0 [] Unavailable); reflexivity].
  eapply reach_silent in R; [|apply (st_runlock _ 0); reflexivity].
  eapply reach_event in R; [|apply (st_begin _ 1 []); reflexivity].
  eapply reach_silent in R; [|apply st_lock; [reflexivity|]].
  2:{ cbn. intros [|[|id]]; exact (fun x => x). }
  eapply reach_silent in R; [|apply st_write; reflexivity].
  eapply reach_event in R; [|apply st_unlock; reflexivity].
  eapply reach_silent in R; [|apply (st_other _ 1 []); [reflexivity|discriminate]].
  eapply reach_silent in R; [|apply (st_rlock _ 1 []); reflexivity].
  eapply reach_silent in R; [|apply (st_read _ 1 []); reflexivity].
  eapply reach_event in R; [|apply (st_answer _ 1 [] Served); reflexivity].
  eexists. exact R.
Qed.
