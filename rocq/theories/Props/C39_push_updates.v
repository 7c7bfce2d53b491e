(** C39: updates are only triggered by POST and where push updates are enabled. The update
    handler drops unknown names before looking them up, so that it never answers 404
    ([_refuted]); the webhook does. *)
From Verif Require Import Model.Base Model.GoStr Model.Config Model.Api Spec.ApiSpec Spec.Names Proofs.GoStrProofs Proofs.ApiProofs.
Local Open Scope Z_scope.

(** [done]: the repositories for which an update was requested. *)
Theorem C39_update_partial : forall method form idx w, trimmed (form (text "repos")) w ->
  let '(status, done) := update_handler method form idx in
  let wanted n := In n (map fst idx) /\ (w = [42%N] \/ element w n) in
  Forall (fun n => wanted n /\ exists s, get idx n = Some s /\ r_push s = Some true) done /\
  ((method <> (text "POST") /\ status = 405 /\ done = []) \/
   (method = (text "POST") /\ status = 200 /\ forall n, wanted n -> In n done) \/
   (method = (text "POST") /\ status = 403 /\ exists n s, wanted n /\ get idx n = Some s /\ r_push s <> Some true)).
Proof. exact update_ok. Qed.
Print Assumptions C39_update_partial.

(** [body]: the repository name in the request, [None] if it cannot be decoded. *)
Theorem C39_webhook : forall method body idx,
  (method <> (text "POST") /\ webhook_handler method body idx = (405, [])) \/
  (method = (text "POST") /\ body = None /\ webhook_handler method body idx = (400, [])) \/
  (exists name, method = (text "POST") /\ body = Some name /\ ~ In name (map fst idx) /\ webhook_handler method body idx = (404, [])) \/
  (exists name s, method = (text "POST") /\ body = Some name /\ get idx name = Some s /\ r_push s <> Some true /\
     webhook_handler method body idx = (403, [])) \/
  (exists name s, method = (text "POST") /\ body = Some name /\ get idx name = Some s /\ r_push s = Some true /\
     webhook_handler method body idx = (200, [name])).
Proof. exact webhook_ok. Qed.
Print Assumptions C39_webhook.

(** A request that names only an unknown repository is answered with 200. *)
Theorem C39_unknown_refuted : exists form idx name, trimmed (form (text "repos")) name /\ name <> [42%N] /\
  ~ In name (map fst idx) /\ update_handler (text "POST") form idx = (200, []).
Proof.
  exists (fun _ => [120%N]), [], [120%N]. split; [|split; [discriminate|split; [intros []|reflexivity]]].
  apply (trim_space_ok [120%N]).
Qed.
Print Assumptions C39_unknown_refuted.

(** "a,b" with push updates enabled for a only: a is updated, then the answer is 403. *)
Definition ex_push (p : option bool) : repo := mkRepo [] [] 0 [] None None false None p None.
Example C39_example :
  let idx := [([97%N], ex_push (Some true)); ([98%N], ex_push None)] in
  update_handler (text "POST") (fun _ => [97; 44; 98]%N) idx = (403, [[97%N]]) /\
  update_handler (text "POST") (fun _ => [97]%N) idx = (200, [[97%N]]) /\
  update_handler [71; 69; 84]%N (fun _ => [97]%N) idx = (405, []) /\
  trimmed [97; 44; 98]%N [97; 44; 98]%N.
Proof. split; [vm_compute; reflexivity|split; [vm_compute; reflexivity|split; [vm_compute; reflexivity|]]]. apply (trim_space_ok [97; 44; 98]%N). Qed.
