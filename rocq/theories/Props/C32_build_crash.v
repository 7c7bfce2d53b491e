(** C32: a crash during a build never yields a half-built live index. *)
From Verif Require Import Model.Base Model.Startup Spec.StartupSpec Proofs.StartupProofs Proofs.StartupResults Proofs.StartupExamples.

(** An index found on disk that becomes live is the finished index of the pulled revision, if
    no removal of its directory has ever been interrupted (that is C33). *)
Theorem C32_reused : forall W tr s es s' i d, runs W tr s -> step W s es s' -> In (Reused i d) es -> ~ interrupted d tr ->
  exists u r o x, In (Pulled i u r) es /\ configured u o tr /\ disk s' d = Some x /\ complete W u r o x.
Proof.
  intros W tr s es s' i d R ST IN NI. destruct (reused_good W tr s es s' i d R ST IN) as (u & r & x & A & B & _ & [X|(o & C & D)]); [contradiction|].
  exists u, r, o, x. auto.
Qed.

(** In any case its build had been finished: it is what is left of a finished index. *)
Theorem C32_finished : forall W tr s es s' i d, runs W tr s -> step W s es s' -> In (Reused i d) es ->
  exists u r o x y, In (Pulled i u r) es /\ configured u o tr /\ disk s' d = Some x /\ complete W u r o y /\ less x y.
Proof.
  intros W tr s es s' i d R ST IN. destruct (reused_good W tr s es s' i d R ST IN) as (u & r & x & A & B & C & _).
  destruct (remains W _ _ (runs_step W _ _ _ _ R ST) d x u r B C) as (o & y & (cfg & f & D1 & D2) & E & F).
  exists u, r, o, x, y. split; [exact A|]. split; [|auto]. apply in_app_or in D1. destruct D1 as [D1|D1]; [exists cfg, f; auto|].
  destruct ST; cbn in IN, D1; repeat destruct IN as [IN|IN]; repeat destruct D1 as [D1|D1]; try discriminate; contradiction.
Qed.

(** An index that becomes live after having been built is finished. *)
Theorem C32_built : forall W tr s es s' i d, runs W tr s -> step W s es s' -> In (Live i d) es ->
  exists p u o r x, proc s = Some p /\ nth_error (config p) i = Some (u, o) /\ disk s' d = Some x /\ complete W u r o x.
Proof. exact live_good. Qed.

(** What has no readable manifest when the server starts is not used, and is gone when the start
    is over. A pull never gives an empty revision of an empty Url. *)
Theorem C32_removed : forall W tr s es s' t1 cfg f t2, runs W tr s -> step W s es s' -> In Ready es ->
  tr = t1 ++ Start cfg f :: t2 -> (forall e, In e t2 -> is_start e = false) -> (forall i, ~ In (Pulled i [] []) t2) ->
  forall d x, f d = Some x -> read_man W x = None -> disk s' d = None.
Proof. exact unreadable_gone. Qed.

(** Five writes into a build the process is killed; the next start builds anew. *)
Example C32_case : exists t1 cfg f t2 s s' x, runs W0 (t1 ++ Start cfg f :: t2) s /\ step W0 s [Ready] s' /\
  (forall e, In e t2 -> is_start e = false) /\ (forall i, ~ In (Pulled i [] []) t2) /\
  f 0 = Some x /\ read_man W0 x = None /\ raw x = Some (raw0 ua r1 0) /\ In (Live 0 1) t2 /\ (forall d, ~ interrupted d (t1 ++ Start cfg f :: t2)).
Proof. exact cut_run. Qed.
(** A finished index is used again. *)
Example C32_case_reused : exists tr s s', runs W0 tr s /\ step W0 s [Pulled 0 ua r1; Reused 0 0] s' /\ ~ interrupted 0 tr.
Proof. exact again_run. Qed.

Print Assumptions C32_reused.
Print Assumptions C32_finished.
Print Assumptions C32_built.
Print Assumptions C32_removed.
