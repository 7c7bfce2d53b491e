(** C99: index directories do not pile up. True as long as builds succeed; a failed build leaves its
    directory behind until the next start, and it is tried again with every poll. *)
From Verif Require Import Model.Base Model.Startup Spec.StartupSpec Spec.PileSpec Proofs.StartupProofs Proofs.StartupResults Proofs.StartupExamples Proofs.PileProofs.
From Coq Require Import Lia.

(** While houndd serves, a directory is used by a repository, or was left by a failure since the
    last start; whatever crashes and restarts came before. *)
Theorem C99_explained_partial : forall W tr s p d, runs W tr s -> proc s = Some p -> at_phase p = Serving -> disk s d <> None ->
  exists t, since_start tr t /\ ((exists i, i < length (config p) /\ uses (jobs p i) d) \/ In (Failed d) t).
Proof. exact explained. Qed.
Print Assumptions C99_explained_partial.

(** So there is one for each repository, another for each that is being updated, and one for each
    failure since the last start. Missing: a bound on the latter. *)
Theorem C99_few_partial : forall W tr s p t ds, runs W tr s -> proc s = Some p -> at_phase p = Serving -> since_start tr t ->
  NoDup ds -> (forall d, In d ds -> disk s d <> None) -> length ds <= length (config p) + busy p + length (failures t).
Proof. exact few. Qed.
Print Assumptions C99_few_partial.

(** One repository, whose next revision cannot be indexed: any number of directories, though
    nothing is under way. *)
Theorem C99_refuted : exists W u o, forall n, exists tr s p ds, runs W tr s /\ proc s = Some p /\ at_phase p = Serving /\
  config p = [(u, o)] /\ busy p = 0 /\ NoDup ds /\ length ds = n /\ forall d, In d ds -> disk s d <> None.
Proof.
  exists W0, ua, 0. intros n. destruct (piles_up n) as (tr & s & p & R & PS & PH & CF & J0 & JN & D).
  exists tr, s, p, (seq 0 n). repeat (split; [assumption|]). split; [unfold busy; rewrite CF; cbn; rewrite J0; reflexivity|].
  split; [apply seq_NoDup|]. split; [apply seq_length|]. intros d I. apply in_seq in I. apply D. lia.
Qed.
Print Assumptions C99_refuted.

(** A server after its first start: one directory; while it updates: two; after the update failed:
    two, one of them left by the failure. *)
Example C99_example : exists tr s p t, runs W0 tr s /\ proc s = Some p /\ at_phase p = Serving /\ since_start tr t /\
  busy p = 0 /\ failures t = [1] /\ uses (jobs p 0) 0 /\ disk s 0 <> None /\ disk s 1 <> None /\
  exists tr1 s1 p1 t1, runs W0 tr1 s1 /\ proc s1 = Some p1 /\ at_phase p1 = Serving /\ since_start tr1 t1 /\ busy p1 = 1 /\ failures t1 = [] /\ uses (jobs p1 0) 1.
Proof.
  boot R. go R (st_update _ _ _ 0 ua 0 0 r1 1 r2). pose proof R as R'. go R (st_update_fail _ _ _ 0 0 r1 1 r2).
  eexists _, _, _, _. split; [exact R|]. split; [reflexivity|]. split; [reflexivity|].
  split; [eexists [], _, _; split; [reflexivity|]; intros c g I; cbn in I; repeat (destruct I as [I|I]; [discriminate|]); contradiction|].
  repeat (split; [first [reflexivity | constructor | discriminate]|]).
  eexists _, _, _, _. split; [exact R'|]. split; [reflexivity|]. split; [reflexivity|].
  split; [eexists [], _, _; split; [reflexivity|]; intros c g I; cbn in I; repeat (destruct I as [I|I]; [discriminate|]); contradiction|].
  split; [reflexivity|]. split; [reflexivity|]. constructor.
Qed.
