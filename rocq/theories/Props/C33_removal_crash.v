(** C33: a crash while an old index is being deleted never yields a damaged live index. Holds
    once the manifest is gone; until then the rest of the index may be used. *)
From Verif Require Import Model.Base Model.Startup Spec.StartupSpec Proofs.StartupProofs Proofs.StartupResults Proofs.StartupExamples.

(** A directory whose manifest is gone (or half written) when the server starts is not used by
    that process. Missing: the manifest is removed with the rest of the directory, in the order
    of the directory, not before it. *)
Theorem C33_partial : forall W tr s t1 cfg f t2, runs W tr s -> proc s <> None ->
  tr = t1 ++ Start cfg f :: t2 -> (forall e, In e t2 -> is_start e = false) ->
  forall d x i, f d = Some x -> read_man W x = None -> ~ In (Reused i d) t2.
Proof. exact unreadable_unused. Qed.

(** Only the directory whose removal was interrupted can be damaged. *)
Theorem C33_others_partial : forall W tr s es s' i d, runs W tr s -> step W s es s' -> In (Reused i d) es ->
  exists u r x, In (Pulled i u r) es /\ disk s' d = Some x /\ read_man W x = Some (u, r) /\
    (interrupted d tr \/ exists o, configured u o tr /\ complete W u r o x).
Proof. exact reused_good. Qed.

(** A pull fails, so the index of the repository is not claimed and its removal begins; the
    process is killed when raw/ is gone. The next pull gives the same revision: the directory
    is found and serves searches. *)
Theorem C33_refuted : exists W tr s s' i u r d x, runs W tr s /\ interrupted d tr /\
  step W s [Pulled i u r; Reused i d] s' /\ live_dir s' i d /\ disk s' d = Some x /\ forall o, ~ complete W u r o x.
Proof.
  destruct hurt_run as (tr & s & s' & x & A & B & C & D & E & F). exists W0, tr, s, s', 0, ua, r1, 0, x.
  split; [exact A|]. split; [exact C|]. split; [exact B|]. split; [exact F|]. split; [exact D|]. intros o (X & _). rewrite E in X. discriminate.
Qed.

(** When tri is gone too, every start that pulls this revision ends the process. *)
Theorem C33_stuck_refuted : exists W tr s i u r, runs W tr s /\ interrupted 0 tr /\ proc s <> None /\
  forall es s', step W s es s' -> In (Pulled i u r) es -> proc s' = None.
Proof. destruct fatal_run as (tr & s & A & B & C & D). exists W0, tr, s, 0, ua, r1. auto. Qed.

(** The manifest goes first: the directory is left alone. *)
Example C33_case : exists t1 cfg f t2 s x, runs W0 (t1 ++ Start cfg f :: t2) s /\ proc s <> None /\
  (forall e, In e t2 -> is_start e = false) /\ f 0 = Some x /\ read_man W0 x = None /\ interrupted 0 t1 /\ In (Live 0 1) t2.
Proof. exact safe_run. Qed.

Print Assumptions C33_partial.
Print Assumptions C33_others_partial.
Print Assumptions C33_refuted.
Print Assumptions C33_stuck_refuted.
