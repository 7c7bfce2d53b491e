(** C48: a failed fetch must be reported. Mercurial, Subversion and Bazaar report every
    failing command; git reports a failing clone and rev-parse ([_partial]), but a failing
    fetch or reset is only logged, and the old revision is returned ([_refuted]). *)
From Verif Require Import Model.Base Model.Vcs Spec.VcsSpec Proofs.VcsProofs.
From Coq Require Import Strings.String.
Local Open Scope N_scope.

(** An update succeeds exactly when every command it ran did. *)
Theorem C48_others_partial : forall w d dir url, (forall g, d <> Git g) ->
  forall h h' r, PullOrClone w d dir url h = (h', r) ->
  exists rs, h' = (h ++ rs)%list /\ rs <> [] /\ (r <> None <-> Forall (fun x => run_ok x = true) rs).
Proof. exact others_report. Qed.
Print Assumptions C48_others_partial.

(** For git, exactly when clone (if run) and rev-parse did. *)
Theorem C48_git_partial : forall w g dir url h h' r, PullOrClone w (Git g) dir url h = (h', r) ->
  exists rs, h' = (h ++ rs)%list /\
    (r <> None <-> forall x, In x rs -> run_args x = clone_args dir url \/ run_args x = rev_args -> run_ok x = true).
Proof. exact git_reports. Qed.
Print Assumptions C48_git_partial.

(** Every fetch fails; the checkout is at "a". *)
Definition C48_world := mkWorld (fun _ _ args => if list_eq_dec (list_eq_dec N.eq_dec) args rev_args then ([97], true) else ([], false))
  (fun _ _ => true).
Theorem C48_git_fetch_refuted : exists w g dir url h h' rs t, w_exists w h dir = true /\
  PullOrClone w (Git g) dir url h = (h', Some [97]) /\ h' = (h ++ rs)%list /\
  In (mkRun dir (fetches t) false) rs /\ ~ In (mkRun dir (fetches t) true) rs.
Proof.
  exists C48_world, (mkGit false []), [100], [117], []. eexists. eexists. exists defaultRef.
  split; [reflexivity|]. split; [vm_compute; reflexivity|]. split; [reflexivity|].
  split; [left; reflexivity|]. cbn. intuition discriminate.
Qed.
Print Assumptions C48_git_fetch_refuted.

Example C48_example : PullOrClone C48_world Hg [100] [117] [] =
  ([mkRun [100] [lit "hg"; lit "pull"; lit "-u"] false], None).
Proof. vm_compute. reflexivity. Qed.
