(** C62: an update works in the repository's own working copy, and the revision it returns
    is the one of that copy. The outside world is any oracle (Model/Vcs.v). *)
From Verif Require Import Model.Base Model.Vcs Spec.Names Spec.ApiSpec Spec.PlaceSpec Proofs.PlaceProofs.
Local Open Scope N_scope.

Theorem C62_place : forall w d dir url h h' r, PullOrClone w d dir url h = (h', r) ->
  exists rs, h' = h ++ rs /\
    (* it is there: every command runs in it *)
    (w_exists w h dir = true -> Forall (fun x => run_dir x = dir) rs /\
       forall c, In c (pull_cmd d) -> exists ok rest, rs = mkRun dir c ok :: rest) /\
    (* it is not: the first command makes it, from the URL, and nothing else is run if
       that fails *)
    (w_exists w h dir = false -> exists p t ok rest, entry_of dir p t /\ rs = mkRun p (clone_cmd d url t) ok :: rest /\
       Forall (fun x => run_dir x = dir) rest /\ (ok = false -> rest = [] /\ r = None)) /\
    (* the revision is the answer, without white space around it, to the last command *)
    (forall v, r = Some v -> exists before out, h' = before ++ [mkRun dir (revision_cmd d) true] /\
       w_exec w before dir (revision_cmd d) = (out, true) /\ trimmed out v).
Proof. exact update_place. Qed.
Print Assumptions C62_place.

(** A directory that is not there, in a world where everything succeeds and prints abc. *)
Definition C62_world := mkWorld (fun _ _ _ => (text " abc " ++ [10], true)) (fun _ _ => false).
Example C62_example :
  PullOrClone C62_world Hg (text "/data/vcs-1") (text "u") [] =
    ([mkRun (text "/data/") [text "hg"; text "clone"; text "u"; text "vcs-1"] true;
      mkRun (text "/data/vcs-1") (revision_cmd Hg) true], Some (text "abc")) /\
  fst (PullOrClone C62_world (Git (mkGit false [])) (text "/data/vcs-1") (text "u") []) <> [].
Proof. split; [vm_compute; reflexivity|]. vm_compute. discriminate. Qed.
