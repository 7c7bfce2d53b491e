(** C50: the reference that is fetched. [detect_args] is git remote show origin; detection
    succeeds when its output names a branch. *)
From Verif Require Import Model.Base Model.Vcs Spec.VcsSpec Proofs.VcsProofs.
From Coq Require Import Strings.String.
Local Open Scope N_scope.
Local Open Scope list_scope.

Theorem C50_target : forall w g dir h, let t := snd (targetRef w g dir h) in
  let output := fst (w_exec w h dir detect_args) in
  (Ref g <> [] -> t = Ref g) /\
  (Ref g = [] -> DetectRef g = true -> forall b, names_branch output b -> t = b) /\
  (Ref g = [] -> DetectRef g = true -> (forall b, ~ names_branch output b) -> t = lit "master") /\
  (Ref g = [] -> DetectRef g = false -> t = lit "master").
Proof. exact target_ref. Qed.
Print Assumptions C50_target.

(** That reference, and no other, is fetched and checked out by every pull. *)
Theorem C50_pull : forall w g dir h h' r, git_Pull w g dir h = (h', r) ->
  exists det b1 b2 b3,
    (targetRef w g dir h = (h ++ det, snd (targetRef w g dir h))) /\
    (det = [] \/ exists b, det = [mkRun dir detect_args b]) /\
    h' = h ++ det ++ [mkRun dir (fetches (snd (targetRef w g dir h))) b1;
               mkRun dir (checks_out (snd (targetRef w g dir h))) b2; mkRun dir rev_args b3] /\
    (r <> None <-> b3 = true).
Proof. exact pull_runs. Qed.
Print Assumptions C50_pull.

Definition C50_world := mkWorld (fun _ _ args =>
  if list_eq_dec (list_eq_dec N.eq_dec) args detect_args then (lit "  HEAD branch: main" ++ [10] ++ lit "x", true) else ([], true))
  (fun _ _ => true).
Example C50_example :
  snd (targetRef C50_world (mkGit true []) [100] []) = lit "main" /\
  snd (targetRef C50_world (mkGit false []) [100] []) = lit "master" /\
  snd (targetRef C50_world (mkGit true (lit "dev")) [100] []) = lit "dev".
Proof. vm_compute. auto. Qed.
