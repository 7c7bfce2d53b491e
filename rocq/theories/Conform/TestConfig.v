(** TestExampleConfigsAreValid, /repo/config/config_test.go:18-58, TestTargetRef, /repo/vcs/git_test.go, TestSvnConfig,
    /repo/vcs/svn_test.go, and TestNilConfigs, /repo/vcs/vcs_test.go, on the model. The file is the one the test reads; it has no
    numbers inside vcs-config, so the conversions of floating-point numbers are never asked for.

    Tests of the model, not proofs about it. *)
From Verif Require Import Model.Base Model.GoStr Model.Json Model.Config Model.ConfigCodec Model.Wire Model.ConfigFile Model.Vcs Model.LocalVcs
  Model.Drivers Spec.Names Conform.ConfigExampleJson.
Local Open Scope N_scope.

Definition loaded : option (option config) := LoadFromFile (fun _ => None) (fun _ => []) true (fun p => Some p) config_example_json.

Definition repo_named (name : str) : option repo :=
  match loaded with
  | Some (Some c) => match get (c_repos c) name with Some (Some r) => Some r | _ => None end
  | _ => None
  end.
Definition conf_of (name : str) : option git := r <- repo_named name ;; newGit (r_vcsconf r).

Example TestExampleConfigsAreValid :
  match loaded with
  | Some (Some c) =>
      length (c_repos c) = 14%nat /\
      forallb (fun kr => match snd kr with
                         | Some r => match New (r_vcs r) (r_vcsconf r) with Some _ => true | None => false end
                         | None => false
                         end) (c_repos c) = true
  | _ => False
  end /\
  conf_of (text "SomeGitRepo") = Some (mkGit true []) /\
  (r <- repo_named (text "AnotherGitRepo") ;; r_auto r) = Some [text "example/path"] /\
  conf_of (text "GitRepoWithDetectRefDisabled") = Some (mkGit false []).
Proof. vm_compute. repeat split; reflexivity. Qed.

(** git_test.go:17-85; the detector is asked by running a command, which gives the branch or nothing. *)
Definition remote (detected : str) : world :=
  mkWorld (fun _ _ _ => (match detected with [] => [] | _ => text "  HEAD branch: " ++ detected ++ [10] end, true)) (fun _ _ => true).
Definition target (explicit : str) (enabled : bool) (detected : str) : str :=
  snd (targetRef (remote detected) (mkGit enabled explicit) (text "dir") []).
Example TestTargetRef :
  target [] true (text "detected-ref") = text "detected-ref" /\
  target [] true [] = text "master" /\
  target (text "explicit-ref") true (text "detected-ref") = text "explicit-ref" /\
  target (text "explicit-ref") true [] = text "explicit-ref" /\
  target (text "explicit-ref") false (text "foo") = text "explicit-ref" /\
  target [] false [] = text "master" /\
  target (text "explicit-ref") false [] = text "explicit-ref" /\
  target (text "explicit-ref") false (text "detected-ref") = text "explicit-ref".
Proof. vm_compute. repeat split; reflexivity. Qed.

(** svn_test.go:8-24 *)
Definition q : str := [34].
Definition quoted (s : str) : str := q ++ s ++ q.
Example TestSvnConfig :
  New (text "svn") (Some (text "{" ++ quoted (text "username") ++ text " : " ++ quoted (text "svn_username") ++ text ", " ++
                          quoted (text "password") ++ text " : " ++ quoted (text "svn_password") ++ text "}")) =
  Some (Command (Svn (mkSvn (text "svn_username") (text "svn_password")))).
Proof. vm_compute. reflexivity. Qed.

(** vcs_test.go:10-21 *)
Example TestNilConfigs : Forall (fun d => New (fst d) None <> None) drivers.
Proof. unfold drivers. repeat (apply Forall_cons; [vm_compute; discriminate|]). apply Forall_nil. Qed.
