(** The tests of /repo/ui/assets/js/common.test.js (ExpandVars, UrlParts, UrlToRepo) and /repo/ui/assets/js/signal.test.js on
    the model. EscapeRegExp is tested there through the RegExp of the browser, which is not modelled.

    Tests of the model, not proofs about it. *)
From Verif Require Import Model.Base Model.PageLinks Model.Signal Spec.Names.
Local Open Scope N_scope.

(** common.test.js:30-50 *)
Example TestExpandVars :
  ExpandVars (text "I am trying to {verb} my {noun}") [(text "verb", Some (text "wash")); (text "noun", Some (text "dishes"))] =
    text "I am trying to wash my dishes" /\
  ExpandVars (text "Get the {expletive} out of my {noun}") [(text "noun", Some (text "stamp collection"))] =
    text "Get the {expletive} out of my stamp collection" /\
  ExpandVars (text "Get the {expletive} out of my {noun}") [] = text "Get the {expletive} out of my {noun}".
Proof. vm_compute. repeat split; reflexivity. Qed.

(** common.test.js:52-163. expect.objectContaining looks at the properties named only. *)
Definition parts (url anchor : str) (line : option N) : url_parts :=
  UrlParts (mkLink url [] anchor) (text "test.txt") line (Some (text "main")).
Definition shown (p : url_parts) : str * str * option str * str := (p_url p, p_path p, p_rev p, p_anchor p).
Definition file : str := text "test.txt".
Definition main : option str := Some (text "main").
Example TestUrlParts :
  shown (parts (text "https://www.github.com/YourOrganization/RepoOne.git") (text "#L{line}") None) =
    (text "https://www.github.com/YourOrganization/RepoOne", file, main, []) /\
  shown (parts (text "https://www.github.com/YourOrganization/RepoOne.git") (text "#L{line}") (Some 12)) =
    (text "https://www.github.com/YourOrganization/RepoOne", file, main, text "#L12") /\
  shown (parts (text "git@github.com:YourOrganization/RepoOne.git") (text "#L{line}") None) =
    (text "//github.com/YourOrganization/RepoOne", file, main, []) /\
  shown (parts (text "ssh://hg@bitbucket.org/YourOrganization/RepoOne") (text "#{filename}-{line}") None) =
    (text "//bitbucket.org/YourOrganization/RepoOne", file, main, []) /\
  shown (parts (text "ssh://git@bitbucket.org:7999/YourOrganization/RepoOne") (text "#{filename}-{line}") None) =
    (text "//bitbucket.org:7999/YourOrganization/RepoOne", file, main, []) /\
  let p := parts (text "ssh://git@bitbucket.internal.com:7999/YourOrganization/RepoOne") (text "#{line}") (Some 10) in
    (p_hostname p, p_project p, p_repo p, p_path p, p_rev p, p_anchor p) =
    (text "//bitbucket.internal.com", text "YourOrganization", text "RepoOne", file, main, text "#10").
Proof. vm_compute. repeat split; reflexivity. Qed.

(** common.test.js:166-184 *)
Example TestUrlToRepo :
  UrlToRepo (mkLink (text "https://www.github.com/YourOrganization/RepoOne.git") (text "{url}/blob/{rev}/{path}{anchor}") (text "#L{line}")) file None main =
  text "https://www.github.com/YourOrganization/RepoOne/blob/main/test.txt".
Proof. vm_compute. reflexivity. Qed.

(** signal.test.js. What a run leaves: the calls made, and the listeners. *)
Definition gives (behave : list N -> N -> N -> list act) (v : N) (s s' : signal) (calls : list (N * N)) : Prop :=
  exists t, raises behave 0 v s s' t false /\ map (fun c => (c_who c, c_arg c)) t = calls.
Definition quiet (_ : list N) (_ _ : N) : list act := [].
Definition leaves (_ : list N) (who _ : N) : list act := [Untap who].
Definition joins (_ : list N) (who _ : N) : list act := [Tap who].
Ltac run := eexists; split; [apply raise_all; repeat first
   [ eapply each_call; [vm_compute; lia|vm_compute; reflexivity|first [apply acts_end|apply acts_untap, acts_end|apply acts_tap, acts_end]|]
   | apply each_end; vm_compute; lia ]|vm_compute; reflexivity].

(** signal.test.js:4-7 *)
Example TestUntapped : exists s, gives quiet 420 new_signal s [].
Proof. eexists. run. Qed.
(** signal.test.js:9-17, 19-45 *)
Example TestTaps : exists s1 s2 s3,
  gives quiet 420 (tap 2 (tap 1 new_signal)) s1 [(1, 420); (2, 420)] /\
  gives quiet 666 (untap 2 s1) s2 [(1, 666)] /\
  gives quiet 800 (untap 1 s2) s3 [].
Proof. eexists. eexists. eexists. split; [run|]. split; run. Qed.
(** signal.test.js:47-74 *)
Example TestUntapDuringDispatch : exists s1 s2,
  gives leaves 420 (tap 2 (tap 1 new_signal)) s1 [(1, 420); (2, 420)] /\ gives leaves 666 s1 s2 [].
Proof. eexists. eexists. split; run. Qed.
(** signal.test.js:76-90 *)
Example TestTapDuringDispatch : exists s1, gives joins 0 (tap 1 new_signal) s1 [(1, 0)] /\ length (listeners s1) = 2%nat.
Proof. eexists. split; [run|vm_compute; reflexivity]. Qed.
