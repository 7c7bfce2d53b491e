(** C68: a repository is handled by the driver of its VCS with the settings the configuration
    file gives: its own and, where it has none of that name, the global ones for the VCS. This
    holds of options given under their very names with values that are not null ([_partial]).
    Otherwise the global value may win over the repository's own, null hides the global value,
    and the settings for one name of a VCS do not count for the other ([_refuted]). *)
From Verif Require Import Model.Base Model.Json Model.Config Model.ConfigCodec Model.Vcs Model.LocalVcs Model.Drivers
  Spec.Names Spec.JsonGrammar Spec.ConfigSpec Spec.FileSpec Spec.DriverSpec Proofs.FileProofs Proofs.DriverProofs.
Local Open Scope N_scope.

Theorem C68_driver_partial : forall parse_float format_float short abs c c', floats_ok parse_float format_float ->
  finish_load (unmarshal_map parse_float) (marshal_map format_float short) abs c = Some (Some c') ->
  Forall2 (fun a b => fst a = fst b /\ match snd a, snd b with
    | Some r, Some r' => forall own glob, own_settings r own -> global_settings c (r_vcs r') glob ->
        known_vcs (r_vcs r') -> options_ok (r_vcs r') (glob ++ own) ->
        exists w, New (r_vcs r') (r_vcsconf r') = Some w /\ driver_for (r_vcs r') (glob ++ own) w
    | _, _ => False end) (c_repos c) (c_repos c').
Proof. exact drivers_told. Qed.
Print Assumptions C68_driver_partial.

(** There are no other drivers. *)
Theorem C68_known : forall vcs conf w, New vcs conf = Some w -> known_vcs vcs.
Proof. exact driver_known. Qed.
Print Assumptions C68_known.

(** Without settings, or with null for them, a driver has its defaults; a text, a number, a list or a
    truth value for the settings of a driver that has any is an error. *)
Theorem C68_null : forall vcs b, known_vcs vcs -> json_text VNull b ->
  exists w, New vcs None = Some w /\ New vcs (Some b) = Some w /\ driver_for vcs [] w.
Proof.
  intros vcs b K T. destruct (driver_default vcs K) as (w & E & D). exists w. rewrite (null_settings _ _ T). auto.
Qed.
Print Assumptions C68_null.
Theorem C68_not_object : forall vcs v b, In vcs [text "git"; text "svn"; text "subversion"; text "local"] ->
  json_text v b -> v <> VNull -> (forall l, v <> VObj l) -> New vcs (Some b) = None.
Proof. exact other_settings. Qed.
Print Assumptions C68_not_object.

(** {"ref":"x"} for git, {"Ref":"y"} for the repository: the driver gets x. *)
Theorem C68_case_refuted : exists parse_float format_float abs c c' r r' own glob w, floats_ok parse_float format_float /\
  finish_load (unmarshal_map parse_float) (marshal_map format_float true) abs c = Some (Some c') /\
  c_repos c = [(text "r", Some r)] /\ c_repos c' = [(text "r", Some r')] /\
  own_settings r own /\ global_settings c (r_vcs r') glob /\ known_vcs (r_vcs r') /\
  Forall (fun p => exists s, is_text (snd p) s) (glob ++ own) /\
  New (r_vcs r') (r_vcsconf r') = Some w /\ ~ driver_for (r_vcs r') (glob ++ own) w.
Proof.
  exists ex_parse, ex_format, (fun _ => None), (ex_config (text "git") (text "git") (text "{""ref"":""x""}") (Some (text "{""Ref"":""y""}"))).
  eexists _, _, _, [(text "Ref", VStr (text "y"))], [(text "ref", VStr (text "x"))], (Command (Git (mkGit false (text "x")))).
  split; [exact ex_floats|]. split; [vm_compute; reflexivity|]. split; [reflexivity|]. split; [reflexivity|].
  split. { right. eexists. split; [reflexivity|]. apply text_checked; vm_compute; reflexivity. }
  split. { right. eexists. split; [reflexivity|]. apply text_checked; vm_compute; reflexivity. }
  split; [left; reflexivity|]. split. { repeat constructor; eexists; reflexivity. }
  split; [vm_compute; reflexivity|].
  intros [(_ & g & E & _ & S)|[([E|E] & _)|[([E|E] & _)|[(E & _)|(E & _)]]]]; try discriminate E.
  assert (g = mkGit false (text "x")) as -> by congruence. cbn [Ref] in S.
  destruct S as [(E' & _)|(l1 & k & v & l2 & E' & AC & I & U)]; [discriminate E'|]. unfold is_text in I. subst v.
  destruct l1 as [|p [|p' l1]]; cbn [app] in E'.
  - assert (l2 = [(text "Ref", VStr (text "y"))]) as -> by congruence. pose proof (Forall_inv U) as Q. cbn [fst snd] in Q.
    assert (X : VStr (text "y") = VNull); [|discriminate X]. apply Q. apply (same_any (text "Ref") (text "ref")); [names|names|reflexivity].
  - assert (X : VStr (text "x") = VStr (text "y")) by congruence. discriminate X.
  - destruct l1; discriminate E'.
Qed.
Print Assumptions C68_case_refuted.

(** {"ref":"x"} for git, {"ref":null} for the repository: the driver gets no ref, though null
    says nothing. *)
Theorem C68_null_refuted : exists parse_float format_float abs c c' r r' own glob w, floats_ok parse_float format_float /\
  finish_load (unmarshal_map parse_float) (marshal_map format_float true) abs c = Some (Some c') /\
  c_repos c = [(text "r", Some r)] /\ c_repos c' = [(text "r", Some r')] /\
  own_settings r own /\ global_settings c (r_vcs r') glob /\ known_vcs (r_vcs r') /\
  Forall (fun p => fst p = text "ref") (glob ++ own) /\
  New (r_vcs r') (r_vcsconf r') = Some w /\ ~ driver_for (r_vcs r') (glob ++ own) w.
Proof.
  exists ex_parse, ex_format, (fun _ => None), (ex_config (text "git") (text "git") (text "{""ref"":""x""}") (Some (text "{""ref"":null}"))).
  eexists _, _, _, [(text "ref", VNull)], [(text "ref", VStr (text "x"))], (Command (Git (mkGit false []))).
  split; [exact ex_floats|]. split; [vm_compute; reflexivity|]. split; [reflexivity|]. split; [reflexivity|].
  split. { right. eexists. split; [reflexivity|]. apply text_checked; vm_compute; reflexivity. }
  split. { right. eexists. split; [reflexivity|]. apply text_checked; vm_compute; reflexivity. }
  split; [left; reflexivity|]. split. { repeat constructor. }
  split; [vm_compute; reflexivity|].
  intros [(_ & g & E & _ & S)|[([E|E] & _)|[([E|E] & _)|[(E & _)|(E & _)]]]]; try discriminate E.
  assert (g = mkGit false []) as -> by congruence. cbn [Ref] in S.
  destruct S as [(_ & U)|(l1 & k & v & l2 & E' & AC & I & U)].
  - pose proof (Forall_inv U) as Q. cbn [fst snd] in Q.
    assert (X : VStr (text "x") = VNull); [|discriminate X]. apply Q. apply (same_any (text "ref") (text "ref")); [names|names|reflexivity].
  - unfold is_text in I. subst v. destruct l1 as [|p [|p' l1]]; cbn [app] in E'.
    + assert (X : VStr (text "x") = VStr []) by congruence. discriminate X.
    + assert (X : VNull = VStr []) by congruence. discriminate X.
    + destruct l1; discriminate E'.
Qed.
Print Assumptions C68_null_refuted.

(** The same driver serves "svn" and "subversion", but the global settings for "svn" do not
    reach a repository whose VCS is called "subversion". *)
Theorem C68_alias_refuted : exists parse_float format_float abs c c' r r' glob g, floats_ok parse_float format_float /\
  finish_load (unmarshal_map parse_float) (marshal_map format_float true) abs c = Some (Some c') /\
  c_repos c = [(text "r", Some r)] /\ c_repos c' = [(text "r", Some r')] /\ r_vcs r' = text "subversion" /\
  own_settings r [] /\ global_settings c (text "svn") glob /\ options_ok (text "svn") glob /\
  New (r_vcs r') (r_vcsconf r') = Some (Command (Svn g)) /\ ~ last_said is_text (text "username") [] glob (Username g).
Proof.
  exists ex_parse, ex_format, (fun _ => None), (ex_config (text "subversion") (text "svn") (text "{""username"":""x""}") None).
  eexists _, _, _, [(text "username", VStr (text "x"))], (mkSvn [] []).
  split; [exact ex_floats|]. split; [vm_compute; reflexivity|]. split; [reflexivity|]. split; [reflexivity|]. split; [reflexivity|].
  split; [left; auto|]. split. { right. eexists. split; [reflexivity|]. apply text_checked; vm_compute; reflexivity. }
  split. { split; [discriminate|]. split; [|discriminate]. intros _. split; constructor; try constructor.
    - reflexivity.
    - eexists; reflexivity.
    - apply (same_any (text "username") (text "password")) in H; [discriminate H|names|names].
    - apply (same_any (text "username") (text "password")) in H; [discriminate H|names|names]. }
  split; [vm_compute; reflexivity|]. cbn [Username].
  intros [(_ & U)|(l1 & k & v & l2 & E' & AC & I & U)].
  - pose proof (Forall_inv U) as Q. cbn [fst snd] in Q.
    assert (X : VStr (text "x") = VNull); [|discriminate X]. apply Q. apply (same_any (text "username") (text "username")); [names|names|reflexivity].
  - unfold is_text in I. subst v. destruct l1 as [|p l1]; cbn [app] in E'; [|destruct l1; discriminate E'].
    assert (X : VStr (text "x") = VStr []) by congruence. discriminate X.
Qed.
Print Assumptions C68_alias_refuted.

(** git with a global ref and a ref and a switch of the repository: the hypotheses of
    [C68_driver_partial] hold and the driver gets the repository's ref. *)
Example C68_example : let glob := [(text "ref", VStr (text "x")); (text "n", VNum (text "7"))] in
  let own := [(text "ref", VStr (text "y")); (text "detect-ref", VBool true)] in
  exists c c' r r', finish_load (unmarshal_map ex_parse) (marshal_map ex_format true) (fun _ => None) c = Some (Some c') /\
  c_repos c = [(text "r", Some r)] /\ c_repos c' = [(text "r", Some r')] /\ floats_ok ex_parse ex_format /\
  own_settings r own /\ global_settings c (r_vcs r') glob /\ known_vcs (r_vcs r') /\ options_ok (r_vcs r') (glob ++ own) /\
  New (r_vcs r') (r_vcsconf r') = Some (Command (Git (mkGit true (text "y")))).
Proof.
  cbv zeta. exists (ex_config [] (text "git") (text "{""ref"":""x"",""n"":7}") (Some (text "{""ref"":""y"",""detect-ref"":true}"))).
  eexists _, _, _. split; [vm_compute; reflexivity|]. split; [reflexivity|]. split; [reflexivity|]. split; [exact ex_floats|].
  split. { right. eexists. split; [reflexivity|]. apply text_checked; vm_compute; reflexivity. }
  split. { right. eexists. split; [reflexivity|]. apply text_checked; vm_compute; reflexivity. }
  split; [left; reflexivity|]. split.
  - split; [|split; [intros [E|E]; discriminate E|discriminate]]. intros _. split; apply Forall_forall; intros [k v] I AC;
      cbn [app In] in I; destruct I as [I|[I|[I|[I|[]]]]]; injection I as <- <-; cbn [fst snd] in *;
      first [split; [reflexivity|eexists; reflexivity]
            |apply (same_any _ (text "detect-ref")) in AC; [discriminate AC|names|names]
            |apply (same_any _ (text "ref")) in AC; [discriminate AC|names|names]].
  - vm_compute. reflexivity.
Qed.
