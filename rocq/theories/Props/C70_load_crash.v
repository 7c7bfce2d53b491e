(** C70: loading any configuration file ends with a configuration or an error. That is false of
    files that give null for a repository or for the settings of a VCS: the program crashes
    ([_refuted]). Of all other files it holds ([_partial]). *)
From Verif Require Import Model.Base Model.Json Model.Config Model.ConfigFile
  Spec.Names Spec.JsonGrammar Spec.FileSpec Proofs.FileProofs Proofs.LoadProofs Proofs.FileExample.
Local Open Scope N_scope.

(** A crash has no other cause. *)
Theorem C70_load_partial : forall parse_float format_float short abs file, Forall is_byte file ->
  LoadFromFile parse_float format_float short abs file = None ->
  exists l, file_says lax_string file l /\ Forall (config_typed lax_string) l /\
    (null_entry lax_string (text "repos") l \/ null_entry lax_string (text "vcs-config") l).
Proof. exact load_crash. Qed.
Print Assumptions C70_load_partial.

(** {"dbpath":"/d","repos":{"a":null}} *)
Theorem C70_null_repo_refuted : exists file, Forall is_byte file /\
  forall parse_float format_float short abs, LoadFromFile parse_float format_float short abs file = None.
Proof.
  exists (text "{""dbpath"":""/d"",""repos"":{""a"":null}}"). split.
  - apply Forall_forall. intros c I. assert (A : forallb (fun c => c <? 256) (text "{""dbpath"":""/d"",""repos"":{""a"":null}}") = true) by reflexivity.
    rewrite forallb_forall in A. apply N.ltb_lt, A, I.
  - intros. unfold LoadFromFile.
    replace (decode_file _) with (Some (mkConfig (text "/d") [] [(text "a", None)] 0 [] [] 0)) by (vm_compute; reflexivity). reflexivity.
Qed.
Print Assumptions C70_null_repo_refuted.
(** {"dbpath":"/d","vcs-config":{"git":null}} *)
Theorem C70_null_settings_refuted : exists file, Forall is_byte file /\
  forall parse_float format_float short abs, LoadFromFile parse_float format_float short abs file = None.
Proof.
  exists (text "{""dbpath"":""/d"",""vcs-config"":{""git"":null}}"). split.
  - apply Forall_forall. intros c I. assert (A : forallb (fun c => c <? 256) (text "{""dbpath"":""/d"",""vcs-config"":{""git"":null}}") = true) by reflexivity.
    rewrite forallb_forall in A. apply N.ltb_lt, A, I.
  - intros. unfold LoadFromFile.
    replace (decode_file _) with (Some (mkConfig (text "/d") [] [] 0 [] [(text "git", None)] 0)) by (vm_compute; reflexivity). reflexivity.
Qed.
Print Assumptions C70_null_settings_refuted.

(** The file of C69_example does not crash, whatever the parameters. *)
Example C70_example : forall parse_float format_float short abs, LoadFromFile parse_float format_float short abs ex_file' <> None.
Proof. intros. unfold LoadFromFile. rewrite ex_decoded. unfold finish_load. cbn [c_dbpath ex_read is_abs]. destruct (abs []); discriminate. Qed.
