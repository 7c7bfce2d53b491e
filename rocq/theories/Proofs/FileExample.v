(** A configuration file. *)
From Verif Require Import Model.Base Model.Json Model.Config Model.ConfigFile
  Spec.Names Spec.Utf8Spec Spec.JsonValueSpec Spec.JsonGrammar Spec.FileSpec
  Proofs.GrammarProofs Proofs.FileProofs.
Local Open Scope N_scope.

Lemma plain_literal : forall s, forallb (fun c => (32 <=? c) && (c <? 128) && negb (c =? 34) && negb (c =? 92)) s = true ->
  json_string s (text """" ++ s ++ text """").
Proof.
  intros s P. exists s. split; [reflexivity|]. induction s as [|c s IH]; [constructor|]. cbn [forallb] in P.
  rewrite !andb_true_iff, !negb_true_iff in P. destruct P as ((((A & B) & C) & D) & P). apply N.leb_le in A. apply N.ltb_lt in B. apply N.eqb_neq in C, D.
  apply (jcs_cons [c] c [c] s s); [|constructor; exact B|apply IH; exact P]. apply jc_plain; [constructor; exact B|exact A|exact C|exact D].
Qed.

Definition ex_settings : str := text "{ ""ref"": ""main"" }".
Definition ex_repo : str := text "{""url"":""u"", ""vcs-config"" : " ++ ex_settings ++ text "}".
Definition ex_repos : str := text "{""a"":" ++ ex_repo ++ text "}".
Definition ex_file : str := text "{""Title"":""T"", ""repos"": " ++ ex_repos ++ text ", ""result-limit"":07}".
Definition ex_file' : str := text "{""Title"":""T"", ""repos"": " ++ ex_repos ++ text ", ""result-limit"":7} trailing".
Definition ex_repo_members : list memb :=
  [(text "url", (VStr (text "u"), text """u""")); (text "vcs-config", (VObj [(text "ref", VStr (text "main"))], ex_settings))].
Definition ex_members : list memb :=
  [(text "Title", (VStr (text "T"), text """T"""));
   (text "repos", (VObj [(text "a", VObj [(text "url", VStr (text "u")); (text "vcs-config", VObj [(text "ref", VStr (text "main"))])])], ex_repos));
   (text "result-limit", (VNum (text "7"), text "7"))].

Lemma ex_says : file_says json_string ex_file' ex_members.
Proof.
  assert (B0 : blank []) by constructor. assert (B1 : blank (text " ")) by (constructor; [left; reflexivity|constructor]).
  exists [], (text "{""Title"":""T"", ""repos"": " ++ ex_repos ++ text ", ""result-limit"":7}"), (text " trailing").
  split; [reflexivity|]. split; [exact B0|]. left. right.
  exists (text """Title"":""T"", ""repos"": " ++ ex_repos ++ text ", ""result-limit"":7"). split; [|reflexivity].
  apply (sp_more _ (text "Title") (text """Title""") _ (text """T""") [] [] [] [] _ (text " ""repos"": " ++ ex_repos ++ text ", ""result-limit"":7"));
    try assumption; [apply (plain_literal (text "Title")); reflexivity|apply jt_str, (plain_literal (text "T")); reflexivity|].
  apply (sp_more _ (text "repos") (text """repos""") _ ex_repos (text " ") [] (text " ") [] _ (text " ""result-limit"":7"));
    try assumption; [apply (plain_literal (text "repos")); reflexivity| |].
  - apply (jt_obj _ (text """a"":" ++ ex_repo)). apply (jm_last _ (text """a""") _ ex_repo [] [] [] []); try assumption; [apply (plain_literal (text "a")); reflexivity|].
    apply (jt_obj _ (text """url"":""u"", ""vcs-config"" : " ++ ex_settings)).
    apply (jm_more _ (text """url""") _ (text """u""") [] [] [] [] _ (text " ""vcs-config"" : " ++ ex_settings)); try assumption;
      [apply (plain_literal (text "url")); reflexivity|apply jt_str, (plain_literal (text "u")); reflexivity|].
    apply (jm_last _ (text """vcs-config""") _ ex_settings (text " ") (text " ") (text " ") []); try assumption; [apply (plain_literal (text "vcs-config")); reflexivity|].
    apply (jt_obj _ (text " ""ref"": ""main"" ")). apply (jm_last _ (text """ref""") _ (text """main""") (text " ") [] (text " ") (text " ")); try assumption;
      [apply (plain_literal (text "ref")); reflexivity|apply jt_str, (plain_literal (text "main")); reflexivity].
  - apply (sp_last _ (text "result-limit") (text """result-limit""") _ (text "7") (text " ") [] [] []); try assumption; [apply (plain_literal (text "result-limit")); reflexivity|].
    apply jt_num. exists [], (text "7"), [], []. split; [reflexivity|]. split; [left; reflexivity|]. split; [|split; left; reflexivity].
    split; [discriminate|]. split; [repeat constructor; discriminate|discriminate].
Qed.
Definition ex_read : config :=
  mkConfig [] (text "T") [(text "a", Some (mkRepo (text "u") [] 0 [] (Some ex_settings) None false None None None))] 0 [] [] 7.
Lemma ex_decoded : decode_file ex_file' = Some ex_read.
Proof. vm_compute. reflexivity. Qed.
Lemma ex_typed : Forall (config_typed json_string) ex_members.
Proof. exact (proj1 (file_refused json_string string_read _ _ _ ex_says ex_decoded)). Qed.
(** A number does not start with a zero. *)
Lemma ex_refused : decode_file ex_file = None.
Proof. vm_compute. reflexivity. Qed.
