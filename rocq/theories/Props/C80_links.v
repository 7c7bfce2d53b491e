(** C80: the links beside results. *)
From Verif Require Import Model.Base Model.PageLinks Spec.ApiSpec Spec.Names Spec.LinkSpec Proofs.LinkProofs.
From Coq Require Import Lia.
Local Open Scope N_scope.

(** Putting values into a pattern. [fillable] values have no dollar sign and no opening
    brace; a [proper] pattern has each name at most once. *)
Theorem C80_pattern_partial : forall values ps, proper ps -> Forall (fun kv => ~ In 125 (fst kv) /\ fillable (snd kv)) values ->
  ExpandVars (template ps) (map (fun kv => (fst kv, Some (snd kv))) values) = filled (value_of values) ps.
Proof. exact expand_ok. Qed.
Print Assumptions C80_pattern_partial.

(** A link to a line. [home] gives the address of the repository on the web from the one it
    is fetched from. *)
Theorem C80_line_partial : forall repo vs ps aps path f n rev, home (l_url repo) vs -> l_base repo = template ps -> proper ps ->
  l_anchor repo = template aps -> proper aps -> ~ In 36 (l_anchor repo) -> incl (names aps) [text "line"; text "filename"] ->
  Forall (fun kv => fillable (snd kv)) vs -> fillable path -> fillable rev -> file_name path f -> n <> 0 ->
  exists d, decimal d n /\ (forall r, d = 48 :: r -> r = []) /\
  UrlToRepo repo path (Some n) (Some rev) =
    filled (value_of (vs ++ [(text "path", path); (text "rev", rev);
      (text "anchor", filled (value_of [(text "line", d); (text "filename", f)]) aps)])) ps.
Proof. exact line_link. Qed.
Print Assumptions C80_line_partial.

(** A link to a file. *)
Theorem C80_file_partial : forall repo vs ps path rev, home (l_url repo) vs -> l_base repo = template ps -> proper ps ->
  Forall (fun kv => fillable (snd kv)) vs -> fillable path -> fillable rev ->
  UrlToRepo repo path None (Some rev) = filled (value_of (vs ++ [(text "path", path); (text "rev", rev); (text "anchor", [])])) ps.
Proof. exact file_link. Qed.
Print Assumptions C80_file_partial.

(** A link to a page of a wiki. *)
Theorem C80_wiki_partial : forall repo vs ps path line rev, wiki (l_url repo) vs -> l_base repo = template ps -> proper ps ->
  Forall (fun kv => fillable (snd kv)) vs -> fillable path -> fillable rev -> ~ ends (text ".md") path ->
  UrlToRepo repo (path ++ text ".md") line (Some rev) = filled (value_of (vs ++ [(text "path", path); (text "rev", rev); (text "anchor", [])])) ps /\
  UrlToRepo repo path line (Some rev) = filled (value_of (vs ++ [(text "path", path); (text "rev", rev); (text "anchor", [])])) ps.
Proof. exact wiki_link. Qed.
Print Assumptions C80_wiki_partial.

(** With the patterns used unless others are given. *)
Theorem C80_usual_partial : forall repo vs web path n rev, home (l_url repo) vs -> value_of vs (text "url") = Some web ->
  l_base repo = default_base -> l_anchor repo = default_anchor -> Forall (fun kv => fillable (snd kv)) vs -> fillable path -> fillable rev -> n <> 0 ->
  UrlToRepo repo path None (Some rev) = web ++ text "/blob/" ++ rev ++ text "/" ++ path /\
  exists d, decimal d n /\ (forall r, d = 48 :: r -> r = []) /\
  UrlToRepo repo path (Some n) (Some rev) = web ++ text "/blob/" ++ rev ++ text "/" ++ path ++ text "#L" ++ d.
Proof.
  intros repo vs web path n rev H0 EW EB EA FV FP FR N0. split.
  - exact (usual_file repo vs web path rev H0 EW EB FV FP FR).
  - exact (usual_line repo vs web path n rev H0 EW EB EA FV FP FR N0).
Qed.
Print Assumptions C80_usual_partial.

(** Two places in a repository have the same link only if they are the same. *)
Theorem C80_distinct_partial : forall repo vs rev p1 p2 n1 n2, home (l_url repo) vs ->
  l_base repo = default_base -> l_anchor repo = default_anchor -> Forall (fun kv => fillable (snd kv)) vs -> fillable rev ->
  fillable p1 -> fillable p2 -> ~ In 35 p1 -> ~ In 35 p2 -> n1 <> Some 0 -> n2 <> Some 0 ->
  UrlToRepo repo p1 n1 (Some rev) = UrlToRepo repo p2 n2 (Some rev) -> p1 = p2 /\ n1 = n2.
Proof. exact usual_distinct. Qed.
Print Assumptions C80_distinct_partial.

Definition at_url (u : str) : link_conf := mkLink u default_base default_anchor.
Definition plain : link_conf := at_url (text "https://h/o/n.git").
(** A name used twice is filled in once. *)
Theorem C80_repeat_refuted : exists ps v, template ps = text "{rev}/{rev}" /\ ExpandVars (template ps) [(text "rev", Some v)] <> filled (value_of [(text "rev", v)]) ps.
Proof.
  exists [Var (text "rev"); Plain (text "/"); Var (text "rev")], (text "r"). split; [reflexivity|]. vm_compute. discriminate.
Qed.
Print Assumptions C80_repeat_refuted.
(** A dollar sign in the name of a file: the link is to another. A brace: to none. *)
Theorem C80_dollar_refuted : exists p q, p <> q /\ UrlToRepo plain p None (Some (text "r")) = UrlToRepo plain q None (Some (text "r")).
Proof. exists (text "a$$b"), (text "a$b"). split; [discriminate|vm_compute; reflexivity]. Qed.
Print Assumptions C80_dollar_refuted.
Theorem C80_brace_refuted : exists p, UrlToRepo plain p (Some 3) (Some (text "r")) <> text "https://h/o/n/blob/r/" ++ p ++ text "#L3".
Proof. exists (text "a{anchor}"). vm_compute. discriminate. Qed.
Print Assumptions C80_brace_refuted.
(** Names are not escaped: the link to a file is the link to a line of another. *)
Theorem C80_hash_refuted : exists p q, p <> q /\ UrlToRepo plain p None (Some (text "r")) = UrlToRepo plain q (Some 3) (Some (text "r")).
Proof. exists (text "a#L3"), (text "a"). split; [discriminate|vm_compute; reflexivity]. Qed.
Print Assumptions C80_hash_refuted.
(** The first .wiki is taken for the last. *)
Theorem C80_wiki_refuted : exists u, UrlToRoot (at_url (u ++ text ".wiki.git")) <> u ++ text "/wiki" /\ UrlToRoot (at_url (u ++ text ".wiki.git")) = text "https://a/wikis.org/o/n.wiki".
Proof. exists (text "https://a.wikis.org/o/n"). split; [vm_compute; discriminate|vm_compute; reflexivity]. Qed.
Print Assumptions C80_wiki_refuted.
(** git@host:1/o/n is the repository 1/o/n, not o/n at port 1. *)
Theorem C80_number_refuted : exists host owner name, UrlToRoot (at_url (text "git@" ++ host ++ text ":" ++ owner ++ text "/" ++ name)) <> text "//" ++ host ++ text "/" ++ owner ++ text "/" ++ name.
Proof. exists (text "h"), (text "1/o"), (text "n"). vm_compute. discriminate. Qed.
Print Assumptions C80_number_refuted.
(** The links on the page of excluded files are to the revision undefined, all of them. *)
Theorem C80_excluded_refuted : forall repo vs web path, home (l_url repo) vs -> value_of vs (text "url") = Some web ->
  l_base repo = default_base -> Forall (fun kv => fillable (snd kv)) vs -> fillable path ->
  excluded_link repo path = web ++ text "/blob/undefined/" ++ path.
Proof. exact excluded_usual. Qed.
Print Assumptions C80_excluded_refuted.

Lemma no_at : forall u, ~ In 64 u -> no_login u.
Proof. intros u NI a b. split; intros ->; apply NI; apply in_or_app; right; cbn; tauto. Qed.
Example C80_example :
  UrlToRepo plain (text "d/f.go") (Some 12) (Some (text "main")) = text "https://h/o/n/blob/main/d/f.go#L12" /\
  UrlToRoot (at_url (text "git@github.com:user/Foo.git")) = text "//github.com/user/Foo" /\
  UrlToRoot (at_url (text "ssh://git@host:7999/A/b.git")) = text "//host:7999/A/b" /\
  home (text "https://h/o/n.git") [(text "url", text "https://h/o/n"); (text "hostname", []); (text "port", []); (text "project", []); (text "repo", [])] /\
  home (text "ssh://git@host:7999/A/b") [(text "url", text "//host:7999/A/b"); (text "hostname", text "//host"); (text "port", text ":7999"); (text "project", text "A"); (text "repo", text "b")] /\
  wiki (text "https://h/o/n.wiki.git") [(text "url", text "https://h/o/n/wiki"); (text "hostname", []); (text "port", []); (text "project", []); (text "repo", [])].
Proof.
  split; [vm_compute; reflexivity|]. split; [vm_compute; reflexivity|]. split; [vm_compute; reflexivity|]. split; [|split].
  - apply (home_git (text "https://h/o/n")); [apply site_plain, no_at; cbn; intuition discriminate|].
    rewrite <- ends_with_ok. vm_compute. discriminate.
  - apply home_bare; [|rewrite <- ends_with_ok; vm_compute; discriminate|rewrite <- ends_with_ok; vm_compute; discriminate].
    apply (site_login (text "ssh://git@host:7999/A/b") (text "host") (text ":7999") (text "A") (text "b")).
    apply (login (text "ssh://") (text "git") (text "host") (text ":7999") 47 (text "A") (text "b")); [left; reflexivity|cbn; intuition discriminate..|].
    right. right. split; [reflexivity|]. exists (text "7999"). split; [reflexivity|]. split; [discriminate|]. repeat constructor; cbn; lia.
  - apply (wiki_git (text "https://h/o/n")); [apply site_plain, no_at; cbn; intuition discriminate|].
    intros a b E. apply (f_equal (@List.length N)) in E as EL. rewrite !app_length in EL. cbn in EL, E.
    do 13 (destruct a as [|? a]; [cbn in E; discriminate || (exfalso; congruence)|cbn in E; injection E as <- E]).
    destruct a; [reflexivity|]. exfalso. cbn [List.length] in EL. lia.
Qed.
