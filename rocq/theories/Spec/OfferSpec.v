(** What clients are told about the repositories. *)
From Verif Require Import Model.Base Model.Json Model.Config Spec.Names Spec.ApiSpec Spec.Utf8Spec Spec.JsonSpec.
Local Open Scope N_scope.

(** Values as they are read. *)
Definition text_read (s : str) (v : jv) : Prop := exists s', replaced s s' /\ v = VStr s'.
Definition int_read (z : Z) (v : jv) : Prop := exists lit, signed lit z /\ v = VNum lit.
Definition opt_read {A} (rd : A -> jv -> Prop) (x : option A) (v : jv) : Prop :=
  match x with None => v = VNull | Some a => rd a v end.
Definition bool_read (b : bool) (v : jv) : Prop := v = VBool b.
Definition list_read {A} (rd : A -> jv -> Prop) (l : list A) (v : jv) : Prop :=
  exists vs, v = VArr vs /\ Forall2 rd l vs.
Definition pattern_read (p : url_pattern) (v : jv) : Prop :=
  exists a b, v = VObj [(text "base-url", a); (text "anchor", b)] /\ text_read (up_base p) a /\ text_read (up_anchor p) b.

(** A repository: everything that is configured, except that the contents of the vcs-config
    are not shown. *)
Definition repo_read (r : repo) (v : jv) : Prop :=
  exists v1 v2 v3 v4 v5 v6 v7 v8 v9 v10,
    v = VObj [(text "url", v1); (text "display-name", v2); (text "ms-between-poll", v3); (text "vcs", v4);
              (text "vcs-config", v5); (text "url-pattern", v6); (text "exclude-dot-files", v7);
              (text "enable-poll-updates", v8); (text "enable-push-updates", v9); (text "auto-generated-files", v10)] /\
    text_read (r_url r) v1 /\ text_read (r_display r) v2 /\ int_read (r_ms r) v3 /\ text_read (r_vcs r) v4 /\
    opt_read (fun _ c => c = VObj []) (r_vcsconf r) v5 /\ opt_read pattern_read (r_pattern r) v6 /\
    bool_read (r_exdot r) v7 /\ opt_read bool_read (r_poll r) v8 /\ opt_read bool_read (r_push r) v9 /\
    opt_read (list_read text_read) (r_auto r) v10.

(** The texts of a repository are byte strings. *)
Definition repo_bytes (r : repo) : Prop :=
  Forall is_byte (r_url r) /\ Forall is_byte (r_display r) /\ Forall is_byte (r_vcs r) /\
  (forall p, r_pattern r = Some p -> Forall is_byte (up_base p) /\ Forall is_byte (up_anchor p)) /\
  (forall l, r_auto r = Some l -> Forall (Forall is_byte) l).

(** [idx] holds a searcher, made for the configured repository, for each repository that is
    not in [errs] (C29). *)
Definition searchers_of (repos : list (str * option repo)) (idx : list (str * repo)) (errs : list str) : Prop :=
  NoDup (map fst idx ++ errs) /\ (forall name, In name (map fst repos) <-> In name (map fst idx ++ errs)) /\
  forall name r, In (name, r) idx -> In (name, Some r) repos.

(** Not one of the characters & < > *)
Definition plain (c : N) : Prop := c <> 38 /\ c <> 60 /\ c <> 62.
