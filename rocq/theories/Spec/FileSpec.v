(** What a configuration file says: the members of JSON objects (Spec/JsonGrammar.v) with the
    texts of their values, and the settings they stand for. *)
From Verif Require Import Model.Base Model.Json Model.Config Spec.Names Spec.ApiSpec Spec.JsonGrammar.
Local Open Scope N_scope.

(** Settings of an object whose members are [l]. *)
Section Settings.
  Context {V : Type}.
  Variable value : V -> jv.
  (** Of a text, a switch, a number: the last one said; null says nothing. *)
  Definition unsaid (name : str) (l : list (str * V)) : Prop :=
    Forall (fun p => any_case (fst p) name -> value (snd p) = VNull) l.
  Definition scalar {A} (is : jv -> A -> Prop) (name : str) (zero : A) (l : list (str * V)) (x : A) : Prop :=
    (x = zero /\ unsaid name l) \/
    exists l1 k v l2, l = l1 ++ (k, v) :: l2 /\ any_case k name /\ is (value v) x /\ unsaid name l2.
  (** Of what may be missing: the last one; null takes it away. *)
  Definition unnamed (name : str) (l : list (str * V)) : Prop := Forall (fun p => ~ any_case (fst p) name) l.
  Definition optional {A} (is : V -> A -> Prop) (name : str) (l : list (str * V)) (x : option A) : Prop :=
    (x = None /\ unnamed name l) \/
    exists l1 k v l2, l = l1 ++ (k, v) :: l2 /\ any_case k name /\ unnamed name l2 /\
      ((value v = VNull /\ x = None) \/ (value v <> VNull /\ exists a, x = Some a /\ is v a)).
End Settings.
Definition is_text (v : jv) (x : str) : Prop := v = VStr x.
Definition is_switch (v : jv) (x : bool) : Prop := v = VBool x.
Definition is_number (v : jv) (x : Z) : Prop := exists lit, v = VNum lit /\ signed lit x /\ int64_range x.
(** A list of texts; null stands for an empty one. *)
Definition is_texts (v : jv) (x : list str) : Prop :=
  exists l, v = VArr l /\ Forall2 (fun v s => v = VStr s \/ (v = VNull /\ s = [])) l x.

(** A member with the text of its value. *)
Notation memb := (str * (jv * str))%type (only parsing).
Section Texts.
  Variable quoted : str -> str -> Prop.
  Inductive spelled : list memb -> str -> Prop :=
  | sp_last : forall k lit v s w w2 w3 w4, quoted k lit -> text_of quoted v s -> blank w -> blank w2 -> blank w3 -> blank w4 ->
      spelled [(k, (v, s))] (w ++ lit ++ w2 ++ text ":" ++ w3 ++ s ++ w4)
  | sp_more : forall k lit v s w w2 w3 w4 l t, quoted k lit -> text_of quoted v s -> blank w -> blank w2 -> blank w3 -> blank w4 ->
      spelled l t -> spelled ((k, (v, s)) :: l) (w ++ lit ++ w2 ++ text ":" ++ w3 ++ s ++ w4 ++ text "," ++ t).
  Definition object_text (l : list memb) (t : str) : Prop :=
    (l = [] /\ exists w, blank w /\ t = text "{" ++ w ++ text "}") \/ exists m, spelled l m /\ t = text "{" ++ m ++ text "}".
  (** The file; what follows the object does not matter. *)
  Definition file_says (file : str) (l : list memb) : Prop :=
    exists w t rest, file = w ++ t ++ rest /\ blank w /\ (object_text l t \/ (t = text "null" /\ l = [])).

  (** The members of all the objects called [name], up to null, which takes them away. *)
  Inductive gathered (name : str) : list memb -> option (list memb) -> Prop :=
  | ga_nil : gathered name [] None
  | ga_other : forall l g k x, gathered name l g -> ~ any_case k name -> gathered name (l ++ [(k, x)]) g
  | ga_null : forall l g k s, gathered name l g -> any_case k name -> gathered name (l ++ [(k, (VNull, s))]) None
  | ga_object : forall l g k o' s o, gathered name l g -> any_case k name -> object_text o s ->
      gathered name (l ++ [(k, (VObj o', s))]) (Some (match g with Some m => m | None => [] end ++ o)).
  (** An entry of a map: the last one of that name. *)
  Definition entry {A} (is : jv * str -> A -> Prop) (l : list memb) (n : str) (a : A) : Prop :=
    exists l1 x l2, l = l1 ++ (n, x) :: l2 /\ ~ In n (map fst l2) /\ is x a.
  Definition entries {A} (is : jv * str -> A -> Prop) (name : str) (l : list memb) (m : list (str * A)) : Prop :=
    exists g, gathered name l g /\
      let o := match g with Some o => o | None => [] end in
      (forall n, In n (map fst m) <-> In n (map fst o)) /\ NoDup (map fst m) /\
      (forall n a, In (n, a) m -> entry is o n a).

  (** config.md and the structures of config.go *)
  Definition is_secret (x : jv * str) (s : option bytes) : Prop :=
    (fst x = VNull /\ s = None) \/ (fst x <> VNull /\ s = Some (snd x)).
  Definition pattern_said (l : list memb) (x : option url_pattern) : Prop :=
    exists g, gathered (text "url-pattern") l g /\
      match g, x with
      | None, None => True
      | Some o, Some p => scalar fst is_text (text "base-url") [] o (up_base p) /\ scalar fst is_text (text "anchor") [] o (up_anchor p)
      | _, _ => False
      end.
  Definition repo_said (l : list memb) (r : repo) : Prop :=
    scalar fst is_text (text "url") [] l (r_url r) /\
    scalar fst is_text (text "display-name") [] l (r_display r) /\
    scalar fst is_number (text "ms-between-poll") 0%Z l (r_ms r) /\
    scalar fst is_text (text "vcs") [] l (r_vcs r) /\
    optional fst (fun x s => s = snd x) (text "vcs-config") l (r_vcsconf r) /\
    pattern_said l (r_pattern r) /\
    scalar fst is_switch (text "exclude-dot-files") false l (r_exdot r) /\
    optional fst (fun x => is_switch (fst x)) (text "enable-poll-updates") l (r_poll r) /\
    optional fst (fun x => is_switch (fst x)) (text "enable-push-updates") l (r_push r) /\
    optional fst (fun x => is_texts (fst x)) (text "auto-generated-files") l (r_auto r).
  Definition is_repo (x : jv * str) (r : option repo) : Prop :=
    (fst x = VNull /\ r = None) \/ exists o' o r', fst x = VObj o' /\ object_text o (snd x) /\ r = Some r' /\ repo_said o r'.
  Definition config_said (l : list memb) (c : config) : Prop :=
    scalar fst is_text (text "dbpath") [] l (c_dbpath c) /\
    scalar fst is_text (text "title") [] l (c_title c) /\
    entries is_repo (text "repos") l (c_repos c) /\
    scalar fst is_number (text "max-concurrent-indexers") 0%Z l (c_maxidx c) /\
    scalar fst is_text (text "health-check-uri") [] l (c_health c) /\
    entries is_secret (text "vcs-config") l (c_vcs c) /\
    scalar fst is_number (text "result-limit") 0%Z l (c_limit c).

  (** The values have the types they should have. *)
  Definition typed {A} (is : jv -> A -> Prop) (name : str) (p : memb) : Prop :=
    any_case (fst p) name -> fst (snd p) = VNull \/ exists a, is (fst (snd p)) a.
  Definition typed_object (ok : memb -> Prop) (x : jv * str) : Prop :=
    fst x = VNull \/ exists o' o, fst x = VObj o' /\ object_text o (snd x) /\ Forall ok o.
  Definition pattern_typed (p : memb) : Prop := typed is_text (text "base-url") p /\ typed is_text (text "anchor") p.
  Definition repo_typed (p : memb) : Prop :=
    typed is_text (text "url") p /\ typed is_text (text "display-name") p /\ typed is_number (text "ms-between-poll") p /\
    typed is_text (text "vcs") p /\ typed is_switch (text "exclude-dot-files") p /\
    typed is_switch (text "enable-poll-updates") p /\ typed is_switch (text "enable-push-updates") p /\
    typed is_texts (text "auto-generated-files") p /\
    (any_case (fst p) (text "url-pattern") -> typed_object pattern_typed (snd p)).
  Definition config_typed (p : memb) : Prop :=
    typed is_text (text "dbpath") p /\ typed is_text (text "title") p /\ typed is_number (text "max-concurrent-indexers") p /\
    typed is_text (text "health-check-uri") p /\ typed is_number (text "result-limit") p /\
    (any_case (fst p) (text "repos") -> typed_object (fun e => typed_object repo_typed (snd e)) (snd p)) /\
    (any_case (fst p) (text "vcs-config") -> typed_object (fun _ => True) (snd p)).
End Texts.

(** The last entry of that name in an object called [name] is null. *)
Definition null_entry (quoted : str -> str -> Prop) (name : str) (l : list memb) : Prop :=
  exists o n, gathered quoted name l (Some o) /\ exists l1 s l2, o = l1 ++ (n, (VNull, s)) :: l2 /\ ~ In n (map fst l2).
