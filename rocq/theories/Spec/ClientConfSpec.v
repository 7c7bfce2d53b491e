(** What the configuration files of the client say, and a request with headers. *)
From Verif Require Import Model.Base Model.Config Model.Json Model.ClientConf Spec.Names Spec.Utf8Spec Spec.JsonGrammar.
Local Open Scope N_scope.

(** A header: text, or null for an empty one. *)
Definition header_value (v : jv) (x : str) : Prop := v = VStr x \/ (v = VNull /\ x = []).
Definition header_object (v : jv) : Prop := exists o, v = VObj o /\ Forall (fun p => exists x, header_value (snd p) x) o.
(** The members have the types they should have. *)
Definition config_member (p : str * jv) : Prop :=
  (any_case (fst p) (text "host") -> snd p = VNull \/ exists h, snd p = VStr h) /\
  (any_case (fst p) (text "http-headers") -> snd p = VNull \/ header_object (snd p)).

(** The members of a configuration file, none if there is no file or it says null. *)
Definition file_members (quoted : str -> str -> Prop) (f : file) (l : list (str * jv)) : Prop :=
  match f with
  | Missing => l = []
  | Unreadable => False
  | Content s => exists w t rest v, s = w ++ t ++ rest /\ blank w /\ text_of quoted v t /\ (v = VObj l \/ (v = VNull /\ l = []))
  end.

(** The members that follow do not change the host. *)
Definition host_kept (l : list (str * jv)) : Prop := Forall (fun p => any_case (fst p) (text "host") -> snd p = VNull) l.
(** The host that is asked: the last one said, or the one to start with. *)
Definition host_said (start : str) (l : list (str * jv)) (h : str) : Prop :=
  (h = start /\ host_kept l) \/
  exists l1 k l2, l = l1 ++ (k, VStr h) :: l2 /\ any_case k (text "host") /\ host_kept l2.

(** The last value of a header in an object. *)
Definition last_value (o : list (str * jv)) (k x : str) : Prop :=
  exists o1 v o2, o = o1 ++ (k, v) :: o2 /\ header_value v x /\ ~ In k (map fst o2).
(** The members that follow do not change header [k]. *)
Definition header_kept (k : str) (l : list (str * jv)) : Prop :=
  Forall (fun p => any_case (fst p) (text "http-headers") -> exists o, snd p = VObj o /\ ~ In k (map fst o)) l.
Definition header_said (l : list (str * jv)) (k x : str) : Prop :=
  exists l1 n o l2, l = l1 ++ (n, VObj o) :: l2 /\ any_case n (text "http-headers") /\ last_value o k x /\ header_kept k l2.

(** The name of a header as it is sent: capitals at the start of words, if it is a token of
    RFC 7230, and as it is otherwise. *)
Definition upper_case (c : N) : Prop := 0x41 <= c <= 0x5A.
Definition lower_case (c : N) : Prop := 0x61 <= c <= 0x7A.
Definition token (s : str) : Prop :=
  Forall (fun c => upper_case c \/ lower_case c \/ 0x30 <= c <= 0x39 \/ In c (text "!#$%&'*+-.^_`|~")) s.
Definition capital (s : str) : Prop :=
  forall a c b, s = a ++ c :: b -> (a = [] \/ exists a', a = a' ++ text "-") -> ~ lower_case c.
Definition small (s : str) : Prop :=
  forall a c b, s = a ++ c :: b -> a <> [] -> ~ (exists a', a = a' ++ text "-") -> ~ upper_case c.
Definition sent_name (k n : str) : Prop :=
  (token k /\ any_case k n /\ capital n /\ small n) \/ (~ token k /\ n = k).

(** No two names are sent as the same, and only one is for the host. *)
Definition no_clash (headers : str -> str -> Prop) : Prop :=
  forall k x k' x', headers k x -> headers k' x' ->
    (exists n, sent_name k n /\ sent_name k' n) \/ (any_case k (text "host") /\ any_case k' (text "host")) -> k = k'.
(** A request that carries them all. *)
Definition carries (headers : str -> str -> Prop) (q : request) : Prop :=
  (forall n xs, get (rq_header q) n = Some xs <->
     exists k x, headers k x /\ ~ any_case k (text "host") /\ sent_name k n /\ xs = [x]) /\
  (forall x, rq_host q = Some x <-> exists k, headers k x /\ any_case k (text "host")).

(** The host to start with: the flag, or what is built in, or this. *)
Definition start_host (defaultHost : str) (flag : option str) (h : str) : Prop :=
  flag = Some h \/ (flag = None /\ ((defaultHost <> [] /\ h = defaultHost) \/ (defaultHost = [] /\ h = text "localhost:6080"))).
Definition file_bytes (f : file) : Prop := match f with Content s => Forall is_byte s | _ => True end.
(** What a configuration is according to the members [l]. *)
Definition headers_of (c : cconfig) : list (str * str) := match cc_headers c with Some m => m | None => [] end.
Definition describes (start : str) (l : list (str * jv)) (c : cconfig) : Prop :=
  host_said start l (cc_host c) /\ forall k x, get (headers_of c) k = Some x <-> header_said l k x.
