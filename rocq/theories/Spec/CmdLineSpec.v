(** What a command line says. Of the model only the kinds of values are used. *)
From Coq Require Import String Ascii.
From Verif Require Import Model.Base Model.CmdLine Spec.ApiSpec Spec.Names.
Local Open Scope N_scope.

(** Numbers as in Go's source: with a prefix for the base, octal after a 0, and underscores
    between digits. *)
Definition in_base (b c d : N) : Prop := ((48 <= c <= 57 /\ d = c - 48) \/ (97 <= c <= 102 /\ d = c - 87) \/ (65 <= c <= 70 /\ d = c - 55)) /\ d < b.
Inductive grouped (b : N) : str -> list N -> Prop :=
| gr_nil : grouped b [] []
| gr_digit : forall c d r ds, in_base b c d -> grouped b r ds -> grouped b (c :: r) (d :: ds)
| gr_under : forall c d r ds, in_base b c d -> grouped b r ds -> grouped b (95 :: c :: r) (d :: ds).
Definition value_of (b : N) (ds : list N) : N := fold_left (fun n d => b * n + d) ds 0.
Definition prefixes : list (str * N) := [(text "b", 2); (text "B", 2); (text "o", 8); (text "O", 8); (text "x", 16); (text "X", 16)].
Inductive magnitude : str -> N -> Prop :=
| mag_dec : forall c d r ds, in_base 10 c d -> 0 < d -> grouped 10 r ds -> magnitude (c :: r) (value_of 10 (d :: ds))
| mag_oct : forall r ds, grouped 8 r ds -> magnitude (text "0" ++ r) (value_of 8 ds)
| mag_prefix : forall p b r ds, In (p, b) prefixes -> ds <> [] -> grouped b r ds -> magnitude (text "0" ++ p ++ r) (value_of b ds).
Definition int_text (s : str) (v : Z) : Prop :=
  int64_range v /\ exists body n, magnitude body n /\
    ((s = body \/ s = text "+" ++ body) /\ v = Z.of_N n \/ s = text "-" ++ body /\ v = (- Z.of_N n)%Z).
Definition bool_text (s : str) (b : bool) : Prop :=
  In s (if b then [text "1"; text "t"; text "T"; text "true"; text "True"; text "TRUE"]
        else [text "0"; text "f"; text "F"; text "false"; text "False"; text "FALSE"]).

(** A text as a value of the kind of another. *)
Inductive reads : value -> str -> value -> Prop :=
| reads_str : forall old s, reads (VStr old) s (VStr s)
| reads_int : forall old s v, int_text s v -> reads (VInt old) s (VInt v)
| reads_bool : forall old s b, bool_text s b -> reads (VBool old) s (VBool b).
(** The ways to give a flag a value. *)
Definition dashes (d : str) : Prop := d = text "-" \/ d = text "--".
Inductive given (old : value) (name : str) : str -> list str -> Prop :=
| given_eq : forall d s, dashes d -> given old name s [d ++ name ++ text "=" ++ s]
| given_next : forall d s, dashes d -> (forall b, old <> VBool b) -> given old name s [d ++ name; s]
| given_bool : forall d b, dashes d -> old = VBool b -> given old name (text "true") [d ++ name].
(** [line defs items args rest]: the arguments are the settings [items] of flags, then [rest]. *)
Inductive line (defs : flagset) : list (str * value) -> list str -> list str -> Prop :=
| line_end : forall rest, line defs [] rest rest
| line_item : forall name old s v a items args rest, In (name, old) defs -> given old name s a -> reads old s v -> line defs items args rest ->
    line defs ((name, v) :: items) (a ++ args) rest.
(** Where the flags end: at --, or at the first argument that does not begin with -. *)
Definition plain (a : str) : Prop := a = text "-" \/ forall r, a <> 45 :: r.
Definition others (tail rest : list str) : Prop := tail = text "--" :: rest \/ tail = rest /\ (rest = [] \/ exists a r, rest = a :: r /\ plain a).
(** The value of a flag: the last one given, or the default. *)
Definition setting (defs : flagset) (items : list (str * value)) (name : str) (v : value) : Prop :=
  (exists before after, items = before ++ (name, v) :: after /\ ~ In name (map fst after)) \/ (~ In name (map fst items) /\ In (name, v) defs).
Definition help (a : str) : Prop := exists d n s, dashes d /\ (n = text "help" \/ n = text "h") /\ (s = [] \/ exists t, s = text "=" ++ t) /\ a = d ++ n ++ s.
(** Names that flags can have. *)
Definition flag_name (n : str) : Prop := n <> [] /\ ~ In 61 n /\ forall r, n <> 45 :: r.
Definition well_defined (defs : flagset) : Prop := NoDup (map fst defs) /\ Forall flag_name (map fst defs) /\ ~ In (text "help") (map fst defs) /\ ~ In (text "h") (map fst defs).

(** The flags of hound with their defaults; [host] is the server it was built for. *)
Definition options (host : str) : flagset :=
  [(text "host", VStr host); (text "repos", VStr (text "*")); (text "files", VStr []); (text "context", VInt 2); (text "ignore-case", VBool false);
   (text "show-stats", VBool false); (text "like-grep", VBool false)].
(** [says host args a]: the command line asks for the search [a]. *)
Definition says (host : str) (args : list str) (a : asks) : Prop :=
  exists items tail, line (options host) items args tail /\ others tail [a_pattern a] /\
    let set := setting (options host) items in
    set (text "host") (VStr (a_host a)) /\ set (text "repos") (VStr (a_repos a)) /\ set (text "files") (VStr (a_files a)) /\ set (text "context") (VInt (a_context a)) /\
    set (text "ignore-case") (VBool (a_case a)) /\ set (text "show-stats") (VBool (a_stats a)) /\ set (text "like-grep") (VBool (a_grep a)).

(** The flags of houndd. *)
Definition server_options : flagset := [(text "conf", VStr (text "config.json")); (text "addr", VStr (text ":6080")); (text "dev", VBool false); (text "version", VBool false)].
Definition server_says (args : list str) (rest : list str) (conf addr : str) (dev version : bool) : Prop :=
  exists items tail, line server_options items args tail /\ others tail rest /\
    let set := setting server_options items in
    set (text "conf") (VStr conf) /\ set (text "addr") (VStr addr) /\ set (text "dev") (VBool dev) /\ set (text "version") (VBool version).
