(** The configuration of the client and the requests it makes with it: cmds/hound/main.go:30-82,
    106-113 and client/client.go:31-34, 76-107, 120-124. Names of members are compared without
    regard to the case of ASCII letters; encoding/json also takes U+017F for an s, which is left
    out. net/http beyond Request and Header is not modelled. *)
From Verif Require Import Model.Base Model.GoStr Model.Config Model.Json Model.Wire Model.Request.
Local Open Scope N_scope.

(** client.go:31-34; a nil map is [None]. *)
Record cconfig := mkCC { cc_headers : option (list (str * str)); cc_host : str }.
Definition k_http_headers : str := [104; 116; 116; 112; 45; 104; 101; 97; 100; 101; 114; 115].  (* http-headers *)
Definition k_host : str := [104; 111; 115; 116].  (* host *)

Definition set_cconfig (k : str) (v : jv) (c : cconfig) : option cconfig :=
  if same_name k k_http_headers then
    match v with
    | VNull => Some (mkCC None (cc_host c))
    | VObj l =>
        m <- dec_map (fun v => dec_str v []) l (match cc_headers c with Some m => m | None => [] end) ;;
        Some (mkCC (Some m) (cc_host c))
    | _ => None
    end
  else if same_name k k_host then h <- dec_str v (cc_host c) ;; Some (mkCC (cc_headers c) h)
  else Some c.

(** A path: there is nothing, it cannot be read, or its content. *)
Inductive file := Missing | Unreadable | Content (s : str).
Inductive outcome := NotExist | Failed | Loaded (c : cconfig).

(** main.go:35-45. Decode returns an error for a text of another type, having read it all;
    what it has stored by then does not matter, as the caller gives up. *)
Definition loadConfigFrom (f : file) (c : cconfig) : outcome :=
  match f with
  | Missing => NotExist
  | Unreadable => Failed
  | Content s =>
      match decode_json s with
      | Some (VNull, _) => Loaded c
      | Some (VObj l, _) => match dec_fields set_cconfig l c with Some c => Loaded c | None => Failed end
      | _ => Failed
      end
  end.

(** os.Expand for names of letters, digits and underscores; ${name} and the special
    variables are left out, as main.go:30-33 has none. *)
Definition name_char (c : byte) : bool :=
  ((48 <=? c) && (c <=? 57)) || ((65 <=? c) && (c <=? 90)) || ((97 <=? c) && (c <=? 122)) || (c =? 95).
Fixpoint take_name (s : str) : str * str :=
  match s with
  | [] => ([], [])
  | c :: r => if name_char c then let '(a, b) := take_name r in (c :: a, b) else ([], s)
  end.
Fixpoint expand (fuel : nat) (env : str -> str) (s : str) : str :=
  match fuel, s with
  | S fuel, c :: r =>
      if c =? 36 then let '(name, rest) := take_name r in env name ++ expand fuel env rest
      else c :: expand fuel env r
  | _, _ => []
  end.
Definition Expand (s : str) (env : str -> str) : str := expand (length s) env s.

(** main.go:30-33 *)
Definition configPaths : list str :=
  [[47; 101; 116; 99; 47; 104; 111; 117; 110; 100; 46; 99; 111; 110; 102];  (* /etc/hound.conf *)
   [36; 72; 79; 77; 69; 47; 46; 104; 111; 117; 110; 100]].  (* $HOME/.hound *)
Definition k_HOME : str := [72; 79; 77; 69].  (* HOME *)
(** env[name] *)
Definition lookup (env : list (str * str)) (name : str) : str := match get env name with Some v => v | None => [] end.

(** main.go:59-69 *)
Fixpoint load_paths (fs : str -> file) (env : list (str * str)) (paths : list str) (c : cconfig) : option cconfig :=
  match paths with
  | [] => Some c
  | p :: rest =>
      match loadConfigFrom (fs (Expand p (lookup env))) c with
      | NotExist => load_paths fs env rest c
      | Failed => None
      | Loaded c => load_paths fs env rest c
      end
  end.
(** main.go:49-72. [home]: user.Current, [None] if it fails. *)
Definition loadConfig (fs : str -> file) (home : option str) (c : cconfig) : option cconfig :=
  match home with
  | None => None
  | Some h => load_paths fs [(k_HOME, h)] configPaths c
  end.
(** main.go:76-81 *)
Definition localhost : str := [108; 111; 99; 97; 108; 104; 111; 115; 116; 58; 54; 48; 56; 48].  (* localhost:6080 *)
Definition defaultFlagForHost (defaultHost : str) : str := match defaultHost with [] => localhost | _ => defaultHost end.
(** main.go:84, 106-113. [flag]: the value of --host, if it is given. [None]: log.Panic. *)
Definition client_config (fs : str -> file) (home : option str) (defaultHost : str) (flag : option str) : option cconfig :=
  loadConfig fs home (mkCC None (match flag with Some h => h | None => defaultFlagForHost defaultHost end)).

(** net/textproto.CanonicalMIMEHeaderKey: a token is written with capitals at the start of
    words, anything else is kept. *)
Definition token_char (c : byte) : bool :=
  ((48 <=? c) && (c <=? 57)) || ((65 <=? c) && (c <=? 90)) || ((97 <=? c) && (c <=? 122)) ||
  existsb (N.eqb c) [33; 35; 36; 37; 38; 39; 42; 43; 45; 46; 94; 95; 96; 124; 126].
Fixpoint canon (upper : bool) (s : str) : str :=
  match s with
  | [] => []
  | c :: r =>
      let c' := if upper && ((97 <=? c) && (c <=? 122)) then c - 32
                else if negb upper && ((65 <=? c) && (c <=? 90)) then c + 32 else c in
      c' :: canon (c' =? 45) r
  end.
Definition CanonicalHeaderKey (s : str) : str := if forallb token_char s then canon true s else s.

(** A request of net/http: its address, Host ([None]: the one of the address) and Header. *)
Record request := mkReq { rq_uri : str; rq_host : option str; rq_header : list (str * list str) }.
(** client.go:76-92. [headers]: the map in the order of [range]. *)
Definition doHttpGet (headers : list (str * str)) (uri : str) : request :=
  fold_left (fun q p =>
      if str_eqb (to_lower (fst p)) k_host then mkReq (rq_uri q) (Some (snd p)) (rq_header q)
      else mkReq (rq_uri q) (rq_host q) (put (rq_header q) (CanonicalHeaderKey (fst p)) [snd p]))
    headers (mkReq uri None []).
(** client.go:96-107 *)
Definition search_request (headers : list (str * str)) (host pattern repos files : str) (ctx : Z) (ignoreCase stats : bool) : request :=
  doHttpGet headers (search_url host pattern repos files ctx ignoreCase stats).
(** client.go:121 *)
Definition repos_path : str := [47; 97; 112; 105; 47; 118; 49; 47; 114; 101; 112; 111; 115].  (* /api/v1/repos *)
Definition repos_request (headers : list (str * str)) (host : str) : request :=
  doHttpGet headers (http_prefix ++ host ++ repos_path).
