(** config/config.go. encoding/json is standard library: decoding the file into the Go
    structures is the input of the model (a [config] with zero values for what the file
    does not mention, see [decode_config]), and decoding and encoding a
    map[string]interface{} are the parameters [unmarshal] and [marshal]. A Go map is an
    association list; its order stands for the order in which [range] visits it, so
    statements about every list are statements about every order. *)
From Verif Require Import Model.Base.
Local Open Scope Z_scope.

(** What interface{} holds after decoding JSON. A number is a float64, here its 64 bits. *)
Inductive json :=
| JNull | JBool (b : bool) | JNum (bits : N) | JStr (s : str)
| JArr (l : list json) | JObj (l : list (str * json)).

(** config.go:11-21: strings are written as their bytes. *)
Definition defaultMsBetweenPoll : Z := 30000.
Definition defaultMaxConcurrentIndexers : Z := 2.
Definition defaultPushEnabled := false.
Definition defaultPollEnabled := true.
Definition defaultTitle : str := [72; 111; 117; 110; 100]%N. (* Hound *)
Definition defaultVcs : str := [103; 105; 116]%N. (* git *)
Definition defaultBaseUrl : str := (* {url}/blob/{rev}/{path}{anchor} *)
  [123; 117; 114; 108; 125; 47; 98; 108; 111; 98; 47; 123; 114; 101; 118; 125; 47;
   123; 112; 97; 116; 104; 125; 123; 97; 110; 99; 104; 111; 114; 125]%N.
Definition defaultAnchor : str := [35; 76; 123; 108; 105; 110; 101; 125]%N. (* #L{line} *)
Definition defaultHealthCheckURI : str := [47; 104; 101; 97; 108; 116; 104; 122]%N. (* /healthz *)
Definition defaultResultLimit : Z := 5000.

(** config.go:23-26 *)
Record url_pattern := mkUP { up_base : str; up_anchor : str }.

(** config.go:28-39. [r_vcsconf]: *SecretMessage. *)
Record repo := mkRepo {
  r_url : str; r_display : str; r_ms : Z; r_vcs : str; r_vcsconf : option bytes;
  r_pattern : option url_pattern; r_exdot : bool; r_poll : option bool; r_push : option bool;
  r_auto : option (list str)
}.

(** config.go:60-68. A *Repo or *SecretMessage in a map is nil if the file says null. *)
Record config := mkConfig {
  c_dbpath : str; c_title : str; c_repos : list (str * option repo); c_maxidx : Z;
  c_health : str; c_vcs : list (str * option bytes); c_limit : Z
}.

(** m[k] *)
Fixpoint get {A} (m : list (str * A)) (k : str) : option A :=
  match m with
  | [] => None
  | (k', v) :: r => if str_eqb k k' then Some v else get r k
  end.
(** m[k] = v *)
Fixpoint put {A} (m : list (str * A)) (k : str) (v : A) : list (str * A) :=
  match m with
  | [] => [(k, v)]
  | (k', v') :: r => if str_eqb k k' then (k', v) :: r else (k', v') :: put r k v
  end.

(** config.go:43-58 *)
Definition optionToBool (val : option bool) (def : bool) : bool :=
  match val with None => def | Some b => b end.
Definition PollUpdatesEnabled (r : repo) : bool := optionToBool (r_poll r) defaultPollEnabled.
Definition PushUpdatesEnabled (r : repo) : bool := optionToBool (r_push r) defaultPushEnabled.

(** config.go:91-96 *)
Definition VcsConfig (r : repo) : bytes := match r_vcsconf r with None => [] | Some b => b end.

(** if s == "" { s = def } *)
Definition or_default (s def : str) : str := match s with [] => def | _ => s end.
Definition or_default_int (n def : Z) : Z := if n =? 0 then def else n.

(** config.go:99-122; a nil *Repo panics. *)
Definition init_repo (r : repo) : repo :=
  mkRepo (r_url r) (r_display r) (or_default_int (r_ms r) defaultMsBetweenPoll)
    (or_default (r_vcs r) defaultVcs) (r_vcsconf r)
    (Some match r_pattern r with
          | None => mkUP defaultBaseUrl defaultAnchor
          | Some p => mkUP (or_default (up_base p) defaultBaseUrl) (or_default (up_anchor p) defaultAnchor)
          end)
    (r_exdot r) (r_poll r) (r_push r) (r_auto r).

Definition with_vcsconf (r : repo) (b : bytes) : repo :=
  mkRepo (r_url r) (r_display r) (r_ms r) (r_vcs r) (Some b) (r_pattern r) (r_exdot r)
    (r_poll r) (r_push r) (r_auto r).
Definition with_repos (c : config) (rs : list (str * option repo)) : config :=
  mkConfig (c_dbpath c) (c_title c) rs (c_maxidx c) (c_health c) (c_vcs c) (c_limit c).

(** json.Marshal with the fields of a struct in order; [field] writes "name":value. *)
Definition joined (parts : list bytes) : bytes :=
  match parts with
  | [] => []
  | p :: r => p ++ concat (map (fun x => 44%N :: x) r)
  end.
Definition lit_null : bytes := [110; 117; 108; 108]%N.
Definition lit_true : bytes := [116; 114; 117; 101]%N.
Definition lit_false : bytes := [102; 97; 108; 115; 101]%N.
Definition braces (b : bytes) : bytes := (123 :: b ++ [125])%N.
Definition brackets (b : bytes) : bytes := (91 :: b ++ [93])%N.

Section Json.
  (** json.Unmarshal into a map[string]interface{}: [None] an error, [Some None] the nil
      map (from null). json.Marshal of a map (it cannot fail on decoded values). *)
  Variable unmarshal : bytes -> option (option (list (str * json))).
  Variable marshal : option (list (str * json)) -> bytes.
  (** A JSON string and a JSON number. *)
  Variable quote : str -> bytes.
  Variable number : Z -> bytes.
  (** filepath.Abs(filepath.Join(filepath.Dir(filename), p)) *)
  Variable abs : str -> option str.

  (** config.go:148-156. [None]: a nil *SecretMessage is dereferenced. [Some None]: an error.
      Later entries of a Go map have different keys, so consing is m[vcs] = configVals. *)
  Fixpoint global_vals (l : list (str * option bytes))
    : option (option (list (str * option (list (str * json))))) :=
    match l with
    | [] => Some (Some [])
    | (vcs, b) :: r =>
        b <- b ;;
        match unmarshal b with
        | None => Some None
        | Some vals =>
            m <- global_vals r ;;
            Some match m with None => None | Some m => Some ((vcs, vals) :: m) end
        end
    end.

  (** config.go:173-177; [None]: assignment to an entry of a nil map. *)
  Fixpoint fill_missing (vals : option (list (str * json))) (g : list (str * json))
    : option (option (list (str * json))) :=
    match g with
    | [] => Some vals
    | (name, v) :: r =>
        match vals with
        | None => None
        | Some m =>
            match get m name with
            | Some _ => fill_missing vals r
            | None => fill_missing (Some (put m name v)) r
            end
        end
    end.

  (** config.go:158-186: the body of the loop over the repositories. *)
  Definition merge_repo (globals : list (str * option (list (str * json)))) (r : repo)
    : option (option repo) :=
    match get globals (r_vcs r) with
    | None => Some (Some r)
    | Some g =>
        match (match VcsConfig r with [] => Some (Some []) | b => unmarshal b end) with
        | None => Some None
        | Some vals =>
            vals' <- fill_missing vals (match g with None => [] | Some g => g end) ;;
            Some (Some (with_vcsconf r (marshal vals')))
        end
    end.

  (** A loop over the repositories that may stop with an error; a nil *Repo panics. *)
  Fixpoint each_repo (f : repo -> option (option repo)) (l : list (str * option repo))
    : option (option (list (str * option repo))) :=
    match l with
    | [] => Some (Some [])
    | (name, r) :: rest =>
        r <- r ;;
        x <- f r ;;
        match x with
        | None => Some None
        | Some r' =>
            m <- each_repo f rest ;;
            Some match m with None => None | Some m => Some ((name, Some r') :: m) end
        end
    end.

  (** config.go:142-189 *)
  Definition mergeVCSConfigs (c : config) : option (option config) :=
    match c_vcs c with
    | [] => Some (Some c)
    | l =>
        g <- global_vals l ;;
        match g with
        | None => Some None
        | Some g =>
            rs <- each_repo (merge_repo g) (c_repos c) ;;
            Some match rs with None => None | Some rs => Some (with_repos c rs) end
        end
    end.

  (** config.go:126-140 *)
  Definition initConfig (c : config) : option (option config) :=
    mergeVCSConfigs
      (mkConfig (c_dbpath c) (c_title c) (c_repos c) (or_default_int (c_maxidx c) defaultMaxConcurrentIndexers)
         (or_default (c_health c) defaultHealthCheckURI) (c_vcs c)
         (or_default_int (c_limit c) defaultResultLimit)).

  (** filepath.IsAbs on Unix *)
  Definition is_abs (p : str) : bool := match p with c :: _ => N.eqb c 47 | [] => false end.

  (** config.go:202-219: LoadFromFile after decoding. *)
  Definition finish_load (c : config) : option (option config) :=
    let title := or_default (c_title c) defaultTitle in
    match (if is_abs (c_dbpath c) then Some (c_dbpath c) else abs (c_dbpath c)) with
    | None => Some None
    | Some db =>
        rs <- each_repo (fun r => Some (Some (init_repo r))) (c_repos c) ;;
        match rs with
        | None => Some None
        | Some rs =>
            initConfig (mkConfig db title rs (c_maxidx c) (c_health c) (c_vcs c) (c_limit c))
        end
    end.

  (** encoding/json on the structures above. SecretMessage.MarshalJSON (76-78) is called
      for a pointer that is not nil. *)
  Definition secret_MarshalJSON (b : bytes) : bytes := braces [].
  Definition marshal_bool (b : bool) : bytes := if b then lit_true else lit_false.
  Definition marshal_opt {A} (f : A -> bytes) (x : option A) : bytes :=
    match x with None => lit_null | Some a => f a end.
  Definition field (name : str) (v : bytes) : bytes := quote name ++ 58%N :: v.
  Definition marshal_pattern (p : url_pattern) : bytes :=
    braces (joined [field [98; 97; 115; 101; 45; 117; 114; 108]%N (quote (up_base p));
                    field [97; 110; 99; 104; 111; 114]%N (quote (up_anchor p))]).
  Definition marshal_repo (r : repo) : bytes :=
    braces (joined
      [field [117; 114; 108]%N (quote (r_url r));
       field [100; 105; 115; 112; 108; 97; 121; 45; 110; 97; 109; 101]%N (quote (r_display r));
       field [109; 115; 45; 98; 101; 116; 119; 101; 101; 110; 45; 112; 111; 108; 108]%N (number (r_ms r));
       field [118; 99; 115]%N (quote (r_vcs r));
       field [118; 99; 115; 45; 99; 111; 110; 102; 105; 103]%N (marshal_opt secret_MarshalJSON (r_vcsconf r));
       field [117; 114; 108; 45; 112; 97; 116; 116; 101; 114; 110]%N (marshal_opt marshal_pattern (r_pattern r));
       field [101; 120; 99; 108; 117; 100; 101; 45; 100; 111; 116; 45; 102; 105; 108; 101; 115]%N
         (marshal_bool (r_exdot r));
       field [101; 110; 97; 98; 108; 101; 45; 112; 111; 108; 108; 45; 117; 112; 100; 97; 116; 101; 115]%N
         (marshal_opt marshal_bool (r_poll r));
       field [101; 110; 97; 98; 108; 101; 45; 112; 117; 115; 104; 45; 117; 112; 100; 97; 116; 101; 115]%N
         (marshal_opt marshal_bool (r_push r));
       field [97; 117; 116; 111; 45; 103; 101; 110; 101; 114; 97; 116; 101; 100; 45; 102; 105; 108; 101; 115]%N
         (marshal_opt (fun l => brackets (joined (map quote l))) (r_auto r))]).

  (** encoding/json writes the entries of a map in the order of their keys. *)
  Fixpoint insert_key {A} (k : str) (v : A) (l : list (str * A)) : list (str * A) :=
    match l with
    | [] => [(k, v)]
    | (k', v') :: r => if str_ltb k' k then (k', v') :: insert_key k v r else (k, v) :: l
    end.
  Fixpoint by_key {A} (l : list (str * A)) : list (str * A) :=
    match l with [] => [] | (k, v) :: r => insert_key k v (by_key r) end.

  (** config.go:222-229, and the answer of /api/v1/repos (api.go:178-185). *)
  Definition repos_json (rs : list (str * option repo)) : bytes :=
    braces (joined (map (fun '(k, r) => field k (marshal_opt marshal_repo r)) (by_key rs))).
  Definition ToJsonString (c : config) : bytes := repos_json (c_repos c).
End Json.

(** The scalar settings as they stand in the file, and the zero values the decoder
    (config.go:198) leaves for what is not there. *)
Record doc := mkDoc {
  d_dbpath : option str; d_title : option str; d_repos : list (str * option repo);
  d_maxidx : option Z; d_health : option str; d_vcs : list (str * option bytes); d_limit : option Z
}.
Definition decode_config (d : doc) : config :=
  let s x := match x with Some a => a | None => [] end in
  let z x := match x with Some a => a | None => 0 end in
  mkConfig (s (d_dbpath d)) (s (d_title d)) (d_repos d) (z (d_maxidx d)) (s (d_health d)) (d_vcs d)
    (z (d_limit d)).
