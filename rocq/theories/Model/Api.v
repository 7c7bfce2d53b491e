(** api/api.go. The map of searchers is an association list name -> configuration of the
    repository (what the handlers look at besides calling Search and Update); its order
    stands for the order of [range]. Form values are a function. Writing the answer is
    reduced to the status and the body that matters here. *)
From Verif Require Import Model.Base Model.GoStr Model.Config Model.Search.
Local Open Scope Z_scope.

(** api.go:18-22 *)
Definition defaultLinesOfContext : N := 2.
Definition maxLinesOfContext : N := 20.
Definition maxLimit : Z := 100000.

(** api.go:99-102: "true", "1", "fosho" *)
Definition parseAsBool (v : str) : bool :=
  let v := to_lower v in
  str_eqb v [116; 114; 117; 101]%N || str_eqb v [49]%N || str_eqb v [102; 111; 115; 104; 111]%N.

(** api.go:104-121 *)
Definition parseAsRepoList (v : str) (idx : list (str * repo)) : list str :=
  let v := trim_space v in
  if str_eqb v [42]%N then map fst idx
  else filter (fun name => match get idx name with None => false | Some _ => true end) (split v 44%N).

(** api.go:123-135. The value has at most 54 bits, so uint(iv) is exact. *)
Definition parseAsUintValue (sv : str) (min max def : N) : N :=
  match parse_uint sv 54 with
  | None => def
  | Some iv =>
      if negb (max =? 0)%N && (max <? iv)%N then max
      else if negb (min =? 0)%N && (iv <? min)%N then min
      else iv
  end.

(** api.go:137-149 *)
Definition parseAsIntValue (sv : str) (min max def : Z) : Z :=
  match parse_int sv with
  | None => def
  | Some iv =>
      if negb (max =? 0) && (max <? iv) then max
      else if negb (min =? 0) && (iv <? min) then min
      else iv
  end.

(** api.go:151-163 *)
Definition parseRangeInt (v : str) : Z :=
  match v with
  | [] => 0
  | _ => match parse_uint v 64 with None => 0 | Some vi => to_int vi end
  end.

(** api.go:165-175 *)
Definition parseRangeValue (rv : str) : Z * Z :=
  match index_byte rv 58%N with
  | None => (0, 0)
  | Some ix => (parseRangeInt (firstn ix rv), parseRangeInt (skipn (ix + 1) rv))
  end.

(** index.SearchOptions as filled in by api.go:188-207, with the repositories and the
    query. Field names of the form: *)
Definition f_stats : str := [115; 116; 97; 116; 115]%N.
Definition f_repos : str := [114; 101; 112; 111; 115]%N.
Definition f_q : str := [113]%N.
Definition f_rng : str := [114; 110; 103]%N.
Definition f_files : str := [102; 105; 108; 101; 115]%N.
Definition f_exclude : str := [101; 120; 99; 108; 117; 100; 101; 70; 105; 108; 101; 115]%N.
Definition f_i : str := [105]%N.
Definition f_literal : str := [108; 105; 116; 101; 114; 97; 108]%N.
Definition f_limit : str := [108; 105; 109; 105; 116]%N.
Definition f_ctx : str := [99; 116; 120]%N.
Definition f_repo : str := [114; 101; 112; 111]%N.
Record search_request := mkReq {
  q_stats : bool; q_repos : list str; q_query : str; q_offset : Z; q_limit : Z;
  q_files : str; q_exclude : str; q_icase : bool; q_literal : bool; q_max : Z; q_ctx : N
}.
Definition read_search (form : str -> str) (idx : list (str * repo)) (defaultMaxResults : Z) : search_request :=
  let '(off, lim) := parseRangeValue (form f_rng) in
  mkReq (parseAsBool (form f_stats)) (parseAsRepoList (form f_repos) idx) (form f_q) off lim
    (form f_files) (form f_exclude) (parseAsBool (form f_i)) (parseAsBool (form f_literal))
    (parseAsIntValue (form f_limit) (-1) maxLimit defaultMaxResults)
    (parseAsUintValue (form f_ctx) 0 maxLinesOfContext defaultLinesOfContext).
Definition request_opts (q : search_request) : sopts :=
  mkOpts (N.to_nat (q_ctx q)) (q_offset q) (q_limit q) (q_max q).

(** The searches searchAll starts (api.go:71-76). [None]: a goroutine calls a method of a
    nil *Searcher, which kills the process. *)
Fixpoint start_searches (idx : list (str * repo)) (repos : list str) : option (list (str * repo)) :=
  match repos with
  | [] => Some []
  | name :: rest =>
      s <- get idx name ;;
      l <- start_searches idx rest ;;
      Some ((name, s) :: l)
  end.

(** api.go:48-52. What a search delivered: Matches (nil if empty) and FilesOpened, or an
    error. *)
Section SearchAll.
  Context {M E : Type}.
  Record answer := mkAns { a_matches : option M; a_opened : Z }.
  (** api.go:78-92: [arrivals] are the answers in the order in which they come out of the
      channel. *)
  Fixpoint collect (arrivals : list (str * (answer + E))) (res : list (str * answer)) (filesOpened : Z)
    : (list (str * answer) * Z) + E :=
    match arrivals with
    | [] => inl (res, filesOpened)
    | (_, inr err) :: _ => inr err
    | (name, inl r) :: rest =>
        match a_matches r with
        | None => collect rest res filesOpened
        | Some _ => collect rest (put res name r) (filesOpened + a_opened r)
        end
    end.
  Definition searchAll (arrivals : list (str * (answer + E))) := collect arrivals [] 0.
End SearchAll.
Arguments answer : clear implicits.

(** searcher.go:149-162: the answer and whether something was put in updateCh unless one
    is pending already. *)
Definition Update (r : repo) : bool := PushUpdatesEnabled r.

Definition StatusOK : Z := 200.
Definition StatusBadRequest : Z := 400.
Definition StatusForbidden : Z := 403.
Definition StatusNotFound : Z := 404.
Definition StatusMethodNotAllowed : Z := 405.
Definition POST : str := [80; 79; 83; 84]%N.

(** api.go:251-270: the status and the repositories whose update was requested. *)
Fixpoint update_all (idx : list (str * repo)) (repos : list str) : Z * list str :=
  match repos with
  | [] => (StatusOK, [])
  | name :: rest =>
      match get idx name with
      | None => (StatusNotFound, [])
      | Some s =>
          if Update s then
            let '(status, l) := update_all idx rest in (status, name :: l)
          else (StatusForbidden, [])
      end
  end.

(** api.go:243-272 *)
Definition update_handler (method : str) (form : str -> str) (idx : list (str * repo)) : Z * list str :=
  if negb (str_eqb method POST) then (StatusMethodNotAllowed, [])
  else update_all idx (parseAsRepoList (form f_repos) idx).

(** api.go:274-318. [body]: Repository.Full_name as decoded, [None] for an error. *)
Definition webhook_handler (method : str) (body : option str) (idx : list (str * repo)) : Z * list str :=
  if negb (str_eqb method POST) then (StatusMethodNotAllowed, [])
  else match body with
       | None => (StatusBadRequest, [])
       | Some name =>
           match get idx name with
           | None => (StatusNotFound, [])
           | Some s => if Update s then (StatusOK, [name]) else (StatusForbidden, [])
           end
       end.

(** api.go:235-241: GetExcludedFiles of idx[repo]; [None]: nil pointer dereference. *)
Definition excludes_handler (form : str -> str) (idx : list (str * repo)) : option str :=
  match get idx (form f_repo) with None => None | Some _ => Some (form f_repo) end.
