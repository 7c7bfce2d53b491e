(** A search from the parameters of the request to the results the client prints: the parts
    that connect index/index.go, api/api.go and client/ack.go. regexp.Compile together with
    index.RegexpQuery of the result is an input, [compile]; so is regexp.QuoteMeta, [quote].
    The index, the raw copies, the list of generated files and the revision of a searcher
    are those it held when it was asked. *)
From Verif Require Import Model.Base Model.GoStr Model.Config Model.Query Model.Reader Model.Matcher Model.Grep Model.Search
  Model.Api Model.Request Model.Json Model.Wire.
Local Open Scope N_scope.

(** searcher.go:21-35 and index.go:30-34, as far as Search looks at it *)
Record served := mkServed { sv_ix : index; sv_raw : str -> option reader; sv_auto : list str; sv_rev : str }.

Section Server.
  Context (fuel : nat) (compile : str -> option (query * matcher)) (quote : str -> str).

  (** index.go:171-185: an optional filter. [None]: an error. *)
  Definition optional_filter (pat : str) : option (option matcher) :=
    match pat with
    | [] => Some None
    | _ => match compile pat with None => None | Some (_, re) => Some (Some re) end
    end.

  (** index.go:146-257, before and after what Model/Search.v has. [Some None]: an error. *)
  Definition search_repo (q : search_request) (s : served) : option (option response) :=
    let patForRe := if q_literal q then quote (q_query q) else q_query q in
    match compile (GetRegexpPattern patForRe (q_icase q)) with
    | None => Some None
    | Some (tq, re) =>
        match optional_filter (q_files q) with
        | None => Some None
        | Some fre =>
            match optional_filter (q_exclude q) with
            | None => Some None
            | Some xre => search fuel (request_opts q) (sv_raw s) (sv_auto s) (sv_rev s) (sv_ix s) tq re fre xre
            end
        end
    end.

  (** api.go:48-52 and 71-76: what a goroutine of searchAll sends; the text of an error is
      left out. *)
  Definition sent (r : option response) : answer response + unit :=
    match r with
    | None => inr tt
    | Some r => inl (mkAns (match rs_matches r with [] => None | _ => Some r end) (rs_opened r))
    end.
  Fixpoint run_searches (q : search_request) (servers : list (str * (repo * served))) (repos : list str)
    : option (list (str * (answer response + unit))) :=
    match repos with
    | [] => Some []
    | name :: rest =>
        s <- get servers name ;;
        r <- search_repo q (snd s) ;;
        l <- run_searches q servers rest ;;
        Some ((name, sent r) :: l)
    end.
End Server.

(** api.go:85-90: the responses in the map. *)
Definition answered (m : list (str * answer response)) : list (str * response) :=
  flat_map (fun p => match a_matches (snd p) with Some r => [(fst p, r)] | None => [] end) m.

(** api.go:209-232: [arrivals] in the order in which they come out of the channel, [dur]
    the time taken, [msg] the text of the error. *)
Definition search_body (short : bool) (msg : str) (stats : bool) (dur : Z)
  (arrivals : list (str * (answer response + unit))) : str :=
  match searchAll arrivals with
  | inr _ => write_json short (enc_error msg)
  | inl (m, filesOpened) =>
      write_json short (enc_answer (answered m) (if stats then Some (filesOpened, dur) else None))
  end.

(** ack.go:57-111: what Present looks at. *)
Definition shape (results : list (str * response)) : list (str * list (str * list hit)) :=
  map (fun p => (fst p, map (fun f => (fm_name f, fm_hits f)) (rs_matches (snd p)))) results.
