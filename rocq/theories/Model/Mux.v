(** How a request finds its handler: web/web.go:26-41, 72-85, api/api.go:177-274 (the patterns),
    ui/content.go:39-65, ui/ui.go:106-140, ui/bindata.go:17-34, with http.ServeMux as of Go 1.21
    (go.mod says 1.16, so later releases keep to it) and path.Clean. A request is its method, its
    URL's path and query, and whether the request line had * for a URI. A redirect is given by
    the path and query of its Location, before they are escaped. Not modelled: hosts (no pattern
    has one), the dev handler, the answers of the API (other models), what a template makes of a
    page, http.ServeContent. Of the two readings of the embedded files each finds the same. *)
From Verif Require Import Model.Base Model.GoStr.
Local Open Scope N_scope.

Definition slash : byte := 47.
Definition dot : byte := 46.

(** path.Clean. [out]: what has been written, the last byte first; [w] is its length. *)
Fixpoint back (dotdot : nat) (out : str) : str :=
  match out with
  | [] => []
  | c :: out' => if Nat.ltb dotdot (length out') && negb (c =? slash) then back dotdot out' else out'
  end.
Fixpoint element (p out : str) : str * str :=
  match p with
  | [] => (p, out)
  | c :: p' => if c =? slash then (p, out) else element p' (c :: out)
  end.
Definition ends (p : str) : bool := match p with [] => true | c :: _ => c =? slash end.
Fixpoint clean_loop (fuel : nat) (rooted : bool) (dotdot : nat) (p out : str) : option str :=
  match fuel with
  | O => None
  | S fuel =>
      match p with
      | [] => Some out
      | c :: p' =>
          if c =? slash then clean_loop fuel rooted dotdot p' out
          else if (c =? dot) && ends p' then clean_loop fuel rooted dotdot p' out
          else
            match p' with
            | c2 :: p2 =>
                if (c =? dot) && (c2 =? dot) && ends p2 then
                  if Nat.ltb dotdot (length out) then clean_loop fuel rooted dotdot p2 (back dotdot out)
                  else if rooted then clean_loop fuel rooted dotdot p2 out
                  else
                    let out := if Nat.ltb 0 (length out) then slash :: out else out in
                    clean_loop fuel rooted (length (dot :: dot :: out)) p2 (dot :: dot :: out)
                else
                  let out := if negb (Nat.eqb (length out) (if rooted then 1 else 0)) then slash :: out else out in
                  let '(p', out) := element p out in clean_loop fuel rooted dotdot p' out
            | [] =>
                let out := if negb (Nat.eqb (length out) (if rooted then 1 else 0)) then slash :: out else out in
                let '(p', out) := element p out in clean_loop fuel rooted dotdot p' out
            end
      end
  end.
Definition path_clean (p : str) : option str :=
  match p with
  | [] => Some [dot]
  | c :: p' =>
      out <- (if c =? slash then clean_loop (S (length p)) true 1 p' [slash] else clean_loop (S (length p)) false 0 p []) ;;
      match out with [] => Some [dot] | _ => Some (rev out) end
  end.

(** net/http: cleanPath *)
Definition last_byte (p : str) : option byte := match rev p with [] => None | c :: _ => Some c end.
Definition cleanPath (p : str) : option str :=
  match p with
  | [] => Some [slash]
  | c :: _ =>
      let p := if c =? slash then p else slash :: p in
      np <- path_clean p ;;
      match last_byte p with
      | Some l =>
          if (l =? slash) && negb (str_eqb np [slash]) then
            if Nat.eqb (length p) (S (length np)) && has_prefix p np then Some p else Some (np ++ [slash])
          else Some np
      | None => None
      end
  end.

Section Mux.
  Context {H : Type}.
  (** ServeMux: the table m, and es, the patterns that end with a slash, longest first. *)
  Record mux := mkMux { m_table : list (str * H); m_es : list (str * H) }.
  Fixpoint lookup (l : list (str * H)) (p : str) : option H :=
    match l with [] => None | (q, h) :: r => if str_eqb p q then Some h else lookup r p end.
  Fixpoint appendSorted (es : list (str * H)) (e : str * H) : list (str * H) :=
    match es with
    | [] => [e]
    | x :: r => if Nat.ltb (length (fst x)) (length (fst e)) then e :: es else x :: appendSorted r e
    end.
  (** [None]: Handle panics. *)
  Definition handle (m : mux) (pattern : str) (h : H) : option mux :=
    match last_byte pattern, lookup (m_table m) pattern with
    | Some l, None =>
        Some (mkMux (m_table m ++ [(pattern, h)]) (if l =? slash then appendSorted (m_es m) (pattern, h) else m_es m))
    | _, _ => None
    end.
  Definition mux_match (m : mux) (p : str) : option H :=
    match lookup (m_table m) p with
    | Some h => Some h
    | None => match find (fun e => has_prefix p (fst e)) (m_es m) with Some e => Some (snd e) | None => None end
    end.
  (** shouldRedirectRLocked *)
  Definition to_slash (m : mux) (p : str) : bool :=
    match lookup (m_table m) p with
    | Some _ => false
    | None =>
        match last_byte p with
        | None => false
        | Some l => match lookup (m_table m) (p ++ [slash]) with Some _ => negb (l =? slash) | None => false end
        end
    end.

  Record request := mkReq { q_connect : bool; q_star : bool; q_path : str; q_query : str }.
  Inductive outcome := Bad | Moved (path query : str) | Handled (h : H) | Missing.
  (** ServeMux.Handler, ServeHTTP *)
  Definition dispatch (m : mux) (r : request) : option outcome :=
    let found p := match mux_match m p with Some h => Handled h | None => Missing end in
    if q_star r then Some Bad
    else if q_connect r then
      Some (if to_slash m (q_path r) then Moved (q_path r ++ [slash]) (q_query r) else found (q_path r))
    else
      path <- cleanPath (q_path r) ;;
      Some (if to_slash m path then Moved (path ++ [slash]) (q_query r)
            else if str_eqb path (q_path r) then found (q_path r)
            else Moved path (q_query r)).
End Mux.
Arguments mux : clear implicits. Arguments outcome : clear implicits.

Inductive endpoint := Repos | Search | Excludes | Update | Webhook.
Inductive handler := Ui | Api (e : endpoint).
Definition p_repos : str := [47; 97; 112; 105; 47; 118; 49; 47; 114; 101; 112; 111; 115].  (* /api/v1/repos *)
Definition p_search : str := [47; 97; 112; 105; 47; 118; 49; 47; 115; 101; 97; 114; 99; 104].  (* /api/v1/search *)
Definition p_excludes : str := [47; 97; 112; 105; 47; 118; 49; 47; 101; 120; 99; 108; 117; 100; 101; 115].  (* /api/v1/excludes *)
Definition p_update : str := [47; 97; 112; 105; 47; 118; 49; 47; 117; 112; 100; 97; 116; 101].  (* /api/v1/update *)
Definition p_webhook : str :=
  [47; 97; 112; 105; 47; 118; 49; 47; 103; 105; 116; 104; 117; 98; 45; 119; 101; 98; 104; 111; 111; 107].  (* /api/v1/github-webhook *)
(** web.go:78-80, api.go:177-274 *)
Definition setup : option (mux handler) :=
  m <- handle (mkMux [] []) [slash] Ui ;;
  m <- handle m p_repos (Api Repos) ;;
  m <- handle m p_search (Api Search) ;;
  m <- handle m p_excludes (Api Excludes) ;;
  m <- handle m p_update (Api Update) ;;
  handle m p_webhook (Api Webhook).

(** content.go:39-65 *)
Inductive page := Index | OpenSearch | ExcludedFiles.
Definition p_open_search : str := [47; 111; 112; 101; 110; 95; 115; 101; 97; 114; 99; 104; 46; 120; 109; 108].  (* /open_search.xml *)
Definition p_excluded_files : str :=
  [47; 101; 120; 99; 108; 117; 100; 101; 100; 95; 102; 105; 108; 101; 115; 46; 104; 116; 109; 108].  (* /excluded_files.html *)
Definition contents : list (str * page) := [([slash], Index); (p_open_search, OpenSearch); (p_excluded_files, ExcludedFiles)].

Inductive answer :=
| Health                          (* 200 *)
| NotReady                        (* 503 *)
| BadRequest                      (* 400 *)
| MovedTo (path query : str)      (* 301 *)
| NotFound                        (* 404 *)
| Endpoint (e : endpoint)
| Template (p : page)
| File (content : bytes).

(** bindata.go: the embedded tree, by names below .build/ui; a directory has no content. All its
    names are valid for io/fs, so that an invalid name is in it no more than any other. *)
Definition tree_files : Type := list (str * option bytes).
Fixpoint open (t : tree_files) (name : str) : option (option bytes) :=
  match t with [] => None | (n, x) :: r => if str_eqb name n then Some x else open r name end.
(** ui.go:106-121: reading a directory fails. *)
Definition serveAsset (t : tree_files) (name : str) : answer :=
  match open t name with Some (Some content) => File content | _ => NotFound end.
(** ui.go:123-140; [None]: p[1:] panics. *)
Definition prd_ServeHTTP (t : tree_files) (p : str) : option answer :=
  match lookup contents p with
  | Some c => Some (Template c)
  | None => match p with [] => None | _ :: name => Some (serveAsset t name) end
  end.
(** web.go:26-41; [ready]: the mux has been set. *)
Definition ServeHTTP (health : str) (ready : bool) (t : tree_files) (r : request) : option answer :=
  if str_eqb (q_path r) health then Some Health
  else if negb ready then Some NotReady
  else
    m <- setup ;;
    o <- dispatch m r ;;
    match o with
    | Bad => Some BadRequest
    | Moved p q => Some (MovedTo p q)
    | Missing => Some NotFound
    | Handled (Api e) => Some (Endpoint e)
    | Handled Ui => prd_ServeHTTP t (q_path r)
    end.
