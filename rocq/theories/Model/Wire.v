(** The answer of /api/v1/search as a text: the structs of index/index.go:53-72 and
    api/api.go:24-27 and 219-232 written by encoding/json, and read into the structs of
    client/client.go:15-21. A map is an association list; encoding/json writes it sorted by
    key, here its order is kept (the results hold for every order). Slices: a nil slice is
    written null, and [] stands for both when read. Field names that fit are compared
    without regard to the case of ASCII letters only. [None]: Decode returns an error; also,
    as nothing of this is sent, for a null in place of a struct and for a negative line
    number. *)
From Verif Require Import Model.Base Model.GoStr Model.GoFmt Model.Config Model.JsonText Model.Json Model.Grep Model.Search.
Local Open Scope N_scope.

Definition k_Line : str := [76; 105; 110; 101].  (* Line *)
Definition k_LineNumber : str := [76; 105; 110; 101; 78; 117; 109; 98; 101; 114].  (* LineNumber *)
Definition k_Before : str := [66; 101; 102; 111; 114; 101].  (* Before *)
Definition k_After : str := [65; 102; 116; 101; 114].  (* After *)
Definition k_Filename : str := [70; 105; 108; 101; 110; 97; 109; 101].  (* Filename *)
Definition k_Matches : str := [77; 97; 116; 99; 104; 101; 115].  (* Matches *)
Definition k_AutoGenerated : str := [65; 117; 116; 111; 71; 101; 110; 101; 114; 97; 116; 101; 100].  (* AutoGenerated *)
Definition k_FilesWithMatch : str := [70; 105; 108; 101; 115; 87; 105; 116; 104; 77; 97; 116; 99; 104].  (* FilesWithMatch *)
Definition k_Revision : str := [82; 101; 118; 105; 115; 105; 111; 110].  (* Revision *)
Definition k_Results : str := [82; 101; 115; 117; 108; 116; 115].  (* Results *)
Definition k_Stats : str := [83; 116; 97; 116; 115].  (* Stats *)
Definition k_FilesOpened : str := [70; 105; 108; 101; 115; 79; 112; 101; 110; 101; 100].  (* FilesOpened *)
Definition k_Duration : str := [68; 117; 114; 97; 116; 105; 111; 110].  (* Duration *)
Definition k_Error : str := [69; 114; 114; 111; 114].  (* Error *)

(** index.go:53-58 *)
Definition enc_match (h : hit) : jv :=
  VObj [(k_Line, VStr (h_line h)); (k_LineNumber, VNum (fmt_d (Z.of_nat (h_no h))));
        (k_Before, VArr (map VStr (h_before h))); (k_After, VArr (map VStr (h_after h)))].
(** index.go:68-72 *)
Definition enc_slice {A} (f : A -> jv) (l : list A) : jv := match l with [] => VNull | _ => VArr (map f l) end.
Definition enc_file (f : file_match) : jv :=
  VObj [(k_Filename, VStr (fm_name f)); (k_Matches, enc_slice enc_match (fm_hits f)); (k_AutoGenerated, VBool (fm_auto f))].
(** index.go:60-66; FilesOpened and Duration are left out (json:"-"). *)
Definition enc_response (r : response) : jv :=
  VObj [(k_Matches, enc_slice enc_file (rs_matches r)); (k_FilesWithMatch, VNum (fmt_d (rs_found r)));
        (k_Revision, VStr (rs_rev r))].
(** api.go:24-27, FilesOpened and Duration *)
Definition enc_stats (st : Z * Z) : jv :=
  VObj [(k_FilesOpened, VNum (fmt_d (fst st))); (k_Duration, VNum (fmt_d (snd st)))].
(** api.go:219-232; [stats] is nil unless asked for. *)
Definition enc_answer (results : list (str * response)) (stats : option (Z * Z)) : jv :=
  VObj ((k_Results, VObj (map (fun p => (fst p, enc_response (snd p))) results)) ::
        match stats with None => [] | Some st => [(k_Stats, enc_stats st)] end).
(** api.go:42-46 *)
Definition enc_error (err : str) : jv := VObj [(k_Error, VStr err)].
(** api.go:29-36: Encode appends a newline. *)
Definition write_json (short : bool) (v : jv) : str := print short v ++ [10].

(** Decoding; a null leaves the variable as it is. *)
Definition dec_str (v : jv) (old : str) : option str :=
  match v with VNull => Some old | VStr s => Some s | _ => None end.
Definition dec_bool (v : jv) (old : bool) : option bool :=
  match v with VNull => Some old | VBool b => Some b | _ => None end.
Definition dec_int (v : jv) (old : Z) : option Z :=
  match v with VNull => Some old | VNum lit => parse_int lit | _ => None end.
Fixpoint dec_list {A} (f : jv -> option A) (l : list jv) : option (list A) :=
  match l with
  | [] => Some []
  | v :: r => x <- f v ;; xs <- dec_list f r ;; Some (x :: xs)
  end.
Definition dec_slice {A} (f : jv -> option A) (v : jv) : option (list A) :=
  match v with VNull => Some [] | VArr l => dec_list f l | _ => None end.
Definition same_name (a b : str) : bool := str_eqb (to_lower a) (to_lower b).
(** The members in order; [set] stores one, if there is a field of that name. *)
Fixpoint dec_fields {V R} (set : str -> V -> R -> option R) (l : list (str * V)) (r : R) : option R :=
  match l with
  | [] => Some r
  | (k, v) :: rest => r' <- set k v r ;; dec_fields set rest r'
  end.
Definition dec_struct {R} (set : str -> jv -> R -> option R) (zero : R) (v : jv) : option R :=
  match v with VObj l => dec_fields set l zero | _ => None end.

Definition set_match (k : str) (v : jv) (h : hit) : option hit :=
  if same_name k k_Line then s <- dec_str v (h_line h) ;; Some (mkHit s (h_no h) (h_before h) (h_after h))
  else if same_name k k_LineNumber then
    n <- dec_int v (Z.of_nat (h_no h)) ;;
    if (n <? 0)%Z then None else Some (mkHit (h_line h) (Z.to_nat n) (h_before h) (h_after h))
  else if same_name k k_Before then
    l <- dec_slice (fun v => dec_str v []) v ;; Some (mkHit (h_line h) (h_no h) l (h_after h))
  else if same_name k k_After then
    l <- dec_slice (fun v => dec_str v []) v ;; Some (mkHit (h_line h) (h_no h) (h_before h) l)
  else Some h.
Definition dec_match : jv -> option hit := dec_struct set_match (mkHit [] 0 [] []).

Definition set_file (k : str) (v : jv) (f : file_match) : option file_match :=
  if same_name k k_Filename then s <- dec_str v (fm_name f) ;; Some (mkFM s (fm_hits f) (fm_auto f))
  else if same_name k k_Matches then l <- dec_slice dec_match v ;; Some (mkFM (fm_name f) l (fm_auto f))
  else if same_name k k_AutoGenerated then b <- dec_bool v (fm_auto f) ;; Some (mkFM (fm_name f) (fm_hits f) b)
  else Some f.
Definition dec_file : jv -> option file_match := dec_struct set_file (mkFM [] [] false).

Definition set_response (k : str) (v : jv) (r : response) : option response :=
  if same_name k k_Matches then
    l <- dec_slice dec_file v ;; Some (mkResp l (rs_found r) (rs_opened r) (rs_rev r))
  else if same_name k k_FilesWithMatch then
    n <- dec_int v (rs_found r) ;; Some (mkResp (rs_matches r) n (rs_opened r) (rs_rev r))
  else if same_name k k_Revision then
    s <- dec_str v (rs_rev r) ;; Some (mkResp (rs_matches r) (rs_found r) (rs_opened r) s)
  else Some r.
Definition dec_response : jv -> option response := dec_struct set_response (mkResp [] 0 0 []).

Definition set_stats (k : str) (v : jv) (st : Z * Z) : option (Z * Z) :=
  if same_name k k_FilesOpened then n <- dec_int v (fst st) ;; Some (n, snd st)
  else if same_name k k_Duration then n <- dec_int v (snd st) ;; Some (fst st, n)
  else Some st.

(** client.go:15-21; a nil map or pointer is [None]. *)
Record received := mkRecv { rc_results : option (list (str * response)); rc_stats : option (Z * Z) }.
(** Into a map: the members are added to those it has. *)
Fixpoint dec_map {V A} (f : V -> option A) (l : list (str * V)) (m : list (str * A)) : option (list (str * A)) :=
  match l with
  | [] => Some m
  | (k, v) :: rest => x <- f v ;; dec_map f rest (put m k x)
  end.
Definition set_answer (k : str) (v : jv) (r : received) : option received :=
  if same_name k k_Results then
    match v with
    | VNull => Some (mkRecv None (rc_stats r))
    | VObj l =>
        m <- dec_map dec_response l (match rc_results r with Some m => m | None => [] end) ;;
        Some (mkRecv (Some m) (rc_stats r))
    | _ => None
    end
  else if same_name k k_Stats then
    match v with
    | VNull => Some (mkRecv (rc_results r) None)
    | VObj l =>
        st <- dec_fields set_stats l (match rc_stats r with Some st => st | None => (0, 0)%Z end) ;;
        Some (mkRecv (rc_results r) (Some st))
    | _ => None
    end
  else Some r.
(** client.go:117: json.NewDecoder(res.Body).Decode(r) of an empty Response *)
Definition read_answer (body : str) : option received :=
  '(v, _) <- decode_json body ;;
  match v with
  | VNull => Some (mkRecv None None)
  | VObj l => dec_fields set_answer l (mkRecv None None)
  | _ => None
  end.
