(** Reading the configuration file: config/config.go:23-39, 60-86, 191-220. The decoder gives a
    SecretMessage the text of the value as it stands in the file, so members come with their
    texts here. Names of members are compared without regard to the case of ASCII letters. In
    the list of a repeated auto-generated-files, null is the empty text. Decode reads one value
    and leaves the rest of the file. After an error of types the decoder goes on, but the error
    is returned in the end, and then the structure is not used. *)
From Verif Require Import Model.Base Model.GoStr Model.JsonText Model.Json Model.Config Model.ConfigCodec Model.Wire.
Local Open Scope N_scope.

(** What was read when [rest] is left. *)
Definition taken (s rest : str) : str := firstn (length s - length rest) s.

(** The members of an object with their values and the texts of these; after the brace. *)
Fixpoint spans_members (fuel : nat) (s : str) : option (list (str * (jv * str)) * str) :=
  match fuel with
  | O => None
  | S fuel =>
      '(k, s1) <- read_literal (skip_space s) ;;
      match skip_space s1 with
      | [] => None
      | c :: r =>
          if c =? 58 then
            let from := skip_space r in
            '(v, s2) <- parse fuel from ;;
            match skip_space s2 with
            | [] => None
            | d :: r2 =>
                if d =? 44 then '(l, rest) <- spans_members fuel r2 ;; Some ((k, (v, taken from s2)) :: l, rest)
                else if d =? 125 then Some ([(k, (v, taken from s2))], r2)
                else None
            end
          else None
      end
  end.
Definition spans (s : str) : option (list (str * (jv * str))) :=
  match skip_space s with
  | [] => None
  | c :: r =>
      if c =? 123 then
        match skip_space r with
        | [] => None
        | d :: _ => if d =? 125 then Some [] else '(l, _) <- spans_members (S (length s)) r ;; Some l
        end
      else None
  end.

(** A pointer to a struct is made for an object, and kept if there is one already. *)
Definition dec_pointer {R} (set : str -> jv * str -> R -> option R) (zero : R) (x : jv * str) (old : option R) : option (option R) :=
  match fst x with
  | VNull => Some None
  | VObj _ => l <- spans (snd x) ;; r <- dec_fields set l (match old with Some r => r | None => zero end) ;; Some (Some r)
  | _ => None
  end.
(** SecretMessage.UnmarshalJSON (81-86) is called with the text, but not for null. *)
Definition dec_secret (x : jv * str) : option (option bytes) :=
  Some match fst x with VNull => None | _ => Some (snd x) end.
(** *bool *)
Definition dec_opt_bool (v : jv) (old : option bool) : option (option bool) :=
  match v with VNull => Some None | VBool b => Some (Some b) | _ => None end.
(** []string *)
Definition dec_strings (v : jv) (old : option (list str)) : option (option (list str)) :=
  match v with VNull => Some None | VArr l => l <- dec_list (fun v => dec_str v []) l ;; Some (Some l) | _ => None end.

Definition k_base_url : str := [98; 97; 115; 101; 45; 117; 114; 108].  (* base-url *)
Definition k_anchor : str := [97; 110; 99; 104; 111; 114].  (* anchor *)
Definition k_url : str := [117; 114; 108].  (* url *)
Definition k_display_name : str := [100; 105; 115; 112; 108; 97; 121; 45; 110; 97; 109; 101].  (* display-name *)
Definition k_ms_between_poll : str := [109; 115; 45; 98; 101; 116; 119; 101; 101; 110; 45; 112; 111; 108; 108].  (* ms-between-poll *)
Definition k_vcs : str := [118; 99; 115].  (* vcs *)
Definition k_vcs_config : str := [118; 99; 115; 45; 99; 111; 110; 102; 105; 103].  (* vcs-config *)
Definition k_url_pattern : str := [117; 114; 108; 45; 112; 97; 116; 116; 101; 114; 110].  (* url-pattern *)
Definition k_exclude_dot_files : str := [101; 120; 99; 108; 117; 100; 101; 45; 100; 111; 116; 45; 102; 105; 108; 101; 115].  (* exclude-dot-files *)
Definition k_enable_poll_updates : str := [101; 110; 97; 98; 108; 101; 45; 112; 111; 108; 108; 45; 117; 112; 100; 97; 116; 101; 115].  (* enable-poll-updates *)
Definition k_enable_push_updates : str := [101; 110; 97; 98; 108; 101; 45; 112; 117; 115; 104; 45; 117; 112; 100; 97; 116; 101; 115].  (* enable-push-updates *)
Definition k_auto_generated_files : str := [97; 117; 116; 111; 45; 103; 101; 110; 101; 114; 97; 116; 101; 100; 45; 102; 105; 108; 101; 115].  (* auto-generated-files *)
Definition k_dbpath : str := [100; 98; 112; 97; 116; 104].  (* dbpath *)
Definition k_title : str := [116; 105; 116; 108; 101].  (* title *)
Definition k_repos : str := [114; 101; 112; 111; 115].  (* repos *)
Definition k_max_concurrent_indexers : str := [109; 97; 120; 45; 99; 111; 110; 99; 117; 114; 114; 101; 110; 116; 45; 105; 110; 100; 101; 120; 101; 114; 115].  (* max-concurrent-indexers *)
Definition k_health_check_uri : str := [104; 101; 97; 108; 116; 104; 45; 99; 104; 101; 99; 107; 45; 117; 114; 105].  (* health-check-uri *)
Definition k_result_limit : str := [114; 101; 115; 117; 108; 116; 45; 108; 105; 109; 105; 116].  (* result-limit *)

(** config.go:23-26 *)
Definition set_pattern (k : str) (x : jv * str) (p : url_pattern) : option url_pattern :=
  let v := fst x in
  if same_name k k_base_url then s <- dec_str v (up_base p) ;; Some (mkUP s (up_anchor p))
  else if same_name k k_anchor then s <- dec_str v (up_anchor p) ;; Some (mkUP (up_base p) s)
  else Some p.
Definition zero_pattern : url_pattern := mkUP [] [].

(** config.go:28-39 *)
Definition set_repo (k : str) (x : jv * str) (r : repo) : option repo :=
  let v := fst x in
  let '(mkRepo url display ms vcs conf pat exdot poll push auto) := r in
  if same_name k k_url then s <- dec_str v url ;; Some (mkRepo s display ms vcs conf pat exdot poll push auto)
  else if same_name k k_display_name then s <- dec_str v display ;; Some (mkRepo url s ms vcs conf pat exdot poll push auto)
  else if same_name k k_ms_between_poll then n <- dec_int v ms ;; Some (mkRepo url display n vcs conf pat exdot poll push auto)
  else if same_name k k_vcs then s <- dec_str v vcs ;; Some (mkRepo url display ms s conf pat exdot poll push auto)
  else if same_name k k_vcs_config then c <- dec_secret x ;; Some (mkRepo url display ms vcs c pat exdot poll push auto)
  else if same_name k k_url_pattern then
    p <- dec_pointer set_pattern zero_pattern x pat ;; Some (mkRepo url display ms vcs conf p exdot poll push auto)
  else if same_name k k_exclude_dot_files then b <- dec_bool v exdot ;; Some (mkRepo url display ms vcs conf pat b poll push auto)
  else if same_name k k_enable_poll_updates then b <- dec_opt_bool v poll ;; Some (mkRepo url display ms vcs conf pat exdot b push auto)
  else if same_name k k_enable_push_updates then b <- dec_opt_bool v push ;; Some (mkRepo url display ms vcs conf pat exdot poll b auto)
  else if same_name k k_auto_generated_files then l <- dec_strings v auto ;; Some (mkRepo url display ms vcs conf pat exdot poll push l)
  else Some r.
Definition zero_repo : repo := mkRepo [] [] 0 [] None None false None None None.

(** A map of pointers: every entry is made anew. *)
Definition dec_entries {A} (f : jv * str -> option A) (x : jv * str) (old : list (str * A)) : option (list (str * A)) :=
  match fst x with
  | VNull => Some []
  | VObj _ => l <- spans (snd x) ;; dec_map f l old
  | _ => None
  end.

(** config.go:60-68 *)
Definition set_config (k : str) (x : jv * str) (c : config) : option config :=
  let v := fst x in
  let '(mkConfig db title repos maxidx health vcs limit) := c in
  if same_name k k_dbpath then s <- dec_str v db ;; Some (mkConfig s title repos maxidx health vcs limit)
  else if same_name k k_title then s <- dec_str v title ;; Some (mkConfig db s repos maxidx health vcs limit)
  else if same_name k k_repos then
    m <- dec_entries (fun x => dec_pointer set_repo zero_repo x None) x repos ;; Some (mkConfig db title m maxidx health vcs limit)
  else if same_name k k_max_concurrent_indexers then n <- dec_int v maxidx ;; Some (mkConfig db title repos n health vcs limit)
  else if same_name k k_health_check_uri then s <- dec_str v health ;; Some (mkConfig db title repos maxidx s vcs limit)
  else if same_name k k_vcs_config then m <- dec_entries dec_secret x vcs ;; Some (mkConfig db title repos maxidx health m limit)
  else if same_name k k_result_limit then n <- dec_int v limit ;; Some (mkConfig db title repos maxidx health vcs n)
  else Some c.
Definition zero_config : config := mkConfig [] [] [] 0 [] [] 0.

(** config.go:198: Decode into the zero Config of main.go and of the tests; [None]: an error. *)
Definition decode_file (file : str) : option config :=
  '(v, _) <- decode_json file ;;
  match v with
  | VNull => Some zero_config
  | VObj _ => l <- spans file ;; dec_fields set_config l zero_config
  | _ => None
  end.

(** config.go:191-220, of a file that can be opened. [None]: the program crashes, [Some None]:
    an error. [abs] is filepath.Abs of the path joined to the directory of the file. *)
Section Load.
  Variable parse_float : str -> option N.
  Variable format_float : N -> str.
  Variable short : bool.
  Variable abs : str -> option str.
  Definition LoadFromFile (file : str) : option (option config) :=
    match decode_file file with
    | None => Some None
    | Some c => finish_load (unmarshal_map parse_float) (marshal_map format_float short) abs c
    end.
End Load.
