(** What loading a configuration should do. *)
From Verif Require Import Model.Base Model.Config Spec.Names Spec.JsonValueSpec.
Local Open Scope Z_scope.

Definition keys {A} (m : list (str * A)) : list str := map fst m.

(** A setting that has been decoded. *)
Definition decoded (un : bytes -> option (option (list (str * json)))) (e : str * json) : Prop :=
  exists b m, un b = Some (Some m) /\ In e m.

(** encoding/json on map[string]interface{}: encoding and decoding gives back the same
    settings, the text depends on the settings only (keys are sorted), decoded objects
    have each key once, nil is written as null, and the empty text is an error. (Shown of
    the codec of Model/ConfigCodec.v in Proofs/ConfigCodecProofs.v.) *)
Record codec_ok (un : bytes -> option (option (list (str * json))))
  (ma : option (list (str * json)) -> bytes) : Prop := mkCodec {
  co_round : forall m, NoDup (keys m) -> Forall (decoded un) m ->
    exists m', un (ma (Some m)) = Some (Some m') /\ forall k, get m' k = get m k;
  co_nodup : forall b m, un b = Some (Some m) -> NoDup (keys m);
  co_ext : forall m m', NoDup (keys m) -> NoDup (keys m') -> Forall (decoded un) m -> Forall (decoded un) m' ->
    (forall k, get m k = get m' k) ->
    ma (Some m) = ma (Some m');
  co_null : un (ma None) = Some None;
  co_text : forall x, ma x <> [];
  co_empty : un [] = None
}.

(** The settings a VCS driver finds in a vcs-config text; no text is no settings. *)
Definition setting (un : bytes -> option (option (list (str * json)))) (conf : option bytes) (k : str)
  : option json :=
  match conf with
  | None | Some [] => None
  | Some b => match un b with Some (Some m) => get m k | _ => None end
  end.

(** The global setting [k] of a VCS. *)
Definition global_setting un (c : config) (vcs k : str) : option json :=
  match get (c_vcs c) vcs with Some conf => setting un conf k | None => None end.

(** Everything but the vcs-config. *)
Definition same_but_conf (r r' : repo) : Prop :=
  r_url r = r_url r' /\ r_display r = r_display r' /\ r_ms r = r_ms r' /\ r_vcs r = r_vcs r' /\
  r_pattern r = r_pattern r' /\ r_exdot r = r_exdot r' /\ r_poll r = r_poll r' /\ r_push r = r_push r' /\
  r_auto r = r_auto r'.
Definition present {A} (x : option A) : bool := match x with Some _ => true | None => false end.

(** Two configurations that differ at most in the contents of vcs-config texts. *)
Definition same_but_secrets (c1 c2 : config) : Prop :=
  c_dbpath c1 = c_dbpath c2 /\ c_title c1 = c_title c2 /\ c_maxidx c1 = c_maxidx c2 /\
  c_health c1 = c_health c2 /\ c_limit c1 = c_limit c2 /\
  Forall2 (fun a b => fst a = fst b /\ present (snd a) = present (snd b)) (c_vcs c1) (c_vcs c2) /\
  Forall2 (fun a b => fst a = fst b /\
             match snd a, snd b with
             | None, None => True
             | Some r1, Some r2 => same_but_conf r1 r2 /\ present (r_vcsconf r1) = present (r_vcsconf r2)
             | _, _ => False
             end) (c_repos c1) (c_repos c2).

(** [x'] is [x], or the default [def] if [x] is missing (empty, zero). *)
Definition fills (missing : Prop) {A} (x def x' : A) : Prop := (missing /\ x' = def) \/ (~ missing /\ x' = x).

Definition repo_filled (r r' : repo) : Prop :=
  r_url r' = r_url r /\ r_display r' = r_display r /\ r_exdot r' = r_exdot r /\ r_poll r' = r_poll r /\
  r_push r' = r_push r /\ r_auto r' = r_auto r /\
  fills (r_ms r = 0) (r_ms r) 30000 (r_ms r') /\
  fills (r_vcs r = []) (r_vcs r) (text "git") (r_vcs r') /\
  exists p', r_pattern r' = Some p' /\
    match r_pattern r with
    | None => up_base p' = text "{url}/blob/{rev}/{path}{anchor}" /\ up_anchor p' = (text "#L{line}")
    | Some p => fills (up_base p = []) (up_base p) (text "{url}/blob/{rev}/{path}{anchor}") (up_base p') /\
                fills (up_anchor p = []) (up_anchor p) (text "#L{line}") (up_anchor p')
    end.

Definition config_filled (abs : str -> option str) (c c' : config) : Prop :=
  fills (c_title c = []) (c_title c) (text "Hound") (c_title c') /\
  fills (c_maxidx c = 0) (c_maxidx c) 2 (c_maxidx c') /\
  fills (c_health c = []) (c_health c) (text "/healthz") (c_health c') /\
  fills (c_limit c = 0) (c_limit c) 5000 (c_limit c') /\
  c_vcs c' = c_vcs c /\
  ((exists p, c_dbpath c = 47%N :: p /\ c_dbpath c' = c_dbpath c) \/
   ((forall p, c_dbpath c <> 47%N :: p) /\ abs (c_dbpath c) = Some (c_dbpath c'))) /\
  Forall2 (fun a b => fst a = fst b /\
             match snd a, snd b with Some r, Some r' => repo_filled r r' | _, _ => False end)
    (c_repos c) (c_repos c').

(** A setting of the file: what it says, or the default if it does not say. *)
Definition setting_of {A} (given : option A) (def x : A) : Prop := given = Some x \/ (given = None /\ x = def).

(** strconv.ParseFloat and the float encoder: what is written for a number that was read
    is a number and is read as the same. *)
Record floats_ok (parse_float : str -> option N) (format_float : N -> str) : Prop := mkFloats {
  fl_text : forall lit n, parse_float lit = Some n -> number_text (format_float n);
  fl_same : forall lit n, parse_float lit = Some n -> parse_float (format_float n) = Some n
}.
