(** encoding/json on the vcs-config texts: json.Unmarshal into and json.Marshal of a
    map[string]interface{} (config/config.go:151, 168, 179). Texts are those of Model/Json.v.
    A number becomes a float64 and is written as one: strconv.ParseFloat ([parse_float]: the
    bits, [None] if out of range) and the float encoder of encoding/json ([format_float]) are
    parameters. A Go map has no order, here it is kept sorted by key. Not modelled: the limit
    of 10000 on nesting. *)
From Verif Require Import Model.Base Model.JsonText Model.Json Model.Config.
Local Open Scope N_scope.

Section Codec.
  Variable parse_float : str -> option N.
  Variable format_float : N -> str.

  (** valueInterface, objectInterface, arrayInterface: of two members of the same name the
      later counts. *)
  Fixpoint to_value (v : jv) : option json :=
    match v with
    | VNull => Some JNull
    | VBool b => Some (JBool b)
    | VNum lit => n <- parse_float lit ;; Some (JNum n)
    | VStr s => Some (JStr s)
    | VArr l =>
        l' <- (fix items l := match l with
                              | [] => Some []
                              | v :: r => x <- to_value v ;; xs <- items r ;; Some (x :: xs)
                              end) l ;;
        Some (JArr l')
    | VObj l =>
        m <- (fix members l m := match l with
                                 | [] => Some m
                                 | (k, v) :: r => x <- to_value v ;; members r (put m k x)
                                 end) l [] ;;
        Some (JObj (by_key m))
    end.

  (** json.Unmarshal: one value and nothing after it but space. *)
  Definition whole (b : bytes) : option jv :=
    '(v, rest) <- decode_json b ;;
    match skip_space rest with [] => Some v | _ => None end.
  Definition unmarshal_map (b : bytes) : option (option (list (str * json))) :=
    v <- whole b ;;
    match v with
    | VNull => Some None
    | VObj _ => x <- to_value v ;; match x with JObj m => Some (Some m) | _ => None end
    | _ => None
    end.

  (** What is written for a value: a map by its keys. *)
  Fixpoint of_value (j : json) : jv :=
    match j with
    | JNull => VNull
    | JBool b => VBool b
    | JNum n => VNum (format_float n)
    | JStr s => VStr s
    | JArr l => VArr (map of_value l)
    | JObj l => VObj (by_key (map (fun e => (fst e, of_value (snd e))) l))
    end.
  (** json.Marshal; [short] as in Model/JsonText.v *)
  Definition marshal_map (short : bool) (m : option (list (str * json))) : bytes :=
    print short match m with None => VNull | Some m => of_value (JObj m) end.
End Codec.
