(** client/client.go:76-107 (the request of Search), net/url (Values.Encode, ParseQuery)
    and Request.FormValue for a GET request, as far as needed; index/index.go:139-144. *)
From Verif Require Import Model.Base Model.GoStr Model.GoFmt Model.Api.
Local Open Scope N_scope.

(** net/url: shouldEscape for a query component *)
Definition unreserved (c : byte) : bool :=
  ((65 <=? c) && (c <=? 90)) || ((97 <=? c) && (c <=? 122)) || ((48 <=? c) && (c <=? 57)) ||
  (c =? 45) || (c =? 95) || (c =? 46) || (c =? 126).
(** "0123456789ABCDEF"[x] *)
Definition upperhex (x : N) : byte := if x <? 10 then 48 + x else 55 + x.
Definition escape_byte (c : byte) : str :=
  if unreserved c then [c] else if c =? 32 then [43] else [37; upperhex (c / 16); upperhex (c mod 16)].
Definition QueryEscape (s : str) : str := flat_map escape_byte s.

(** url.Values.Encode for one value per key, the keys in order. *)
Fixpoint encode_values (vs : list (str * str)) : str :=
  match vs with
  | [] => []
  | [(k, v)] => QueryEscape k ++ 61 :: QueryEscape v
  | (k, v) :: rest => QueryEscape k ++ 61 :: QueryEscape v ++ 38 :: encode_values rest
  end.

(** client.go:96-105: "http://%s/api/v1/search?%s". [ctx] is an int. *)
Definition http_prefix : str := [104; 116; 116; 112; 58; 47; 47].
Definition search_path : str := [47; 97; 112; 105; 47; 118; 49; 47; 115; 101; 97; 114; 99; 104].
Definition search_url (host pattern repos files : str) (ctx : Z) (ignoreCase stats : bool) : str :=
  http_prefix ++ host ++ search_path ++ 63 ::
  encode_values [(f_ctx, fmt_d ctx); (f_files, files); (f_i, fmt_t ignoreCase);
                 (f_q, pattern); (f_repos, repos); (f_stats, fmt_t stats)].

(** strings.Cut: before and after the first [c]. *)
Fixpoint cut (s : str) (c : byte) : str * str :=
  match s with
  | [] => ([], [])
  | x :: r => if x =? c then ([], r) else let '(a, b) := cut r c in (x :: a, b)
  end.
(** The query of a URL: without the fragment, from the first question mark on. It is sent
    and received unchanged. *)
Definition raw_query (u : str) : str := snd (cut (fst (cut u 35)) 63).

(** net/url: unescape for a query component; [None] is an error. *)
Definition unhex (c : byte) : option N :=
  if (48 <=? c) && (c <=? 57) then Some (c - 48)
  else if (97 <=? c) && (c <=? 102) then Some (c - 87)
  else if (65 <=? c) && (c <=? 70) then Some (c - 55)
  else None.
Fixpoint QueryUnescape (s : str) : option str :=
  match s with
  | [] => Some []
  | c :: r =>
      if c =? 37 then
        match r with
        | a :: b :: r' =>
            match unhex a, unhex b with
            | Some x, Some y => option_map (cons (16 * x + y)) (QueryUnescape r')
            | _, _ => None
            end
        | _ => None
        end
      else option_map (cons (if c =? 43 then 32 else c)) (QueryUnescape r)
  end.

(** net/url: parseQuery; the pairs that are not in error, in order. [fuel] is the length
    of the query. *)
Fixpoint parse_query (fuel : nat) (query : str) : list (str * str) :=
  match fuel with
  | O => []
  | S fuel =>
      match query with
      | [] => []
      | _ =>
          let '(kv, rest) := cut query 38 in
          let more := parse_query fuel rest in
          if existsb (N.eqb 59) kv then more
          else match kv with
               | [] => more
               | _ =>
                   let '(k, v) := cut kv 61 in
                   match QueryUnescape k, QueryUnescape v with
                   | Some k, Some v => (k, v) :: more
                   | _, _ => more
                   end
               end
      end
  end.
(** Request.FormValue: the first value, or "" *)
Fixpoint form_value (vs : list (str * str)) (key : str) : str :=
  match vs with
  | [] => []
  | (k, v) :: rest => if str_eqb key k then v else form_value rest key
  end.
(** What the handler of /api/v1/search sees for the URL. *)
Definition form_of (u : str) : str -> str :=
  form_value (parse_query (S (length (raw_query u))) (raw_query u)).

(** index.go:139-144: "(?i)(?m)" and "(?m)" *)
Definition GetRegexpPattern (pat : str) (ignoreCase : bool) : str :=
  if ignoreCase then [40; 63; 105; 41; 40; 63; 109; 41] ++ pat else [40; 63; 109; 41] ++ pat.
