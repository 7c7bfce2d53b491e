(** ui/assets/js/hound.js: from the fields of the search bar to the request (392-410, 130-169,
    232-235). Strings are lists of UTF-16 code units. String.prototype.trim is written from
    ECMA-262, toQueryString and urlappend from reqwest 2.0.5 (package.json), with which requests
    are made. [None]: an exception (URIError). *)
From Verif Require Import Model.Base Model.Utf8 Model.PageState Model.PageAddress Model.Request.
Local Open Scope N_scope.

(** trim: white space and line terminators *)
Definition blank (c : N) : bool :=
  ((9 <=? c) && (c <=? 13)) || (c =? 32) || (c =? 0xA0) || (c =? 0x1680) || ((0x2000 <=? c) && (c <=? 0x200A)) ||
  (c =? 0x2028) || (c =? 0x2029) || (c =? 0x202F) || (c =? 0x205F) || (c =? 0x3000) || (c =? 0xFEFF).
Fixpoint trim_left (s : str) : str := match s with c :: r => if blank c then trim_left r else s | [] => [] end.
Definition trim (s : str) : str := rev (trim_left (rev (trim_left s))).

(** hound.js:392-410: getParams. The repositories are joined already (C79). *)
Definition getParams (f : search_form) : params :=
  form_params (mkForm (trim (sf_q f)) (sf_i f) (sf_literal f) (trim (sf_files f)) (trim (sf_exclude f)) (sf_repos f)).

(** reqwest: toQueryString of an object, whose members are given in order *)
Fixpoint pairs_of (o : params) : option (list str) :=
  match o with
  | [] => Some []
  | (k, v) :: r => a <- encodeURIComponent k ;; b <- encodeURIComponent v ;; l <- pairs_of r ;; Some ((a ++ 61 :: b) :: l)
  end.
Fixpoint join_amp (l : list str) : str :=
  match l with [] => [] | [p] => p | p :: r => p ++ 38 :: join_amp r end.
(** replace(/%20/g, '+') *)
Fixpoint plus_for_20 (s : str) : str :=
  match s with
  | a :: t => match t with
              | b :: (c :: r) => if (a =? 37) && (b =? 50) && (c =? 48) then 43 :: plus_for_20 r else a :: plus_for_20 t
              | _ => a :: plus_for_20 t
              end
  | [] => []
  end.
Definition toQueryString (o : params) : option str := l <- pairs_of o ;; Some (plus_for_20 (join_amp l)).

(** hound.js:162-165 and 232-235: the address of the request; no query if there is no data *)
Definition search_api : str := [97; 112; 105; 47; 118; 49; 47; 115; 101; 97; 114; 99; 104].
Definition request_url (o : params) : option str :=
  s <- toQueryString o ;; Some (match s with [] => search_api | _ => search_api ++ 63 :: s end).
(** The query as the browser sends it and the server gets it *)
Definition sent_query (o : params) : option str :=
  u <- request_url o ;; Some (match location_search u with _ :: q => q | [] => [] end).
(** What the handler of the server reads: Request.FormValue *)
Definition seen_by_server (o : params) : option (str -> str) :=
  q <- sent_query o ;; Some (Request.form_value (parse_query (S (length q)) q)).
