(** ui/assets/js/hound.js: the address of a search (20-60, 1055-1072). Strings are lists of
    UTF-16 code units. encodeURIComponent and decodeURIComponent are written from ECMA-262
    (Encode and Decode), the part of the browser that reads an address from the URL standard.
    [None]: an exception (URIError). *)
From Verif Require Import Model.Base Model.GoStr Model.Utf8 Model.PageState.
Local Open Scope N_scope.

(** The code points of a string; [None] if a surrogate is not one of a pair. *)
Definition high (c : N) : bool := (0xD800 <=? c) && (c <=? 0xDBFF).
Definition low (c : N) : bool := (0xDC00 <=? c) && (c <=? 0xDFFF).
Definition join_pair (c d : N) : N := 0x10000 + (c - 0xD800) * 1024 + (d - 0xDC00).
Fixpoint code_points (s : str) : option (list N) :=
  match s with
  | [] => Some []
  | c :: r =>
      if high c then
        match r with
        | d :: r' => if low d then option_map (cons (join_pair c d)) (code_points r') else None
        | [] => None
        end
      else if low c then None
      else option_map (cons c) (code_points r)
  end.
(** The same for the browser, which takes U+FFFD for a surrogate that is not one of a pair. *)
Fixpoint scalar_values (s : str) : list N :=
  match s with
  | [] => []
  | c :: r =>
      if high c then
        match r with
        | d :: r' => if low d then join_pair c d :: scalar_values r' else 0xFFFD :: scalar_values r
        | [] => [0xFFFD]
        end
      else if low c then 0xFFFD :: scalar_values r
      else c :: scalar_values r
  end.
(** The code units of a code point. *)
Definition units (r : N) : str := if r <? 0x10000 then [r] else [0xD800 + (r - 0x10000) / 1024; 0xDC00 + (r - 0x10000) mod 1024].

(** %XX *)
Definition hex_digit (x : N) : N := if x <? 10 then 48 + x else 55 + x.
Definition percent (b : N) : str := [37; hex_digit (b / 16); hex_digit (b mod 16)].
(** encodeURIComponent: letters, digits and -_.!~*'() are left alone *)
Definition left_alone (c : N) : bool :=
  ((65 <=? c) && (c <=? 90)) || ((97 <=? c) && (c <=? 122)) || ((48 <=? c) && (c <=? 57)) ||
  existsb (N.eqb c) [45; 95; 46; 33; 126; 42; 39; 40; 41].
Definition encodeURIComponent (s : str) : option str :=
  rs <- code_points s ;;
  Some (flat_map (fun r => if left_alone r then [r] else flat_map percent (encode_rune r)) rs).

(** decodeURIComponent *)
Definition hex_value (c : N) : option N :=
  if (48 <=? c) && (c <=? 57) then Some (c - 48)
  else if (97 <=? c) && (c <=? 102) then Some (c - 87)
  else if (65 <=? c) && (c <=? 70) then Some (c - 55)
  else None.
(** One %XX at the front. *)
Definition octet (s : str) : option (N * str) :=
  match s with
  | 37 :: a :: b :: r => x <- hex_value a ;; y <- hex_value b ;; Some (16 * x + y, r)
  | _ => None
  end.
Fixpoint octets (n : nat) (s : str) : option (list N * str) :=
  match n with
  | O => Some ([], s)
  | S n => '(b, r) <- octet s ;; '(bs, r') <- octets n r ;; Some (b :: bs, r')
  end.
Fixpoint decode_loop (fuel : nat) (s : str) : option str :=
  match fuel with
  | O => None
  | S fuel =>
      match s with
      | [] => Some []
      | c :: r =>
          if c =? 37 then
            '(b, r) <- octet s ;;
            if b <? 0x80 then option_map (cons b) (decode_loop fuel r)
            else
              (* the number of leading ones *)
              n <- (if b <? 0xC0 then None else if b <? 0xE0 then Some 2%nat else if b <? 0xF0 then Some 3%nat
                    else if b <? 0xF8 then Some 4%nat else None) ;;
              '(bs, r') <- octets (n - 1) r ;;
              let '(v, size) := decode_rune (b :: bs) in
              if Nat.eqb size n then option_map (app (units v)) (decode_loop fuel r') else None
          else option_map (cons c) (decode_loop fuel r)
      end
  end.
Definition decodeURIComponent (s : str) : option str := decode_loop (S (length s)) s.

(** hound.js:20-43: ParamsFromQueryString *)
Fixpoint split_at (c : N) (s : str) : list str :=
  match s with
  | [] => [[]]
  | x :: r => if x =? c then [] :: split_at c r
              else match split_at c r with p :: ps => (x :: p) :: ps | [] => [[x]] end
  end.
Definition spaces (s : str) : str := map (fun c => if c =? 43 then 32 else c) s.
Fixpoint read_pairs (l : list str) (p : params) : option params :=
  match l with
  | [] => Some p
  | v :: r =>
      match split_at 61 v with
      | [a; b] => k <- decodeURIComponent a ;; x <- decodeURIComponent (spaces b) ;; read_pairs r ((k, x) :: p)
      | _ => read_pairs r p
      end
  end.
Definition ParamsFromQueryString (qs : str) (p : params) : option params :=
  match qs with [] => Some p | _ :: r => read_pairs (split_at 38 r) p end.

(** hound.js:45-55 *)
Definition n_i : str := [105].
Definition n_literal : str := [108; 105; 116; 101; 114; 97; 108].
Definition n_files : str := [102; 105; 108; 101; 115].
Definition n_exclude : str := [101; 120; 99; 108; 117; 100; 101; 70; 105; 108; 101; 115].
Definition nope : str := [110; 111; 112; 101].
Definition default_params : params :=
  [(n_q, []); (n_i, nope); (n_literal, nope); (n_files, []); (n_exclude, []); (n_repos, star)].
Definition ParamsFromUrl (search : str) : option params := ParamsFromQueryString search default_params.

(** hound.js:57-60. toLowerCase for ASCII: no other character becomes a letter of these words. *)
Definition ParamValueToBool (v : str) : bool :=
  let v := to_lower v in str_eqb v fosho || str_eqb v [116; 114; 117; 101] || str_eqb v [49].

(** hound.js:392-410: what the form has (getParams, without the trimming) *)
Record search_form := mkForm { sf_q : str; sf_i : bool; sf_literal : bool; sf_files : str; sf_exclude : str; sf_repos : str }.
Definition box (b : bool) : str := if b then fosho else nope.
Definition form_params (f : search_form) : params :=
  [(n_q, sf_q f); (n_files, sf_files f); (n_exclude, sf_exclude f); (n_repos, sf_repos f); (n_i, box (sf_i f)); (n_literal, box (sf_literal f))].

(** hound.js:1055-1072: updateHistory *)
Definition address (pathname : str) (f : search_form) : option str :=
  q <- encodeURIComponent (sf_q f) ;;
  i <- encodeURIComponent (box (sf_i f)) ;;
  l <- encodeURIComponent (box (sf_literal f)) ;;
  fs <- encodeURIComponent (sf_files f) ;;
  ex <- encodeURIComponent (sf_exclude f) ;;
  Some (pathname ++ 63 :: n_q ++ 61 :: q ++ 38 :: n_i ++ 61 :: i ++ 38 :: n_literal ++ 61 :: l ++
        38 :: n_files ++ 61 :: fs ++ 38 :: n_exclude ++ 61 :: ex ++ 38 :: n_repos ++ 61 :: sf_repos f).

(** The browser: history.pushState and location.search. Spaces and control characters around
    the address go, as do tabs and newlines; the query ends at a number sign, and some of its
    characters are escaped. *)
Fixpoint strip (s : str) : str := match s with c :: r => if c <=? 32 then strip r else s | [] => [] end.
Definition strip_both (s : str) : str := rev (strip (rev (strip s))).
Definition no_newlines (s : str) : str := filter (fun c => negb (existsb (N.eqb c) [9; 10; 13])) s.
Fixpoint upto (c : N) (s : str) : str := match s with [] => [] | x :: r => if x =? c then [] else x :: upto c r end.
Fixpoint after_first (c : N) (s : str) : str := match s with [] => [] | x :: r => if x =? c then r else after_first c r end.
Definition query_escaped (r : N) : bool := (r <=? 32) || (126 <? r) || existsb (N.eqb r) [34; 39; 60; 62].
Definition location_search (u : str) : str :=
  let q := after_first 63 (upto 35 (no_newlines (strip_both u))) in
  match q with
  | [] => []
  | _ => 63 :: flat_map (fun r => if query_escaped r then flat_map percent (encode_rune r) else [r]) (scalar_values q)
  end.
