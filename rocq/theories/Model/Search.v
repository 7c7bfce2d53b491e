(** index/index.go: Search (146-257). The pattern handling (150-158: QuoteMeta,
    GetRegexpPattern, regexp.Compile; syntax errors) and index.RegexpQuery are inputs:
    the compiled expressions are matchers, the trigram query is [q]. The lock is the
    subject of Model/Searcher. [raw name] is the file dst/raw/name: what gunzipping it
    delivers, or [None] if it cannot be opened. *)
From Verif Require Import Model.Base Model.Query Model.Reader Model.Matcher Model.Grep.
Local Open Scope Z_scope.

(** index.go:44-53, the fields used after compilation *)
Record sopts := mkOpts { o_nctx : nat; o_offset : Z; o_limit : Z; o_max : Z }.

(** index.go:55-73; Match is [hit]. *)
Record file_match := mkFM { fm_name : str; fm_hits : list hit; fm_auto : bool }.
Record response := mkResp { rs_matches : list file_match; rs_found : Z; rs_opened : Z; rs_rev : str }.

(** index.go:360-367 *)
Fixpoint contains_string (haystack : list str) (needle : str) : bool :=
  match haystack with
  | [] => false
  | x :: r => if str_eqb x needle then true else contains_string r needle
  end.

Fixpoint rd_len (r : reader) : nat :=
  match r with RChunk b _ rest => (length b + rd_len rest)%nat | _ => O end.

(** The local variables of Search that change. *)
Record sstate := mkS {
  s_re : matcher; s_fre : option matcher; s_xre : option matcher;
  s_buf : option bytes;                      (* g.buf *)
  s_results : list file_match;
  s_opened : Z; s_found : Z; s_collected : Z; s_mcollected : Z
}.

(** index.go:203-222: the callback. State: hasMatch, matches, matchesCollected. *)
Definition search_cb (o : sopts) (found collected : Z) (st : bool * list hit * Z) (h : hit)
  : (bool * list hit * Z) * bool :=
  let '(_, ms, mc) := st in
  if (found <? o_offset o) || ((0 <? o_limit o) && (o_limit o <=? collected))
  then ((true, ms, mc), false)
  else
    let mc := mc + 1 in
    let ms := (ms ++ [h])%list in
    ((true, ms, mc), negb ((0 <? o_max o) && (o_max o <=? mc))).

(** MatchString(name, true, true) on an optional filter; the result as an int. *)
Definition name_match (fuel : nat) (m : option matcher) (name : str)
  : option (option matcher * option Z) :=
  match m with
  | None => Some (None, None)
  | Some m =>
      '(m', r) <- match_bytes fuel m name true true ;;
      Some (Some m', Some (match r with Some e => Z.of_nat e | None => -1 end))
  end.

(** One iteration of index.go:180-247. [inr]: continue, [inl]: Search returned an error. *)
Definition search_file (fuel : nat) (o : sopts) (raw : str -> option reader) (auto : list str)
  (ix : index) (s : sstate) (file : N) : option (unit + sstate) :=
  name <- ix_name ix file ;;
  '(fre', fm) <- name_match fuel (s_fre s) name ;;
  let s := mkS (s_re s) fre' (s_xre s) (s_buf s) (s_results s) (s_opened s) (s_found s) (s_collected s) (s_mcollected s) in
  if match fm with Some e => e <? 0 | None => false end then Some (inr s)
  else
  '(xre', xm) <- name_match fuel (s_xre s) name ;;
  let s := mkS (s_re s) (s_fre s) xre' (s_buf s) (s_results s) (s_opened s) (s_found s) (s_collected s) (s_mcollected s) in
  if match xm with Some e => 0 <? e | None => false end then Some (inr s)
  else if (0 <? o_max o) && (o_max o <=? s_mcollected s) then Some (inr s)
  else
  let opened := s_opened s + 1 in
  match raw name with
  | None => Some (inl tt)
  | Some r =>
      f <- fill_from (S (rd_len r)) r (s_buf s) ;;
      match f with
      | FillErr _ => Some (inl tt)
      | FillOk buf data =>
          '(re', (has, ms, mc)) <-
            grep2 (fun m b => match_bytes fuel m b true true)
                  (search_cb o (s_found s) (s_collected s)) (o_nctx o)
                  (s_re s) (false, [], s_mcollected s) data ;;
          if negb has then
            Some (inr (mkS re' (s_fre s) (s_xre s) (Some buf) (s_results s) opened (s_found s) (s_collected s) mc))
          else
            let found := s_found s + 1 in
            match ms with
            | [] => Some (inr (mkS re' (s_fre s) (s_xre s) (Some buf) (s_results s) opened found (s_collected s) mc))
            | _ =>
                Some (inr (mkS re' (s_fre s) (s_xre s) (Some buf)
                             (s_results s ++ [mkFM name ms (contains_string auto name)])
                             opened found (s_collected s + 1) mc))
            end
      end
  end.

Fixpoint search_files (fuel : nat) (o : sopts) (raw : str -> option reader) (auto : list str)
  (ix : index) (s : sstate) (files : list N) : option (unit + sstate) :=
  match files with
  | [] => Some (inr s)
  | f :: rest =>
      r <- search_file fuel o raw auto ix s f ;;
      match r with
      | inl _ => Some (inl tt)
      | inr s' => search_files fuel o raw auto ix s' rest
      end
  end.

(** index.go:146-257. [None]: the process terminated; [Some None]: an error. *)
Definition search (fuel : nat) (o : sopts) (raw : str -> option reader) (auto : list str) (rev : str)
  (ix : index) (q : query) (re : matcher) (fre xre : option matcher) : option (option response) :=
  files <- posting_query ix q None ;;
  r <- search_files fuel o raw auto ix (mkS re fre xre None [] 0 0 0 0) (slice_list files) ;;
  match r with
  | inl _ => Some None
  | inr s => Some (Some (mkResp (s_results s) (s_found s) (s_opened s) rev))
  end.
