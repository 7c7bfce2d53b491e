(** codesearch/index/read.go: Index. The memory-mapped file is its bytes; unmapping
    and file handling are not modelled. [None] is log.Fatal ("corrupt index") or a
    run-time panic. *)
From Verif Require Import Model.Base Model.Codec Model.Writer Model.Query.
Local Open Scope N_scope.

(** read.go:82-92 *)
Record index := mkIndex {
  ix_data : bytes;
  ix_pathData : N; ix_nameData : N; ix_postData : N; ix_nameIndex : N; ix_postIndex : N;
  ix_numName : Z; ix_numPost : N
}.

(** read.go:115-124 with n >= 0. int is 64 bits, so [uint32(o) != off] is false. *)
Definition slice_n (d : bytes) (off : N) (n : nat) : option bytes :=
  sub_slice d (N.to_nat off) n.

(** read.go:121 with n < 0: [d[o:]] panics if o > len(d). *)
Definition slice_from (d : bytes) (off : N) : option bytes :=
  if off <=? nlen d then Some (skipn (N.to_nat off) d) else None.

(** read.go:127-129 *)
Definition rd_uint32 (d : bytes) (off : N) : option N :=
  s <- slice_n d off 4 ;; get_uint32 s.

(** read.go:94 *)
Definition post_entry_size : N := 11.

(** read.go:96-111 *)
Definition ix_open (d : bytes) : option index :=
  let l := length d in
  if Nat.ltb l (16 + length trailer_magic) then None
  else
    t <- sub_slice d (l - length trailer_magic) (length trailer_magic) ;;
    if negb (str_eqb t trailer_magic) then None
    else
      (* len(d) - 16 - 20 may be negative: uint32() of it then wraps *)
      let n := u32 (nlen d + 2^32 - 36) in
      a <- rd_uint32 d n ;;
      b <- rd_uint32 d (u32 (n + 4)) ;;
      c <- rd_uint32 d (u32 (n + 8)) ;;
      e <- rd_uint32 d (u32 (n + 12)) ;;
      f <- rd_uint32 d (u32 (n + 16)) ;;
      Some (mkIndex d a b c e f
              (Z.of_N (u32 (f + 2^32 - e) / 4) - 1)%Z
              (u32 (n + 2^32 - f) / post_entry_size)).

(** bytes.IndexByte(str, 0) and [str[:i]] (read.go:165-172): the bytes before the
    first NUL, [None] if there is none. *)
Fixpoint until_nul (s : bytes) : option bytes :=
  match s with
  | [] => None
  | c :: rest => if c =? 0 then Some [] else r <- until_nul rest ;; Some (c :: r)
  end.

(** read.go:165-172 *)
Definition ix_str (d : bytes) (off : N) : option bytes :=
  s <- slice_from d off ;; until_nul s.

(** read.go:160-163, 175-177 *)
Definition ix_name (ix : index) (fileid : N) : option str :=
  off <- rd_uint32 (ix_data ix) (u32 (ix_nameIndex ix + 4 * fileid)) ;;
  ix_str (ix_data ix) (u32 (ix_nameData ix + off)).

(** read.go:145-157; fuel bounds the iterations. *)
Fixpoint paths_from (fuel : nat) (d : bytes) (off : N) : option (list str) :=
  match fuel with
  | O => None
  | S fuel' =>
      s <- ix_str d off ;;
      match s with
      | [] => Some []
      | _ => r <- paths_from fuel' d (u32 (off + nlen s + 1)) ;; Some (s :: r)
      end
  end.

Definition ix_paths (ix : index) : option (list str) :=
  paths_from (S (length (ix_data ix))) (ix_data ix) (ix_pathData ix).

(** sort.Search (standard library): smallest i in [0,n) with f(i), by bisection. *)
Fixpoint search_loop (fuel : nat) (f : N -> option bool) (i j : N) : option N :=
  if j <=? i then Some i
  else
    match fuel with
    | O => None
    | S fuel' =>
        let h := (i + j) / 2 in
        b <- f h ;;
        if b : bool then search_loop fuel' f i h else search_loop fuel' f (h + 1) j
    end.

Definition sort_search (n : N) (f : N -> option bool) : option N :=
  search_loop (S (N.to_nat n)) f 0 n.

(** The trigram of the i-th index entry, read.go:203-204 (and 192). *)
Definition entry_trigram (d : bytes) (i : N) : option N :=
  get_trigram (skipn (N.to_nat (i * post_entry_size)) d).

(** read.go:199-218 *)
Definition find_list (ix : index) (t : N) : option (N * N) :=
  d <- slice_n (ix_data ix) (ix_postIndex ix) (N.to_nat (post_entry_size * ix_numPost ix)) ;;
  i <- sort_search (ix_numPost ix) (fun i => t' <- entry_trigram d i ;; Some (t <=? t')) ;;
  if ix_numPost ix <=? i then Some (0, 0)
  else
    t' <- entry_trigram d i ;;
    if negb (t' =? t) then Some (0, 0)
    else
      let e := skipn (N.to_nat (i * post_entry_size)) d in
      c <- get_uint32 (skipn 3 e) ;;
      o <- get_uint32 (skipn 7 e) ;;
      Some (c, o).

(** read.go:220-227. [pr_d = None] is the nil slice of an uninitialised reader. *)
Record post_reader := mkPR {
  pr_count : N; pr_fileid : N; pr_d : option bytes; pr_restrict : option (list N)
}.

(** read.go:229-240 *)
Definition pr_init (ix : index) (t : N) (restrict : option (list N)) : option post_reader :=
  co <- find_list ix t ;;
  if fst co =? 0 then Some (mkPR 0 0 None None)
  else
    d <- slice_from (ix_data ix) (u32 (ix_postData ix + snd co + 3)) ;;
    Some (mkPR (fst co) (2^32 - 1) (Some d) restrict).

(** read.go:257-261: drop the restriction entries below fileid. *)
Fixpoint drop_below (r : list N) (x : N) : list N :=
  match r with
  | [] => []
  | y :: r' => if y <? x then drop_below r' x else r
  end.

(** read.go:246-274. The loop runs at most [count] times: recursion on it. Result:
    (more?, reader). *)
Fixpoint pr_next_loop (count : nat) (fileid : N) (d : option bytes) (restrict : option (list N))
  : option (bool * post_reader) :=
  match count with
  | O =>
      match d with
      | None => Some (false, mkPR 0 (2^32 - 1) d restrict)
      | Some [] => None
      | Some (b :: _) =>
          if b =? 0 then Some (false, mkPR 0 (2^32 - 1) d restrict) else None
      end
  | S c =>
      match get_uvarint (match d with Some x => x | None => [] end) with
      | None => None
      | Some (delta64, n) =>
          let delta := u32 delta64 in
          if delta =? 0 then None
          else
            let d' := Some (skipn n (match d with Some x => x | None => [] end)) in
            let fileid := u32 (fileid + delta) in
            match restrict with
            | None => Some (true, mkPR (N.of_nat c) fileid d' None)
            | Some r =>
                let r' := drop_below r fileid in
                match r' with
                | y :: _ =>
                    if y =? fileid then Some (true, mkPR (N.of_nat c) fileid d' (Some r'))
                    else pr_next_loop c fileid d' (Some r')
                | [] => pr_next_loop c fileid d' (Some r')
                end
            end
      end
  end.

Definition pr_next (r : post_reader) : option (bool * post_reader) :=
  pr_next_loop (N.to_nat (pr_count r)) (pr_fileid r) (pr_d r) (pr_restrict r).

(** All file ids a reader delivers, in order: the [for r.next()] loops of read.go:284,
    299 and 321. Each call consumes at least one of [count]. *)
Fixpoint pr_all (fuel : nat) (r : post_reader) : option (list N) :=
  match fuel with
  | O => None
  | S fuel' =>
      x <- pr_next r ;;
      if fst x then rest <- pr_all fuel' (snd x) ;; Some (pr_fileid (snd x) :: rest)
      else Some []
  end.

Definition pr_ids (ix : index) (t : N) (restrict : option (list N)) : option (list N) :=
  r <- pr_init ix t restrict ;;
  pr_all (S (N.to_nat (pr_count r))) r.

(** read.go:276-288 *)
Definition posting_list (ix : index) (t : N) (restrict : option (list N)) : option (list N) :=
  pr_ids ix t restrict.

(** read.go:294-310, the loop over the ids [ids] with the rest [l] of list. The result
    is written over the beginning of list, which is only read at later positions. *)
Fixpoint and_loop (ids l : list N) : list N :=
  match ids with
  | [] => []
  | id :: ids' =>
      match drop_below l id with
      | y :: l' => if y =? id then id :: and_loop ids' l' else and_loop ids' (y :: l')
      | [] => and_loop ids' []
      end
  end.

Definition posting_and (ix : index) (l : list N) (t : N) (restrict : option (list N))
  : option (list N) :=
  ids <- pr_ids ix t restrict ;; Some (and_loop ids l).

(** read.go:323-326: move the entries below id to the output. *)
Fixpoint take_below (r : list N) (x : N) : list N :=
  match r with
  | [] => []
  | y :: r' => if y <? x then y :: take_below r' x else []
  end.

(** read.go:316-334 *)
Fixpoint or_loop (ids l : list N) : list N :=
  match ids with
  | [] => l
  | id :: ids' =>
      take_below l id ++ id ::
      or_loop ids' (match drop_below l id with
                    | y :: l' => if y =? id then l' else y :: l'
                    | [] => []
                    end)
  end.

Definition posting_or (ix : index) (l : list N) (t : N) (restrict : option (list N))
  : option (list N) :=
  ids <- pr_ids ix t restrict ;; Some (or_loop ids l).

(** read.go:392-411; fuel = len(l1)+len(l2) suffices. *)
Fixpoint merge_or_loop (fuel : nat) (l1 l2 : list N) : list N :=
  match fuel with
  | O => []
  | S f =>
      match l1, l2 with
      | [], [] => []
      | x :: l1', [] => x :: merge_or_loop f l1' l2
      | [], y :: l2' => y :: merge_or_loop f l1 l2'
      | x :: l1', y :: l2' =>
          if x <? y then x :: merge_or_loop f l1' l2
          else if y <? x then y :: merge_or_loop f l1 l2'
          else x :: merge_or_loop f l1' l2'
      end
  end.
Definition merge_or (l1 l2 : list N) : list N :=
  merge_or_loop (length l1 + length l2) l1 l2.

(** [uint32(t[0])<<16 | uint32(t[1])<<8 | uint32(t[2])] (read.go:355, 375): indexing
    a shorter string panics. *)
Definition tri_num (t : str) : option N := get_trigram t.

(** len(list) == 0 for a possibly nil slice. *)
Definition slice_list (l : option (list N)) : list N := match l with Some x => x | None => [] end.
(** A freshly appended-to slice: nil while nothing was appended (mergeOr's [var l]). *)
Definition nil_if_empty (l : list N) : option (list N) := match l with [] => None | _ => Some l end.

(** read.go:354-364, the trigrams of an AND. [inl tt]: the function returned nil. *)
Fixpoint and_tris (ix : index) (restrict : option (list N)) (ts : list str) (l : option (list N))
  : option (unit + option (list N)) :=
  match ts with
  | [] => Some (inr l)
  | t :: rest =>
      tri <- tri_num t ;;
      l' <- (match l with
             | None => posting_list ix tri restrict
             | Some x => posting_and ix x tri restrict
             end) ;;
      match l' with
      | [] => Some (inl tt)
      | _ => and_tris ix restrict rest (Some l')
      end
  end.

(** read.go:374-381, the trigrams of an OR. *)
Fixpoint or_tris (ix : index) (restrict : option (list N)) (ts : list str) (l : option (list N))
  : option (option (list N)) :=
  match ts with
  | [] => Some l
  | t :: rest =>
      tri <- tri_num t ;;
      l' <- (match l with
             | None => posting_list ix tri restrict
             | Some x => posting_or ix x tri restrict
             end) ;;
      or_tris ix restrict rest (Some l')
  end.

(** read.go:340-390. A nil slice is [None]. Lists are never written to after they have
    been handed on (postingAnd overwrites only the list made in the same call), so
    slices are values. *)
Fixpoint posting_query (ix : index) (q : query) (restrict : option (list N)) {struct q}
  : option (option (list N)) :=
  match q with
  | Query QNone _ _ => Some None
  | Query QAll _ _ =>
      match restrict with
      | Some r => Some (Some r)
      | None =>
          if (ix_numName ix <? 0)%Z then None   (* make([]uint32, negative) panics *)
          else Some (Some (map (fun k => u32 (N.of_nat k)) (seq 0 (Z.to_nat (ix_numName ix)))))
      end
  | Query QAnd tri sub =>
      r <- and_tris ix restrict tri None ;;
      match r with
      | inl _ => Some None
      | inr l0 =>
          (fix subs (qs : list query) (l : option (list N)) : option (option (list N)) :=
             match qs with
             | [] => Some l
             | s :: rest =>
                 let l := match l with None => restrict | Some _ => l end in
                 l' <- posting_query ix s l ;;
                 match slice_list l' with
                 | [] => Some None
                 | _ => subs rest l'
                 end
             end) sub l0
      end
  | Query QOr tri sub =>
      l0 <- or_tris ix restrict tri None ;;
      (fix subs (qs : list query) (l : option (list N)) : option (option (list N)) :=
         match qs with
         | [] => Some l
         | s :: rest =>
             l1 <- posting_query ix s restrict ;;
             subs rest (nil_if_empty (merge_or (slice_list l) (slice_list l1)))
         end) sub l0
  end.
