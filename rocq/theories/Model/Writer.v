(** codesearch/index/write.go: IndexWriter. The bufWriters nameData, nameIndex,
    postIndex and main are represented by the bytes written to them; that this is
    what a bufWriter does is the subject of Model/BufWriter.v (property C13).
    Verbose/LogSkip logging is not modelled. Removal of temporary files and write
    errors (log.Fatal) are not modelled. *)
From Verif Require Import Model.Base Model.Codec Model.Sparse Model.Posts.
Local Open Scope N_scope.

(** write.go:619-632 *)
Definition valid_utf8_pair (c1 c2 : N) : bool :=
  if c1 <? 0x80 then (c2 <? 0x80) || ((0xc0 <=? c2) && (c2 <? 0xf8))
  else if c1 <? 0xc0 then c2 <? 0xf8
  else if c1 <? 0xf8 then (0x80 <=? c2) && (c2 <? 0xc0)
  else false.

(** write.go:96-102 *)
Definition max_file_len : N := 2^25.
Definition max_line_len : N := 2000.
Definition max_text_trigrams : N := 20000.

(** float32(x) for a non-negative integer x: round to 24 significant bits, ties to
    even. *)
Definition to_f32 (x : N) : N :=
  if x <? 2^24 then x
  else
    let k := N.log2 x - 23 in
    let q := x / 2^k in
    let rem := x mod 2^k in
    let half := 2^(k-1) in
    let up := (half <? rem) || ((half =? rem) && N.odd q) in
    (if up then q + 1 else q) * 2^k.

(** [float32(a)/float32(b) > 0.1] in float32 arithmetic (write.go:186-187, 195-196).
    The constant 0.1 is the float32 13421773 * 2^-27. Rounding to nearest-even is
    monotone and the tie between 13421773 and 13421774 goes to the (even) latter, so
    the rounded quotient exceeds 0.1f exactly when the exact quotient is at least
    (13421773 + 1/2) * 2^-27 = 26843547 * 2^-28. 0/0 is NaN (comparison false),
    a/0 with a > 0 is +Inf (comparison true). *)
Definition ratio_gt_tenth (a b : N) : bool :=
  let fa := to_f32 a in
  let fb := to_f32 b in
  if fb =? 0 then negb (fa =? 0)
  else 26843547 * fb <=? fa * 2^28.

Inductive skip_reason := InvalidUTF8 | TooLong | TrigramRatio | LongLines.

(** Error result of an io.Reader's Read. *)
Inductive read_err := ErrNil | ErrEOF | ErrOther.

(** One result of f.Read: the bytes read and the error. *)
Definition read_ev := (bytes * read_err)%type.

(** Local variables of the scan loop (write.go:125-135). *)
Record scan := mkScan {
  sc_tv : N; sc_n : N; sc_linelen : N; sc_numlines : N; sc_longlines : N;
  sc_set : sset
}.

Definition scan0 (s : sset) : scan := mkScan 0 0 0 0 0 (reset s).

Inductive scan_res :=
| Running (st : scan)
| Skip (r : skip_reason) (s : sset)
| ReadFail (s : sset).     (* "return" with the empty string after a read error *)

(** One iteration of write.go:137-183 with the byte [c] available. After
    [tv = (tv << 8) & (1<<24 - 1)] the low byte is zero, so [tv |= c] adds c. *)
Definition scan_byte (st : scan) (c : N) : option scan_res :=
  let tv := (sc_tv st * 2^8) mod 2^24 + c in
  let n := sc_n st + 1 in
  s <- (if 3 <=? n then add (sc_set st) tv else Some (sc_set st)) ;;
  Some
    (if negb (valid_utf8_pair ((tv / 2^8) mod 256) (tv mod 256)) then Skip InvalidUTF8 s
     else if max_file_len <? n then Skip TooLong s
     else
       let linelen := sc_linelen st + 1 in
       if c =? 10 then
         Running (mkScan tv n 0 (sc_numlines st + 1)
                    (if max_line_len <? linelen then sc_longlines st + 1 else sc_longlines st) s)
       else Running (mkScan tv n linelen (sc_numlines st) (sc_longlines st) s)).

Fixpoint scan_bytes (st : scan) (b : bytes) : option scan_res :=
  match b with
  | [] => Some (Running st)
  | c :: rest =>
      r <- scan_byte st c ;;
      match r with
      | Running st' => scan_bytes st' rest
      | _ => Some r
      end
  end.

(** The whole loop against a sequence of Read results (write.go:139-154); when the
    sequence is used up the reader is at EOF. *)
Fixpoint scan_reads (st : scan) (evs : list read_ev) : option scan_res :=
  match evs with
  | [] => Some (Running st)
  | ([], ErrEOF) :: _ => Some (Running st)
  | ([], _) :: _ => Some (ReadFail (sc_set st))
  | (b, _) :: rest =>
      r <- scan_bytes st b ;;
      match r with
      | Running st' => scan_reads st' rest
      | _ => Some r
      end
  end.

(** write.go:185-203 *)
Definition scan_verdict (st : scan) : option skip_reason :=
  if 0 <? sc_n st then
    if ratio_gt_tenth (set_len (sc_set st)) (sc_n st)
       && (max_text_trigrams <? set_len (sc_set st)) then Some TrigramRatio
    else if ratio_gt_tenth (sc_longlines st) (sc_numlines st) then Some LongLines
    else None
  else None.

(** write.go:36-58 *)
Record iw := mkIW {
  w_set : sset;
  w_paths : list str;
  w_nameData : bytes;
  w_nameIndex : bytes;
  w_numName : N;
  w_post : list N;
  w_postFile : list (list N)
}.

(** write.go:63-73; [mem] is the memory behind the sparse set. *)
Definition iw_create (mem : N -> N) : iw :=
  mkIW (new_set (2^24) mem) [] [] [] 0 [] [].

(** write.go:105-107 *)
Definition add_paths (w : iw) (ps : list str) : iw :=
  mkIW (w_set w) (w_paths w ++ ps) (w_nameData w) (w_nameIndex w) (w_numName w)
       (w_post w) (w_postFile w).

(** Offset check of bufWriter.offset (write.go:557-564) on the bytes so far. *)
Definition off32 (b : bytes) : option N :=
  if u32 (nlen b) =? nlen b then Some (nlen b) else None.

(** write.go:277-288 *)
Definition add_name (w : iw) (name : str) : option (N * iw) :=
  if existsb (N.eqb 0) name then None
  else
    off <- off32 (w_nameData w) ;;
    Some (u32 (w_numName w),
          mkIW (w_set w) (w_paths w)
               (w_nameData w ++ name ++ [0])
               (w_nameIndex w ++ put_uint32 off)
               (w_numName w + 1) (w_post w) (w_postFile w)).

(** write.go:292-315. [&ix.post[0]] panics on an empty buffer. *)
Definition flush_post (w : iw) : option iw :=
  match w_post w with
  | [] => None
  | _ =>
      p <- sort_post (w_post w) ;;
      Some (mkIW (w_set w) (w_paths w) (w_nameData w) (w_nameIndex w) (w_numName w)
                 [] (w_postFile w ++ [p]))
  end.

(** write.go:212-217; [cap] is cap(ix.post), npost in production (write.go:60). *)
Fixpoint add_posts (cap : nat) (w : iw) (id : N) (ts : list N) : option iw :=
  match ts with
  | [] => Some w
  | t :: rest =>
      w1 <- (if Nat.leb cap (length (w_post w)) then flush_post w else Some w) ;;
      add_posts cap
        (mkIW (w_set w1) (w_paths w1) (w_nameData w1) (w_nameIndex w1) (w_numName w1)
              (w_post w1 ++ [make_pe t id]) (w_postFile w1))
        id rest
  end.

Definition with_set (w : iw) (s : sset) : iw :=
  mkIW s (w_paths w) (w_nameData w) (w_nameIndex w) (w_numName w) (w_post w) (w_postFile w).

(** write.go:123-220. Result: the reason string ([None] is the empty string, also
    returned after a read error) and the new state. *)
Definition iw_add (cap : nat) (w : iw) (name : str) (evs : list read_ev)
  : option (option skip_reason * iw) :=
  r <- scan_reads (scan0 (w_set w)) evs ;;
  match r with
  | ReadFail s => Some (None, with_set w s)
  | Skip why s => Some (Some why, with_set w s)
  | Running st =>
      match scan_verdict st with
      | Some why => Some (Some why, with_set w (sc_set st))
      | None =>
          nw <- add_name (with_set w (sc_set st)) name ;;
          w' <- add_posts cap (snd nw) (fst nw) (dense (sc_set st)) ;;
          Some (None, w')
      end
  end.

(** write.go:346-350, the inner loop: [fuel] bounds the iterations. Returns the entry
    that ended the list, the heap, the number of files and the output. *)
Fixpoint merge_list (fuel : nat) (h : heap) (e t fileid nfile : N) (out : bytes)
  : option (N * heap * N * bytes) :=
  match fuel with
  | O => None
  | S fuel' =>
      if (pe_trigram e =? t) && negb (t =? max_trigram) then
        let out := out ++ put_uvarint (u32 (pe_fileid e + 2^32 - fileid)) in
        r <- heap_next h ;;
        merge_list fuel' (snd r) (fst r) t (pe_fileid e) (u32 (nfile + 1)) out
      else Some (e, h, nfile, out)
  end.

(** write.go:334-361, the outer loop. [out] is everything written to main so far,
    [pidx] everything written to postIndex. *)
Fixpoint merge_lists (fuel : nat) (h : heap) (e offset0 : N) (out pidx : bytes)
  : option (bytes * bytes) :=
  match fuel with
  | O => None
  | S fuel' =>
      off <- off32 out ;;
      let offset := u32 (off + 2^32 - offset0) in
      let t := pe_trigram e in
      let out := out ++ put_trigram t in
      r <- merge_list fuel h e t (2^32 - 1) 0 out ;;
      match r with
      | (e', h', nfile, out') =>
          let out' := out' ++ put_uvarint 0 in
          let pidx := pidx ++ put_trigram t ++ put_uint32 nfile ++ put_uint32 offset in
          if t =? max_trigram then Some (out', pidx)
          else merge_lists fuel' h' e' offset0 out' pidx
      end
  end.

Fixpoint heap_of (h : heap) (ms : list (list N)) : option heap :=
  match ms with
  | [] => Some h
  | m :: rest => h' <- heap_add h m ;; heap_of h' rest
  end.

(** Number of entries still to merge (only used as loop bound). *)
Definition total_posts (w : iw) : nat :=
  (length (concat (w_postFile w)) + length (w_post w))%nat.

(** write.go:319-362 *)
Definition merge_post (w : iw) (out : bytes) : option (bytes * bytes) :=
  h1 <- heap_of [] (w_postFile w) ;;
  p <- sort_post (w_post w) ;;
  h <- heap_add h1 p ;;
  r <- heap_next h ;;
  offset0 <- off32 out ;;
  merge_lists (S (S (total_posts w))) (snd r) (fst r) offset0 out [].

(** read.go:76-79 *)
Definition magic : bytes :=       (* "csearch index 1\n" *)
  [99;115;101;97;114;99;104;32;105;110;100;101;120;32;49;10].
Definition trailer_magic : bytes := (* "\ncsearch trailr\n" *)
  [10;99;115;101;97;114;99;104;32;116;114;97;105;108;114;10].

(** write.go:229-233 *)
Definition paths_bytes (ps : list str) : bytes :=
  concat (map (fun p => p ++ [0]) ps) ++ [0].

(** write.go:223-261. The final offset() call is in the log.Printf of line 258. *)
Definition iw_flush (w0 : iw) : option bytes :=
  nw <- add_name w0 [] ;;
  let w := snd nw in
  let out := magic in
  off0 <- off32 out ;;
  let out := out ++ paths_bytes (w_paths w) in
  off1 <- off32 out ;;
  let out := out ++ w_nameData w in
  off2 <- off32 out ;;
  r <- merge_post w out ;;
  let out := fst r in
  off3 <- off32 out ;;
  let out := out ++ w_nameIndex w in
  off4 <- off32 out ;;
  let out := out ++ snd r in
  let out := out ++ put_uint32 off0 ++ put_uint32 off1 ++ put_uint32 off2
                 ++ put_uint32 off3 ++ put_uint32 off4 in
  let out := out ++ trailer_magic in
  _ <- off32 out ;;
  Some out.
