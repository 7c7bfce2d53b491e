(** index/grep.go: reading a file into memory and reporting its matching lines with
    context. gzip (grep2File, 47-62) is not modelled: the reader delivers the
    uncompressed contents. The chunked variant [grep] (192-252), which nothing calls, is in
    Model/GrepChunk.v. *)
From Verif Require Import Model.Base.
Local Open Scope N_scope.

(** ** Readers *)
(** What a reader still has to deliver: chunks, then end of file or an error, which it
    repeats when asked again. A chunk flagged [true] may be returned together with
    whatever error follows it (io.Reader allows both). *)
Inductive reader :=
| REof
| RFail
| RChunk (b : bytes) (with_next : bool) (rest : reader).
Inductive rerr := NoErr | ErrEof | ErrOther.

(** One call Read(p) with len(p) = n. *)
Definition rd_read (r : reader) (n : nat) : bytes * rerr * reader :=
  match r with
  | REof => ([], ErrEof, r)
  | RFail => ([], ErrOther, r)
  | RChunk b w rest =>
      if Nat.leb (length b) n then
        (b, match w, rest with
            | true, REof => ErrEof
            | true, RFail => ErrOther
            | _, _ => NoErr
            end, rest)
      else (firstn n b, NoErr, RChunk (skipn n b) w rest)
  end.

Fixpoint rd_size (r : reader) : nat :=
  match r with RChunk _ _ rest => S (rd_size rest) | _ => 0 end.

(** io.ReadFull (standard library: ReadAtLeast with min = len(buf)). *)
Inductive full_err := FNil | FEof | FUnexpected | FOther.
Fixpoint read_full_loop (fuel : nat) (r : reader) (want : nat) (got : bytes) : bytes * rerr * reader :=
  if Nat.leb want (length got) then (got, NoErr, r)
  else
    match fuel with
    | O => (got, ErrOther, r)
    | S f =>
        let '(d, e, r') := rd_read r (want - length got) in
        match e with
        | NoErr => read_full_loop f r' want (got ++ d)
        | _ => (got ++ d, e, r')
        end
    end.
Definition read_full (r : reader) (want : nat) : bytes * full_err * reader :=
  let '(d, e, r') := read_full_loop (S (rd_size r)) r want [] in
  (d, if Nat.leb want (length d) then FNil
      else match e with
           | NoErr => FNil
           | ErrEof => if Nat.ltb 0 (length d) then FUnexpected else FEof
           | ErrOther => FOther
           end, r').

(** copy(buf[off:], d) *)
Definition write_at (buf : bytes) (off : nat) (d : bytes) : bytes :=
  firstn off buf ++ d ++ skipn (off + length d) buf.

(** grep.go:70-84; [buf] is g.buf. Result: the new g.buf and the contents, or an error. *)
Inductive fill_res := FillOk (buf data : bytes) | FillErr (buf : bytes).
Fixpoint fill_loop (fuel : nat) (r : reader) (buf : bytes) (off : nat) : option fill_res :=
  match fuel with
  | O => None
  | S f =>
      let '(d, e, r') := read_full r (length buf - off) in
      let buf := write_at buf off d in
      match e with
      | FUnexpected | FEof => Some (FillOk buf (firstn (off + length d) buf))
      | FOther => Some (FillErr buf)
      | FNil =>
          (* grow the storage *)
          fill_loop f r' (buf ++ repeat 0 (length buf)) (off + length d)
      end
  end.
(** grep.go:65-68; [None] is a grepper not used before. *)
Definition fill_from (fuel : nat) (r : reader) (gbuf : option bytes) : option fill_res :=
  fill_loop fuel r (match gbuf with Some b => b | None => repeat 0 (N.to_nat (2 ^ 20)) end) 0.

(** ** Lines *)
(** bytes.IndexByte / bytes.Index(b, nl) *)
Fixpoint index_nl (b : bytes) : option nat :=
  match b with
  | [] => None
  | c :: r => if c =? 10 then Some O else option_map S (index_nl r)
  end.
(** bytes.LastIndex(b, nl) *)
Fixpoint last_index_nl (b : bytes) : option nat :=
  match b with
  | [] => None
  | c :: r =>
      match last_index_nl r with
      | Some i => Some (S i)
      | None => if c =? 10 then Some O else None
      end
  end.

(** grep.go:18-29 *)
Fixpoint count_lines_f (fuel : nat) (b : bytes) : nat :=
  match fuel with
  | O => O
  | S f => match index_nl b with
           | None => O
           | Some i => S (count_lines_f f (skipn (i + 1) b))
           end
  end.
Definition count_lines (b : bytes) : nat := count_lines_f (S (length b)) b.

(** grep.go:87-107: [last_n_loop] runs the remaining [n] iterations; the result slice is
    filled from its end. *)
Fixpoint last_n_loop (n : nat) (buf : bytes) (acc : list bytes) : list bytes :=
  match n with
  | O => acc
  | S n' =>
      match last_index_nl buf with
      | None => match buf with [] => acc | _ => buf :: acc end
      | Some m => last_n_loop n' (firstn m buf) (skipn (m + 1) buf :: acc)
      end
  end.
Definition last_n_lines (buf : bytes) (n : nat) : list bytes :=
  match buf with [] => [] | _ => last_n_loop n buf [] end.

(** grep.go:109-129 *)
Fixpoint first_n_loop (n : nat) (buf : bytes) : list bytes :=
  match n with
  | O => []
  | S n' =>
      match index_nl buf with
      | None => match buf with [] => [] | _ => [buf] end
      | Some m => firstn m buf :: first_n_loop n' (skipn (m + 1) buf)
      end
  end.
Definition first_n_lines (buf : bytes) (n : nat) : list bytes :=
  match buf with [] => [] | _ => first_n_loop n buf end.

(** bytes.TrimRight(b, "\n") *)
Fixpoint trim_right_nl (b : bytes) : bytes :=
  match b with
  | [] => []
  | c :: r =>
      match trim_right_nl r with
      | [] => if c =? 10 then [] else [c]
      | r' => c :: r'
      end
  end.

(** ** Reporting *)
(** The arguments of the callback. *)
Record hit := mkHit { h_line : bytes; h_no : nat; h_before : list bytes; h_after : list bytes }.

(** grep.go:134-187 after fillFrom. [mt s buf] is re.Match(buf, true, true) on matcher
    state [s] ([None]: no match); [fn] is the callback with its captured variables as
    state [A]: it answers whether to go on (its error result is always nil in
    index.go:203-222). [fuel] bounds the iterations. *)
Fixpoint grep2_loop {S A} (mt : S -> bytes -> option (S * option nat)) (fn : A -> hit -> A * bool)
  (nctx : nat) (fuel : nat) (s : S) (a : A) (lineno : nat) (buf : bytes) : option (S * A) :=
  match fuel with
  | O => None
  | Datatypes.S f =>
      match buf with
      | [] => Some (s, a)
      | _ =>
          '(s', r) <- mt s buf ;;
          match r with
          | None => Some (s', a)
          | Some m =>
              let str := match last_index_nl (firstn m buf) with Some i => (i + 1)%nat | None => O end in
              let endl := (str - 1)%nat in
              let end_ := Nat.min (m + 1) (length buf) in
              let lineno := (lineno + count_lines (firstn str buf))%nat in
              let '(a', more) :=
                fn a (mkHit (trim_right_nl (firstn (end_ - str) (skipn str buf)))
                            (lineno + 1)
                            (last_n_lines (firstn endl buf) nctx)
                            (first_n_lines (skipn end_ buf) nctx)) in
              if more : bool then grep2_loop mt fn nctx f s' a' (lineno + 1) (skipn end_ buf)
              else Some (s', a')
          end
      end
  end.

Definition grep2 {S A} mt (fn : A -> hit -> A * bool) nctx (s : S) (a : A) (buf : bytes) : option (S * A) :=
  grep2_loop mt fn nctx (Datatypes.S (length buf)) s a 0 buf.
