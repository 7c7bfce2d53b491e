(** The line scan over a buffer of fixed size: [grep] of index/grep.go:192-252 and
    Grep.Reader of codesearch/regexp/match.go:399-473, which are the same loop with
    different actions per line. Readers and io.ReadFull are those of Model/Grep.v. *)
From Verif Require Import Model.Base Model.Grep.
Local Open Scope N_scope.

(** What the callback answers: (true, nil), (false, nil) or an error. *)
Inductive verdict := Go | Stop | Fail.
(** How the scan ends: nil at the end of the input or when the callback stops, the
    callback's error, or the reader's error. *)
Inductive ending := EndNil | EndStop | EndCallback | EndRead.

Section Chunks.
Context {S A : Type}.
(** re.Match(b, beginText, endText) on matcher state [S]. *)
Variable mt : S -> bytes -> bool -> bool -> option (S * option nat).
Variable fn : A -> bytes -> nat -> A * verdict.
(** Whether lines are counted: needLineno of match.go:405, always so in grep.go. *)
Variable need : bool.
Definition counted (n : nat) : nat := if need then n else 0%nat.

(** grep.go:214-236, match.go:424-456. [rem] is buf[chunkStart:end]; positions are
    relative to chunkStart. The result carries beginText, lineno and what is left of the
    chunk (buf[chunkStart:end] after the loop). *)
Inductive chunk_res := Done (bt : bool) (lineno : nat) (rem : bytes) | Return (e : ending).
Fixpoint chunk_loop (fuel : nat) (s : S) (a : A) (bt et : bool) (lineno : nat) (rem : bytes) : option (S * A * chunk_res) :=
  match rem with
  | [] => Some (s, a, Done bt lineno [])
  | _ =>
      match fuel with
      | O => None
      | Datatypes.S f =>
          '(s', r) <- mt s rem bt et ;;
          match r with
          | None => Some (s', a, Done false lineno rem)
          | Some m1 =>
              let line_start := match last_index_nl (firstn m1 rem) with Some i => (i + 1)%nat | None => O end in
              let line_end := Nat.min (m1 + 1) (length rem) in
              let lineno := (lineno + counted (count_lines (firstn line_start rem)))%nat in
              let line := firstn (line_end - line_start) (skipn line_start rem) in
              match fn a line lineno with
              | (a', Fail) => Some (s', a', Return EndCallback)
              | (a', Stop) => Some (s', a', Return EndStop)
              | (a', Go) => chunk_loop f s' a' false et (lineno + counted 1) (skipn line_end rem)
              end
          end
      end
  end.

(** grep.go:204-249, match.go:415-469. [cap] is the size of g.buf; [buf] is what is kept
    from the previous round, at the start of g.buf. *)
Fixpoint chunks (fuel cap : nat) (s : S) (a : A) (r : reader) (buf : bytes) (bt et : bool) (lineno : nat) : option (S * A * ending) :=
  match fuel with
  | O => None
  | Datatypes.S f =>
      let '(d, e, r') := read_full r (cap - length buf) in
      let buf := buf ++ d in
      let end_ := match e with
                  | FNil => match last_index_nl buf with Some i => (i + 1)%nat | None => O end
                  | _ => length buf
                  end in
      let et := match e with FNil => et | _ => true end in
      '(s', a', res) <- chunk_loop (Datatypes.S (length buf)) s a bt et lineno (firstn end_ buf) ;;
      match res with
      | Return x => Some (s', a', x)
      | Done bt' lineno' rem =>
          let lineno := match e with FNil => (lineno' + counted (count_lines rem))%nat | _ => lineno' end in
          let buf := skipn end_ buf in
          match e, buf with
          | FNil, _ | _, _ :: _ => chunks f cap s' a' r' buf bt' et lineno
          | FOther, [] => Some (s', a', EndRead)
          | _, [] => Some (s', a', EndNil)
          end
      end
  end.
End Chunks.

(** grep.go:192-202 *)
Definition grep_chunked {S A} mt (fn : A -> bytes -> nat -> A * verdict) (fuel cap : nat) (s : S) (a : A) (r : reader) :=
  chunks mt fn true fuel cap s a r [] true false 1.

(** ** Grep.Reader *)
(** match.go:352-365: flags, the output so far and g.Match. *)
Record grep_flags := mkFlags { fl_L : bool; fl_C : bool; fl_N : bool; fl_H : bool }.
Record grep_out := mkOut { g_stdout : bytes; g_stderr : bytes; g_match : bool; g_count : nat }.

(** fmt's %d for the line numbers is a parameter [dec]; so is %v for the read error
    ([errmsg]). *)
Section GrepReader.
Variable dec : nat -> bytes.
Variable errmsg : bytes.
Variable fl : grep_flags.
Variable name : bytes.
(** match.go:411-414 *)
Definition prefix : bytes := if fl_H fl then [] else name ++ [58].
Definition put (o : grep_out) (b : bytes) : grep_out := mkOut (g_stdout o ++ b) (g_stderr o) (g_match o) (g_count o).

(** match.go:431-452; the early return for -l (432-435) precedes the computation of the
    line, which has no effect. *)
Definition on_line (o : grep_out) (line : bytes) (lineno : nat) : grep_out * verdict :=
  let o := mkOut (g_stdout o) (g_stderr o) true (g_count o) in
  if fl_L fl then (put o (name ++ [10]), Stop)
  else if fl_C fl then (mkOut (g_stdout o) (g_stderr o) (g_match o) (S (g_count o)), Go)
  else if fl_N fl then (put o (prefix ++ dec lineno ++ [58] ++ line), Go)
  else (put o (prefix ++ line), Go).

(** match.go:399-473; the count starts at 0, [o] is the state of the Grep before. *)
Definition grep_reader {S} mt (fuel cap : nat) (s : S) (o : grep_out) (r : reader) : option (S * grep_out) :=
  '(s', o', e) <- chunks mt on_line (fl_N fl) fuel cap s (mkOut (g_stdout o) (g_stderr o) (g_match o) 0) r [] true false 1 ;;
  match e with
  | EndStop | EndCallback => Some (s', o')
  | EndNil | EndRead =>
      let o' := match e with EndRead => mkOut (g_stdout o') (g_stderr o' ++ name ++ [58; 32] ++ errmsg ++ [10]) (g_match o') (g_count o') | _ => o' end in
      Some (s', if (fl_C fl && Nat.ltb 0 (g_count o'))%bool then put o' (name ++ [58; 32] ++ dec (g_count o') ++ [10]) else o')
  end.
End GrepReader.
