(** codesearch/regexp/match.go: the line matcher, a lazily built DFA over a byte program.

    Queues ([sparse.Set]) are lists of ids in insertion order; that the sparse set
    behaves like this is C08. [nstate.partial] is always zero and is only kept in the
    encoding. Pointers to DFA states are represented by their keys in [m.dstate]. *)
From Verif Require Import Model.Base Model.Codec.
Local Open Scope N_scope.

(** regexp/syntax.Inst after toByteProg (utf.go:21). [IOther] is any opcode the matcher
    ignores (InstRune... do not survive toByteProg). *)
Inductive inst :=
| IAlt (out arg : N)           (* InstAlt, InstAltMatch *)
| INop (out : N)               (* InstCapture, InstNop *)
| IEmpty (arg out : N)         (* InstEmptyWidth *)
| IMatch
| IFail
| IByte (lo hi : N) (fold : bool) (out : N)  (* instByteRange *)
| IOther.
Record prog := mkProg { p_inst : list inst; p_start : N }.

(** &prog.Inst[id]: index out of range panics. *)
Definition inst_at (p : prog) (id : N) : option inst := nth_error (p_inst p) (N.to_nat id).

(** syntax.EmptyOp *)
Definition EmptyBeginLine : N := 1.
Definition EmptyEndLine : N := 2.
Definition EmptyBeginText : N := 4.
Definition EmptyEndText : N := 8.
Definition EmptyWordBoundary : N := 16.
Definition EmptyNoWordBoundary : N := 32.

(** match.go:38-46 *)
Definition flagBOL : N := 1.
Definition flagBOT : N := 4.
Definition flagWord : N := 16.

Record nstate := mkN { n_flag : N; n_q : list N }.

Definition mem_id (id : N) (q : list N) : bool := existsb (N.eqb id) q.

(** match.go:188-206 addq. [fuel] is the recursion depth; every level adds an id. *)
Fixpoint addq (p : prog) (fuel : nat) (q : list N) (id flag : N) : option (list N) :=
  match fuel with
  | O => None
  | S f =>
      if mem_id id q then Some q
      else
        let q := q ++ [id] in
        i <- inst_at p id ;;
        match i with
        | INop out => addq p f q out flag
        | IAlt out arg => q1 <- addq p f q out flag ;; addq p f q1 arg flag
        | IEmpty arg out => if N.ldiff arg flag =? 0 then addq p f q out flag else Some q
        | _ => Some q
        end
  end.
Definition addq_fuel (p : prog) : nat := S (length (p_inst p)).

Fixpoint addq_all (p : prog) (q : list N) (ids : list N) (flag : N) : option (list N) :=
  match ids with
  | [] => Some q
  | id :: r => q1 <- addq p (addq_fuel p) q id flag ;; addq_all p q1 r flag
  end.

(** match.go:148-153 *)
Definition step_empty (p : prog) (runq : list N) (flag : N) : option (list N) :=
  addq_all p [] runq flag.

(** An input byte, or endText (match.go:208). *)
Notation inp := (option N) (only parsing).

(** match.go:168-181: does the range instruction accept the byte. *)
Definition byte_accepts (lo hi : N) (fold : bool) (c : N) : bool :=
  let ch := if fold && ((97 <=? c) && (c <=? 122)) then c - 32 else c in
  (lo <=? ch) && (ch <=? hi).

(** match.go:158-185: (match, nextq). *)
Fixpoint step_byte_loop (p : prog) (runq nextq : list N) (c : inp) (flag : N) (matched : bool)
  : option (bool * list N) :=
  match runq with
  | [] => Some (matched, nextq)
  | id :: r =>
      i <- inst_at p id ;;
      match i with
      | IMatch => step_byte_loop p r nextq c flag true
      | IByte lo hi fold out =>
          match c with
          | None => step_byte_loop p r nextq c flag matched
          | Some b =>
              if byte_accepts lo hi fold b then
                q1 <- addq p (addq_fuel p) nextq out flag ;;
                step_byte_loop p r q1 c flag matched
              else step_byte_loop p r nextq c flag matched
          end
      | _ => step_byte_loop p r nextq c flag matched
      end
  end.
Definition step_byte (p : prog) (runq : list N) (c : inp) (flag : N) : option (bool * list N) :=
  q0 <- addq p (addq_fuel p) [] (p_start p) flag ;;
  step_byte_loop p runq q0 c flag false.

(** match.go:344-349 *)
Definition is_word_byte (c : inp) : bool :=
  match c with
  | None => false
  | Some c => ((65 <=? c) && (c <=? 90)) || ((97 <=? c) && (c <=? 122))
              || ((48 <=? c) && (c <=? 57)) || (c =? 95)
  end.
Definition is_nl (c : inp) : bool := match c with Some c => c =? 10 | None => false end.
Definition is_end (c : inp) : bool := match c with Some _ => false | None => true end.
Definition bit (b : bool) (v : N) : N := if b then v else 0.
Definition has_flag (z f : N) : bool := negb (N.land z f =? 0).

(** match.go:215-241: flags in effect before c. *)
Definition flags_before (zflag : N) (c : inp) : N :=
  let w := has_flag zflag flagWord in
  N.lor (N.lor (bit (has_flag zflag flagBOL) EmptyBeginLine) (bit (has_flag zflag flagBOT) EmptyBeginText))
    (N.lor (if Bool.eqb w (is_word_byte c) then EmptyNoWordBoundary else EmptyWordBoundary)
      (N.lor (bit (is_nl c) EmptyEndLine) (bit (is_end c) (N.lor EmptyEndLine EmptyEndText)))).

(** match.go:60-80 enc. binary.PutUvarint emits 7 bits per byte, least significant
    group first, like [put_uvarint]; all values are below 2^32. sort.Ints: insertion
    sort stands for any sorting algorithm. *)
Fixpoint insert_id (x : N) (l : list N) : list N :=
  match l with
  | [] => [x]
  | y :: r => if x <=? y then x :: l else y :: insert_id x r
  end.
Fixpoint sort_ids (l : list N) : list N :=
  match l with [] => [] | x :: r => insert_id x (sort_ids r) end.
Fixpoint enc_ids (last : N) (ids : list N) : bytes :=
  match ids with
  | [] => []
  | id :: r => put_uvarint (u32 (id + 2^32 - last)) ++ enc_ids id r
  end.
Definition enc (z : nstate) : bytes :=
  put_uvarint 0 ++ put_uvarint (n_flag z) ++ enc_ids (2^32 - 1) (sort_ids (n_q z)).

(** match.go:83-107 dec; bug() panics. [z.q.Add] of an id already present cannot
    happen here; the list simply grows. *)
Fixpoint dec_ids (fuel : nat) (last : N) (b : bytes) : option (list N) :=
  match b with
  | [] => Some []
  | _ =>
      match fuel with
      | O => None
      | S f =>
          '(i, n) <- get_uvarint b ;;
          let id := u32 (last + u32 i) in
          r <- dec_ids f id (skipn n b) ;;
          Some (id :: r)
      end
  end.
Definition dec (s : bytes) : option nstate :=
  '(_, n) <- get_uvarint s ;;
  let b := skipn n s in
  '(fl, n) <- get_uvarint b ;;
  ids <- dec_ids (length s) (2^32 - 1) (skipn n b) ;;
  Some (mkN (u32 fl) ids).

(** match.go:211-264 computeNext up to the final m.cache(next): [inl] is &dmatch. *)
Definition compute_next (p : prog) (key : bytes) (c : inp) : option (unit + nstate) :=
  this <- dec key ;;
  q <- step_empty p (n_q this) (flags_before (n_flag this) c) ;;
  '(matched, nq) <- step_byte p q c (bit (is_nl c) EmptyBeginLine) ;;
  Some (if matched : bool then inl tt
        else inr (mkN (N.lor (bit (is_nl c) flagBOL) (bit (is_word_byte c) flagWord)) nq)).

(** A *dstate: &dmatch or a state of the cache. *)
Inductive dref := RMatch | RKey (k : bytes).

(** match.go:49-54 *)
Record dstate := mkD { d_next : N -> option dref; d_matchNL : bool; d_matchEOT : bool }.
Definition dmap := list (bytes * dstate).

Fixpoint d_find (m : dmap) (k : bytes) : option dstate :=
  match m with
  | [] => None
  | (k', d) :: r => if str_eqb k k' then Some d else d_find r k
  end.
(** In-place update of an existing state. *)
Fixpoint d_upd (m : dmap) (k : bytes) (f : dstate -> dstate) : dmap :=
  match m with
  | [] => []
  | (k', d) :: r => if str_eqb k k' then (k', f d) :: r else (k', d) :: d_upd r k f
  end.
Definition set_nl (v : bool) (d : dstate) := mkD (d_next d) v (d_matchEOT d).
Definition set_eot (v : bool) (d : dstate) := mkD (d_next d) (d_matchNL d) v.
Definition set_next (c : N) (r : dref) (d : dstate) :=
  mkD (fun x => if x =? c then Some r else d_next d x) (d_matchNL d) (d_matchEOT d).
Definition is_match (r : dref) : bool := match r with RMatch => true | RKey _ => false end.

(** match.go:266-278 cache, which calls computeNext (match.go:211), which calls cache.
    [fuel] is the recursion depth; every level adds a state to the map. *)
Fixpoint cache (p : prog) (fuel : nat) (m : dmap) (z : nstate) : option (dmap * bytes) :=
  match fuel with
  | O => None
  | S f =>
      let k := enc z in
      match d_find m k with
      | Some _ => Some (m, k)
      | None =>
          let go m c :=
            r <- compute_next p k c ;;
            match r with
            | inl _ => Some (m, RMatch)
            | inr z' => '(m', k') <- cache p f m z' ;; Some (m', RKey k')
            end in
          let m := (k, mkD (fun _ => None) false false) :: m in
          '(m, r) <- go m (Some 10) ;;
          let m := d_upd m k (set_nl (is_match r)) in
          '(m, r) <- go m None ;;
          Some (d_upd m k (set_eot (is_match r)), k)
      end
  end.

(** match.go:20-27 *)
Record matcher := mkM { m_prog : prog; m_dstate : dmap; m_start : bytes; m_startLine : bytes }.

(** match.go:128-145 *)
Definition matcher_init (fuel : nat) (p : prog) : option matcher :=
  q <- addq p (addq_fuel p) [] (p_start p) (N.lor EmptyBeginLine EmptyBeginText) ;;
  '(d, s) <- cache p fuel [] (mkN (N.lor flagBOL flagBOT) q) ;;
  q <- addq p (addq_fuel p) [] (p_start p) EmptyBeginLine ;;
  '(d, sl) <- cache p fuel d (mkN flagBOL q) ;;
  Some (mkM p d s sl).

(** d.next[c] on a byte, including the dmatch table (match.go:119-126). *)
Definition next_of (m : dmap) (d : dref) (c : N) : option (option dref) :=
  match d with
  | RMatch => Some (if c =? 10 then None else Some RMatch)
  | RKey k => s <- d_find m k ;; Some (d_next s c)
  end.
Definition ref_nl (m : dmap) (d : dref) : option bool :=
  match d with RMatch => Some true | RKey k => s <- d_find m k ;; Some (d_matchNL s) end.
Definition ref_eot (m : dmap) (d : dref) : option bool :=
  match d with RMatch => Some true | RKey k => s <- d_find m k ;; Some (d_matchEOT s) end.
Definition key_of (d : dref) : bytes := match d with RMatch => enc (mkN 0 []) | RKey k => k end.
(** d.next[c] = d1. For &dmatch this is never reached (Proofs: matchNL returns first). *)
Definition store (m : dmap) (d : dref) (c : N) (d1 : dref) : dmap :=
  match d with RMatch => m | RKey k => d_upd m k (set_next c d1) end.

(** match.go:280-310 match (and 312-342 matchString, the same loop): the updated state
    map and the result, [None] for -1. [fuel] is the recursion depth of cache. *)
Fixpoint match_loop (p : prog) (fuel : nat) (sl : bytes) (m : dmap) (d : dref) (i : nat)
  (b : bytes) (endText : bool) : option (dmap * option nat) :=
  match b with
  | [] =>
      nl <- ref_nl m d ;;
      eot <- ref_eot m d ;;
      Some (m, if nl || (endText && eot) then Some i else None)
  | c :: r =>
      d1 <- next_of m d c ;;
      match d1 with
      | Some d1 => match_loop p fuel sl m d1 (S i) r endText
      | None =>
          if c =? 10 then
            nl <- ref_nl m d ;;
            if nl : bool then Some (m, Some i)
            else match_loop p fuel sl (store m d c (RKey sl)) (RKey sl) (S i) r endText
          else
            res <- compute_next p (key_of d) (Some c) ;;
            '(m, d1) <- match res with
                        | inl _ => Some (m, RMatch)
                        | inr z => '(m', k) <- cache p fuel m z ;; Some (m', RKey k)
                        end ;;
            match_loop p fuel sl (store m d c d1) d1 (S i) r endText
      end
  end.

Definition match_bytes (fuel : nat) (m : matcher) (b : bytes) (beginText endText : bool)
  : option (matcher * option nat) :=
  '(d, r) <- match_loop (m_prog m) fuel (m_startLine m) (m_dstate m)
               (RKey (if beginText then m_start m else m_startLine m)) 0 b endText ;;
  Some (mkM (m_prog m) d (m_start m) (m_startLine m), r).
