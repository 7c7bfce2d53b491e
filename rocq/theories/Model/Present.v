(** client/ack.go: the output of the command line client. The positions of the matches in
    a line ([find], FindAllStringIndex of the compiled pattern) and which write fails
    ([fails], from what has been written and the next piece) are parameters; a failing
    write leaves nothing behind. [Results] is an association list in the order of [range];
    no pointer in it is nil (the server sends no null). Each Fprintf is one piece. *)
From Verif Require Import Model.Base Model.GoFmt Model.Config Model.Grep Model.Client.
Local Open Scope Z_scope.

(** ansi.go:30-40 and 57-59 *)
Definition Red : N := 1.   Definition Green : N := 2.
Definition Fg (enabled : bool) (s : str) (color style : N) : str := FgBg enabled s color style Colorless Normal.

Inductive status := Done | Failed | Crashed.
(** The file written to and the buffer of line 65. *)
Record pstate := mkP { p_out : list str; p_buf : str }.

Section Present.
  Variables (enabled : bool) (find : str -> list (nat * nat)) (fails : list str -> str -> bool).

  Definition act := pstate -> pstate * status.
  Definition done : act := fun st => (st, Done).
  Definition crash : act := fun st => (st, Crashed).
  Definition andthen (a b : act) : act :=
    fun st => match a st with (st', Done) => b st' | r => r end.
  Fixpoint each {A} (f : A -> act) (l : list A) : act :=
    match l with [] => done | x :: r => andthen (f x) (each f r) end.
  (** if _, err := fmt.Fprint...; err != nil { return err } *)
  Definition emit (s : str) : act := fun st =>
    if fails (p_out st) s then (st, Failed) else (mkP (p_out st ++ [s]) (p_buf st), Done).

  (** ack.go:41-55: the result and the buffer afterwards (defer buf.Reset()). *)
  Definition lineNumber (buf : str) (n : Z) (hasMatch : bool) : str * str :=
    let s := fmt_d n in
    let buf := buf ++ Fg enabled s Yellow Bold in
    let buf := buf ++ [if hasMatch then 58%N else 45%N] in
    let buf := buf ++ repeat 32%N (6 - length s) in
    (buf, []).

  (** ack.go:82-95, from index [i] on. *)
  Fixpoint present_lines (b : block) (lines : list str) (i : nat) : act :=
    match lines with
    | [] => done
    | line :: rest =>
        match nth_error (b_matches b) i with
        | None => crash
        | Some hasMatch =>
            match (if hasMatch then hiliteMatches enabled (find line) line else Some line) with
            | None => crash
            | Some line =>
                andthen (fun st =>
                  let '(no, buf) := lineNumber (p_buf st) (b_start b + Z.of_nat i) hasMatch in
                  emit (no ++ line ++ [10%N]) (mkP (p_out st) buf))
                (present_lines b rest (S i))
            end
        end
    end.

  (** ack.go:82-101 *)
  Definition present_block (ctx : Z) (b : block) : act :=
    andthen (present_lines b (b_lines b) 0)
      (if 0 <? ctx then emit [45; 45; 10]%N else done).

  (** ack.go:73-107: one FileMatch *)
  Definition present_file (ctx : Z) (file : str * list hit) : act :=
    andthen (emit (Fg enabled (fst file) Green Bold ++ [10%N]))
      match coalesceMatches (snd file) with
      | None => crash
      | Some blocks => andthen (each (present_block ctx) blocks) (emit [10%N])
      end.

  (** ack.go:67-108: one repository *)
  Definition present_repo (ctx : Z) (repos : list (str * option repo)) (r : str * list (str * list hit)) : act :=
    match repoNameFor repos (fst r) with
    | None => crash
    | Some name => andthen (emit (Fg enabled name Red Bold ++ [10%N])) (each (present_file ctx) (snd r))
    end.

  (** ack.go:57-111 *)
  Definition Present (ctx : Z) (repos : list (str * option repo)) (results : list (str * list (str * list hit)))
    : list str * status :=
    let '(st, s) := each (present_repo ctx repos) results (mkP [] []) in (p_out st, s).
End Present.
