(** ui/ui.go:45-104: the pages in dev mode. Every request for a page parses its template anew and
    puts it in the content of the page (70, 78), which all requests share; the template that is
    executed (98) is the one found there.

    One page. A template is what its file parses to; [None]: the file cannot be read or parsed.
    A file is read and parsed at one moment; c.tpl is written and read in one step each (the code
    has no lock for it; the two words of the interface are not torn apart here). ToJsonString
    (88-91) does not fail, and Execute fails only for want of a template. A panic ends the
    request only (net/http). *)
From Verif Require Import Model.Base.

Section Dev.
  Context {T : Type}.
  (** [Failed]: 57-59, the error of the request's own parse; [NoTemplate]: Execute of a nil template. *)
  Inductive result := Page (t : T) | Failed | NoTemplate.
  Inductive phase := New | Parsed (v : option T) | Stored | Done (r : result).
  (** [c_tpl]: [None] before the first request; [Some None]: a nil pointer, from a parse that failed. *)
  Record state := mkState { file : option T; c_tpl : option (option T); reqs : nat -> phase }.
  Inductive event := Edit (v : option T) | Parse (i : nat) | Store (i : nat) | Execute (i : nat).
  Definition at_phase (s : state) (i : nat) (p : phase) : nat -> phase := fun k => if Nat.eqb k i then p else reqs s k.
  Definition dev_step (s : state) (e : event) : option state :=
    match e with
    | Edit v => Some (mkState v (c_tpl s) (reqs s))
    | Parse i => match reqs s i with New => Some (mkState (file s) (c_tpl s) (at_phase s i (Parsed (file s)))) | _ => None end
    (* 70-73, 78-81: assigned in any case *)
    | Store i =>
        match reqs s i with
        | Parsed v => Some (mkState (file s) (Some v) (at_phase s i (match v with Some _ => Stored | None => Done Failed end)))
        | _ => None
        end
    (* 98 *)
    | Execute i =>
        match reqs s i with
        | Stored => Some (mkState (file s) (c_tpl s) (at_phase s i (Done (match c_tpl s with Some (Some t) => Page t | _ => NoTemplate end))))
        | _ => None
        end
    end.
  Definition dev_start (v : option T) : state := mkState v None (fun _ => New).
  (** [None]: the events do not happen in this order. *)
  Definition dev_run (v : option T) (es : list event) : option state :=
    fold_left (fun s e => s <- s ;; dev_step s e) es (Some (dev_start v)).
End Dev.
Arguments result : clear implicits. Arguments phase : clear implicits. Arguments state : clear implicits. Arguments event : clear implicits.
