(** What a sequence of Adds has to keep, in terms of what the reader delivers. Of the
    model only the types of the observations are used: the events of a reader and the
    reason returned by Add. *)
From Verif Require Import Model.Base Model.Writer Spec.IndexSpec.
Local Open Scope N_scope.

Notation doc := (list N * list N)%type.   (* name, content *)

Notation file := (list N * list read_ev)%type (only parsing).  (* name, reader *)

Definition nul_free (s : str) : Prop := ~ In 0 s.

(** The reader reaches EOF without an error, and what it delivers before. *)
Fixpoint ev_ok (evs : list read_ev) : Prop :=
  match evs with
  | [] => True
  | ([], ErrEOF) :: _ => True
  | ([], _) :: _ => False
  | _ :: rest => ev_ok rest
  end.
Fixpoint ev_content (evs : list read_ev) : bytes :=
  match evs with
  | [] => []
  | ([], _) :: _ => []
  | (b, _) :: rest => b ++ ev_content rest
  end.

Definition lines_ok (b : bytes) : Prop :=
  forall ls rest, lines_of b ls rest -> 10 * count_long ls <= N.of_nat (length ls).

(** What acceptance and the four reasons for rejection mean. The trigram/byte ratio is
    computed in single precision: it is exact up to 16 MiB. *)
Definition accepted (b : bytes) : Prop :=
  plain_criteria b /\ ~ too_many_trigrams b (len b + 2) /\
  (len b <= 16777216 -> ~ too_many_trigrams b (len b)).
Definition rejected (why : skip_reason) (b : bytes) : Prop :=
  match why with
  | InvalidUTF8 => ~ pairs_ok b
  | TooLong => 33554432 < len b
  | TrigramRatio => too_many_trigrams b (len b - 1) /\ (len b <= 16777216 -> too_many_trigrams b (len b))
  | LongLines => ~ lines_ok b
  end.

(** The documented criteria. *)
Definition meets (b : bytes) : Prop := plain_criteria b /\ ~ too_many_trigrams b (len b).

(** [kept files vs docs]: [vs] are verdicts (None: no reason reported) and [docs] the
    files that ended up in the index. *)
Inductive kept : list file -> list (option skip_reason) -> list doc -> Prop :=
| kept_nil : kept [] [] []
| kept_in : forall name evs files vs docs, ev_ok evs -> accepted (ev_content evs) ->
    kept files vs docs -> kept ((name, evs) :: files) (None :: vs) ((name, ev_content evs) :: docs)
| kept_skip : forall name evs why files vs docs, rejected why (ev_content evs) ->
    kept files vs docs -> kept ((name, evs) :: files) (Some why :: vs) docs
| kept_err : forall name evs files vs docs, ~ ev_ok evs ->
    kept files vs docs -> kept ((name, evs) :: files) (None :: vs) docs.

Definition files_ok (files : list file) : Prop :=
  Forall (fun f : file => Forall is_byte (ev_content (snd f))) files.

