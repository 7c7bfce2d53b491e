(** What the search bar shows. *)
From Verif Require Import Model.Base Model.PageState Model.PageBar Spec.Names Spec.FormSpec.
Local Open Scope N_scope.

(** A repository that the list shows as selected. *)
Definition chosen (s : bar) (r : list N) : Prop := In (r, true) (br_list s).
(** Names with commas between them. *)
Inductive comma_list : list (list N) -> list N -> Prop :=
  | cl_none : comma_list [] []
  | cl_one r : comma_list [r] r
  | cl_more r r' l t : comma_list (r' :: l) t -> comma_list (r :: r' :: l) (r ++ 44 :: t).
(** The search [p] is in the repositories that the list of [s] shows: in these, or in all if all or
    none are. *)
Definition as_listed (s : bar) (p : params) : Prop := exists l t, get_param p (text "repos") = Some t /\ comma_list l t /\ NoDup l /\
  ((forall r, In r l <-> chosen s r) \/ (l = [] /\ forall r b, In (r, b) (br_list s) -> b = true)).
(** Nothing in the advanced part narrows the search or changes its meaning. *)
Definition no_filter (s : bar) : Prop :=
  Forall white (br_files s) /\ Forall white (br_exclude s) /\ br_i s = false /\ br_literal s = false /\ forall r, ~ chosen s r.
(** The same of an address. *)
Definition plain_address (p : params) : Prop :=
  (forall v, get_param p (text "files") = Some v -> Forall white v) /\ (forall v, get_param p (text "excludeFiles") = Some v -> Forall white v) /\
  (forall v, get_param p (text "i") = Some v -> ~ yes v) /\ (forall v, get_param p (text "literal") = Some v -> ~ yes v).
(** Texts that a field of a form can show, without white space around. *)
Definition neat (t : list N) : Prop := ~ In 10 t /\ ~ In 13 t /\ within t t.
(** Deeds that change what is in the fields. *)
Definition edits (e : deed) : Prop :=
  match e with WriteQ _ | WriteFiles _ | WriteExclude _ | TickCase | TickLiteral | Back _ => True | _ => False end.
(** The user writes [t] into the field of the parameter [k]; the user ticks its box. *)
Definition writes (e : deed) (k t : list N) : Prop :=
  match e with WriteQ u => k = text "q" /\ t = u | WriteFiles u => k = text "files" /\ t = u | WriteExclude u => k = text "excludeFiles" /\ t = u | _ => False end.
Definition ticks (e : deed) (k : list N) : Prop := match e with TickCase => k = text "i" | TickLiteral => k = text "literal" | _ => False end.
(** A user who hides nothing: the advanced part is closed when it is empty, boxes and list are
    used when it is open, and the browser goes back to addresses with filters when it is open. *)
Definition considerate (s : bar) (e : deed) : Prop :=
  match e with
  | Chevron => no_filter s
  | Up => no_filter s \/ (br_focus s <> InQ /\ ~ (Forall white (br_files s) /\ Forall white (br_exclude s)))
  | TickCase | TickLiteral | Choose _ => br_open s = true
  | Back p => br_open s = true \/ plain_address p
  | _ => True
  end.
Inductive considerate_run (p0 : params) (all : list (list N)) : bar -> Prop :=
  | cr_start s : bar_start p0 = Some s -> considerate_run p0 all s
  | cr_step s e s' r : considerate_run p0 all s -> considerate s e -> bar_step p0 all s e s' r -> considerate_run p0 all s'.
