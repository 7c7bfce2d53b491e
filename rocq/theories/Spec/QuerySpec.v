(** Meaning of trigram queries, independent of how they are combined. *)
From Verif Require Import Model.Base Model.Query.

(** [sat T q]: a text whose set of trigrams is [T] satisfies [q]. *)
Fixpoint sat (T : str -> Prop) (q : query) : Prop :=
  match q with
  | Query QAll _ _ => True
  | Query QNone _ _ => False
  | Query QAnd tri sub =>
      (forall t, In t tri -> T t) /\ fold_right (fun s P => sat T s /\ P) True sub
  | Query QOr tri sub =>
      (exists t, In t tri /\ T t) \/ fold_right (fun s P => sat T s \/ P) False sub
  end.

(** Well-formed queries: constants have no children, an AND node is never empty (an
    empty AND would be looked up as "nothing"), every trigram has three bytes. *)
Fixpoint wf_query (q : query) : Prop :=
  match q with
  | Query QAll tri sub | Query QNone tri sub => tri = [] /\ sub = []
  | Query QAnd tri sub =>
      (tri <> [] \/ sub <> []) /\
      (forall t, In t tri -> length t = 3) /\
      fold_right (fun s P => wf_query s /\ P) True sub
  | Query QOr tri sub =>
      (forall t, In t tri -> length t = 3) /\
      fold_right (fun s P => wf_query s /\ P) True sub
  end.
