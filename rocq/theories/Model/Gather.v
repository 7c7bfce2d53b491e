(** api/api.go searchAll (57-97) with its goroutines and the channel between them. Each search
    delivers some result after some time (searcher.Search returns, see Model/Locks.v); a worker
    keeps what it sent ([Gone r]) for the sake of statements only. The duration is left out. *)
From Verif Require Import Model.Base Model.Config Model.Api.
Local Open Scope list_scope.

Section Gather.
Context {M E : Type}.
Definition arrival : Type := str * (answer M + E).
(** 71-76 *)
Inductive worker := Searching | Sending (r : answer M + E) | Gone (r : answer M + E).
(** 78-97 *)
Inductive collector :=
  | Receiving (i : nat) (res : list (str * answer M)) (filesOpened : Z)
  | Returned (v : (list (str * answer M) * Z) + E).
Record state := mkState { workers : list (str * worker); channel : list arrival; main : collector }.

(** [n]: the number of repositories asked for; [cap]: the size of the channel. *)
Inductive step (n cap : nat) : state -> state -> Prop :=
  (* 73 *)
  | st_search a name b c m r :
      step n cap (mkState (a ++ (name, Searching) :: b) c m) (mkState (a ++ (name, Sending r) :: b) c m)
  (* 74: waits while the channel is full *)
  | st_send a name b c m r : length c < cap ->
      step n cap (mkState (a ++ (name, Sending r) :: b) c m) (mkState (a ++ (name, Gone r) :: b) (c ++ [(name, r)]) m)
  (* 79-83 *)
  | st_err ws name e c i res fo : i < n ->
      step n cap (mkState ws ((name, inr e) :: c) (Receiving i res fo)) (mkState ws c (Returned (inr e)))
  (* 85-87 *)
  | st_none ws name x c i res fo : i < n -> a_matches x = None ->
      step n cap (mkState ws ((name, inl x) :: c) (Receiving i res fo)) (mkState ws c (Receiving (S i) res fo))
  (* 89-90 *)
  | st_some ws name x y c i res fo : i < n -> a_matches x = Some y ->
      step n cap (mkState ws ((name, inl x) :: c) (Receiving i res fo)) (mkState ws c (Receiving (S i) (put res name x) (fo + a_opened x)%Z))
  (* 95 *)
  | st_return ws c i res fo : n <= i ->
      step n cap (mkState ws c (Receiving i res fo)) (mkState ws c (Returned (inl (res, fo)))).

(** 66-77 *)
Definition initial (repos : list str) : state := mkState (map (fun name => (name, Searching)) repos) [] (Receiving 0 [] 0%Z).
Definition capacity (repos : list str) : nat := length repos.

Inductive runs (repos : list str) : nat -> state -> Prop :=
  | runs_nil : runs repos 0 (initial repos)
  | runs_step k s s' : runs repos k s -> step (length repos) (capacity repos) s s' -> runs repos (S k) s'.
End Gather.
