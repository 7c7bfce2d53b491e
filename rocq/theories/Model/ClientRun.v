(** client/client.go:94-157 and the answers of the search handler, api/api.go:212-232. HTTP
    and encoding/json are reduced to: a request fails, or is answered with a status and a
    body; a body is a JSON object with named fields or something that cannot be decoded.
    Decoding into a struct ignores fields it does not have and leaves those alone that the
    object does not have. *)
From Verif Require Import Model.Base Model.GoStr Model.Config Model.Api.
Local Open Scope Z_scope.

Section Client.
  (** Values of the fields, error values, the map of repositories. *)
  Context {M E P : Type}.

  Inductive field := FText (e : E) | FResults (l : list (str * answer M)) | FStats (opened : Z).
  Inductive body := Object (fields : list (str * field)) | Garbage.
  Inductive reply := NoReply (e : E) | Reply (status : Z) (b : body).

  Definition k_error : str := [69; 114; 114; 111; 114]%N.
  Definition k_results : str := [82; 101; 115; 117; 108; 116; 115]%N.
  Definition k_stats : str := [83; 116; 97; 116; 115]%N.

  (** api.go:29-46 and 212-232. Both kinds of answers have status 200. *)
  Definition search_answer (stats : bool) (r : (list (str * answer M) * Z) + E) : reply :=
    match r with
    | inr err => Reply StatusOK (Object [(k_error, FText err)])
    | inl (results, filesOpened) =>
        Reply StatusOK (Object ((k_results, FResults results) :: (if stats then [(k_stats, FStats filesOpened)] else [])))
    end.

  (** client.go:15-21; nil maps and pointers are [None]. *)
  Record response := mkResp { res_results : option (list (str * answer M)); res_stats : option Z }.
  Definition empty_response := mkResp None None.
  (** An error of the client: from the connection, a status, or the decoder. *)
  Inductive cerror := CConn (e : E) | CStatus (s : Z) | CDecode.

  (** json.Decoder.Decode(r), field by field; names match in any case. *)
  Fixpoint decode_fields (fields : list (str * field)) (r : response) : response + cerror :=
    match fields with
    | [] => inl r
    | (k, v) :: rest =>
        if str_eqb (to_lower k) (to_lower k_results) then
          match v with FResults l => decode_fields rest (mkResp (Some l) (res_stats r)) | _ => inr CDecode end
        else if str_eqb (to_lower k) (to_lower k_stats) then
          match v with FStats n => decode_fields rest (mkResp (res_results r) (Some n)) | _ => inr CDecode end
        else decode_fields rest r
    end.
  Definition decode (b : body) (r : response) : response + cerror :=
    match b with Object fields => decode_fields fields r | Garbage => inr CDecode end.

  (** client.go:107-118 *)
  Definition Search (rep : reply) (r : response) : response + cerror :=
    match rep with
    | NoReply e => inr (CConn e)
    | Reply status b => if negb (status =? StatusOK) then inr (CStatus status) else decode b r
    end.

  (** client.go:120-129: the status is not looked at. *)
  Inductive listing_reply := NoListing (e : E) | Listing (status : Z) (repos : option P).
  Definition LoadRepos (rep : listing_reply) : P + cerror :=
    match rep with
    | NoListing e => inr (CConn e)
    | Listing _ None => inr CDecode
    | Listing _ (Some p) => inl p
    end.

  (** client.go:131-157: two goroutines that ask, then send on an unbuffered channel; the
      caller receives from chs, then from chr. [res] and [rep] are the shared variables. *)
  Inductive gor := Asking | Offering (e : option cerror) | Over.
  Inductive caller := WaitS | WaitR (errS : option cerror) | Returned (r : (response * P) + cerror).
  Record cstate := mkC { g_search : gor; g_list : gor; c_main : caller; v_res : response; v_rep : P }.
  Definition cstart (none : P) : cstate := mkC Asking Asking WaitS empty_response none.

  Definition returned (errS errR : option cerror) (res : response) (rep : P) : (response * P) + cerror :=
    match errS with
    | Some e => inr e
    | None => match errR with Some e => inr e | None => inl (res, rep) end
    end.

  Inductive cstep (a : reply) (l : listing_reply) : cstate -> cstate -> Prop :=
  | st_search : forall gl m res rep r, Search a res = inl r ->
      cstep a l (mkC Asking gl m res rep) (mkC (Offering None) gl m r rep)
  | st_search_err : forall gl m res rep e, Search a res = inr e ->
      cstep a l (mkC Asking gl m res rep) (mkC (Offering (Some e)) gl m res rep)
  | st_list : forall gs m res rep p, LoadRepos l = inl p ->
      cstep a l (mkC gs Asking m res rep) (mkC gs (Offering None) m res p)
  | st_list_err : forall gs m res rep e, LoadRepos l = inr e ->
      cstep a l (mkC gs Asking m res rep) (mkC gs (Offering (Some e)) m res rep)
  | st_recv_s : forall e gl res rep,
      cstep a l (mkC (Offering e) gl WaitS res rep) (mkC Over gl (WaitR e) res rep)
  | st_recv_r : forall gs e errS res rep,
      cstep a l (mkC gs (Offering e) (WaitR errS) res rep) (mkC gs Over (Returned (returned errS e res rep)) res rep).

  (** The states after [n] steps. *)
  Inductive cruns (a : reply) (l : listing_reply) (none : P) : nat -> cstate -> Prop :=
  | cr_start : cruns a l none 0 (cstart none)
  | cr_step : forall n s s', cruns a l none n s -> cstep a l s s' -> cruns a l none (S n) s'.
End Client.
Arguments field : clear implicits.
Arguments body : clear implicits.
Arguments reply : clear implicits.
Arguments response : clear implicits.
Arguments cerror : clear implicits.
Arguments listing_reply : clear implicits.
Arguments cstate : clear implicits.
