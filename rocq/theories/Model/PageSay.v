(** ui/assets/js/hound.js: what the page says about a search (897-991), the form, and the
    expression that matches are marked with (382-421, 1017-1054). Model/PageState.v has the
    requests and the results. [trim], [escape] (EscapeRegExp) and the constructor RegExp
    ([None]: a SyntaxError) are parameters. An exception in a callback ends that callback;
    the page goes on. *)
From Verif Require Import Model.Base Model.Search Model.PageState Model.PageAddress.

(** The fields of the form that matter: as typed, Ignore Case, Use string literally. *)
Record form := mkFields { fm_q : str; fm_icase : bool; fm_literal : bool }.
(** The state of the search bar, of the model and of the view (pg_..., v_...), and what else
    the view has: query, regexp. *)
Record sstate (rx : Type) := mkSay { sy_form : form; sy_page : pstate; sy_query : option str; sy_regexp : option rx }.
Arguments mkSay {rx}. Arguments sy_form {rx}. Arguments sy_page {rx}. Arguments sy_query {rx}. Arguments sy_regexp {rx}.

Section Say.
Variable locale : str -> str -> Z.
Variable trim escape : str -> str.
Variable rx : Type.
Variable RegExp : str -> bool -> option rx.

(** 382-391 *)
Definition getRegExp (f : form) : option rx :=
  let regexp := trim (fm_q f) in
  let regexp := if fm_literal f then escape regexp else regexp in
  RegExp regexp (fm_icase f).
(** 392-408; [rest]: the fields that only the server looks at (Model/PageAddress.v,
    Model/PageSelect.v). *)
Definition getParams (f : form) (rest : params) : params :=
  (n_q, trim (fm_q f)) :: (n_i, box (fm_icase f)) :: (n_literal, box (fm_literal f)) :: rest.
(** 409-421: the parameters of an address have these names (45-55). *)
Definition setParams (p : params) (f : form) : option form :=
  q <- get_param p n_q ;; i <- get_param p n_i ;; l <- get_param p n_literal ;; Some (mkFields q (ParamValueToBool i) (ParamValueToBool l)).

(** 897-906, 131-161: willSearch keeps the query; Model/PageState.v has the rest. *)
Definition ask (f : form) (p : params) (s : sstate rx) : option (sstate rx) :=
  pg <- do_search p (sy_page s) ;; Some (mkSay f pg (get_param p n_q) (sy_regexp s)).
(** 1017-1043: an answer. When there are results, the expression is made from the form
    before the view is told. *)
Definition told (rep : reply) (old pg : pstate) (s : sstate rx) : sstate rx :=
  match rep with
  | Results _ _ =>
      match getRegExp (sy_form s) with
      | Some r => mkSay (sy_form s) pg (sy_query s) (Some r)
      | None => mkSay (sy_form s) (mkPage (pg_params pg) (pg_objs pg) (pg_results pg) (pg_by pg) (pg_pending pg) (v_results old) (v_error old))
                      (sy_query s) (sy_regexp s)
      end
  | _ => mkSay (sy_form s) pg (sy_query s) (sy_regexp s)
  end.

(** The form is edited; the button is pressed (1051-1054; the history is in
    Model/PageAddress.v); an address is opened (95-104, 311, 995-1005) or gone back to
    (1045-1049); more is asked for; an answer arrives. *)
Inductive say_event := Typed (f : form) | Submitted (rest : params) | Opened (p : params) | More (repo : str) | Answered (a : pend) (rep : reply).
Inductive say_step (s : sstate rx) : say_event -> sstate rx -> Prop :=
| sy_typed : forall f, say_step s (Typed f) (mkSay f (sy_page s) (sy_query s) (sy_regexp s))
| sy_submitted : forall rest s', ask (sy_form s) (getParams (sy_form s) rest) s = Some s' -> say_step s (Submitted rest) s'
| sy_opened : forall p f s', setParams p (sy_form s) = Some f -> ask f p s = Some s' -> say_step s (Opened p) s'
| sy_more : forall repo pg, page_step locale (sy_page s) (LoadMore repo) pg ->
    say_step s (More repo) (mkSay (sy_form s) pg (sy_query s) (sy_regexp s))
| sy_answered : forall a rep pg, page_step locale (sy_page s) (Arrive a rep) pg ->
    say_step s (Answered a rep) (told rep (sy_page s) pg s).
End Say.

(** 927-991: what the view says. *)
Inductive said (rx : Type) := SaysError (msg : str) | SaysNothing | SaysSearching | Shows (results : list nat) (regexp : option rx).
Arguments SaysError {rx}. Arguments SaysNothing {rx}. Arguments SaysSearching {rx}. Arguments Shows {rx}.
Definition says {rx} (s : sstate rx) : said rx :=
  match v_error (sy_page s) with
  | Some (c :: e) => SaysError (c :: e)
  | _ =>
      match v_results (sy_page s) with
      | Some [] => SaysNothing
      | Some ids => Shows ids (sy_regexp s)
      | None => match sy_query s with Some (c :: q) => SaysSearching | _ => Shows [] (sy_regexp s) end
      end
  end.
(** The page as it comes up, before the address is looked at. *)
Definition say0 {rx} : sstate rx := mkSay (mkFields [] false false) page0 None None.
