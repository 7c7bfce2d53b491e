(** ui/assets/js/hound.js: the search bar (286-462, 463-609, 993-1054). Strings are lists of
    UTF-16 code units. The list of repositories is a <select multiple>, and what React 0.12.2
    does with it is written from ui/assets/js/react-0.12.2.min.js (ReactDOMSelect: state.value
    is empty at first and afterwards what was selected at the last change by the user;
    _updateDOMProperties: an option is selected or not by the page when the property given to
    it changes). The browser takes newlines out of what is written into an input of type text,
    and tells of focus when it moves. Fields restored by the browser are not modelled, nor are
    the statistics. *)
From Verif Require Import Model.Base Model.PageState Model.PageAddress Model.PageForm Model.PageSelect.
Local Open Scope N_scope.

Inductive place := InQ | InFiles | InExclude | Elsewhere.
Record bar := mkBar {
  br_q : str; br_files : str; br_exclude : str; br_i : bool; br_literal : bool;  (* the fields *)
  br_list : list (str * bool);    (* the options and whether the browser shows them as selected *)
  br_value : list str;            (* refs.repos.state.value *)
  br_marks : list str;            (* state.repos *)
  br_known : option (list str);   (* Model.repos, once loaded *)
  br_open : bool; br_focus : place }.
Definition set_open (b : bool) (s : bar) : bar :=
  mkBar (br_q s) (br_files s) (br_exclude s) (br_i s) (br_literal s) (br_list s) (br_value s) (br_marks s) (br_known s) b (br_focus s).
Definition set_focus (f : place) (s : bar) : bar :=
  mkBar (br_q s) (br_files s) (br_exclude s) (br_i s) (br_literal s) (br_list s) (br_value s) (br_marks s) (br_known s) (br_open s) f.
Definition set_fields (q files exclude : str) (i literal : bool) (s : bar) : bar :=
  mkBar q files exclude i literal (br_list s) (br_value s) (br_marks s) (br_known s) (br_open s) (br_focus s).
Definition set_list (l : list (str * bool)) (v marks : list str) (known : option (list str)) (s : bar) : bar :=
  mkBar (br_q s) (br_files s) (br_exclude s) (br_i s) (br_literal s) l v marks known (br_open s) (br_focus s).

(** An input of type text. *)
Definition one_line (s : str) : str := filter (fun c => negb ((c =? 10) || (c =? 13))) s.
(** The options that are selected; the value of a <select> is the first of them. *)
Definition selected_in (l : list (str * bool)) : list str := map fst (filter snd l).
Definition select_value (l : list (str * bool)) : str := match selected_in l with x :: _ => x | [] => [] end.
Definition is_empty (s : str) : bool := match s with [] => true | _ => false end.

(** 422-430 *)
Definition hasAdvancedValues (s : bar) : bool :=
  negb (is_empty (trim (br_files s))) || negb (is_empty (trim (br_exclude s))) || br_i s || br_literal s || negb (is_empty (select_value (br_list s))).
(** 431-436 *)
Definition isAdvancedEmpty (s : bar) : bool := is_empty (trim (br_files s)) && is_empty (trim (br_exclude s)).
(** 437-449 *)
Definition showAdvanced (s : bar) : bar := set_open true s.
(** 340-344, called when q has got the focus: the q.focus() of hideAdvanced (461) changes nothing then *)
Definition queryGotFocus (s : bar) : bar := if hasAdvancedValues s then s else set_open false s.
(** focus() of the fields; 359-361, 376-378 *)
Definition focus_q (s : bar) : bar := match br_focus s with InQ => s | _ => queryGotFocus (set_focus InQ s) end.
Definition focus_files (s : bar) : bar := match br_focus s with InFiles => s | _ => showAdvanced (set_focus InFiles s) end.
Definition focus_exclude (s : bar) : bar := match br_focus s with InExclude => s | _ => showAdvanced (set_focus InExclude s) end.
(** 450-462 *)
Definition hideAdvanced (s : bar) : bar := focus_q (set_open false s).

(** 409-421 *)
Definition setParams (p : params) (s : bar) : option bar :=
  q <- get_param p n_q ;; i <- get_param p n_i ;; l <- get_param p n_literal ;;
  f <- get_param p n_files ;; x <- get_param p n_exclude ;;
  Some (set_fields (one_line q) (one_line f) (one_line x) (ParamValueToBool i) (ParamValueToBool l) s).
(** 392-408; an exception if the repositories are not there yet *)
Definition bar_params (s : bar) : option params :=
  all <- br_known s ;;
  Some (getParams (mkForm (br_q s) (br_i s) (br_literal s) (br_files s) (br_exclude s) (selected_repos all (br_value s)))).

Section Bar.
(** The parameters in the address that the page was opened with (994-996), and the names of the
    repositories (each once; members of an object) *)
Variables (p0 : params) (all : list str).
Definition address_repos : option (list str) :=
  r <- get_param p0 n_repos ;; Some (match r with [] => [] | _ => split_at 44 r end).

(** 305-325: when the page comes up *)
Definition bar_start : option bar :=
  s <- setParams p0 (mkBar [] [] [] false false [] [] [] None false Elsewhere) ;;
  Some (focus_q (if hasAdvancedValues s then showAdvanced s else s)).

(** 468-476: what an option is given *)
Definition given (marks : list str) (name : str) : bool := truthy marks name.
(** 299-301, 95-104: the repositories are there *)
Definition load_repos (s : bar) : bar :=
  set_list (map (fun r => (r, given (br_marks s) r)) all) (br_value s) (br_marks s) (Some all) s.
(** 1017-1021 (didSearch): the properties of the options may change *)
Definition take_marks (marks : list str) (s : bar) : bar :=
  set_list (map (fun ob => (fst ob, if Bool.eqb (given (br_marks s) (fst ob)) (given marks (fst ob)) then snd ob else given marks (fst ob))) (br_list s))
           (br_value s) marks (br_known s) s.

(** What happens to the search bar. [Choose l]: the user changes what is selected, and the list
    is [l] then. [Back p]: the browser goes back to an address. *)
Inductive deed := WriteQ (t : str) | WriteFiles (t : str) | WriteExclude (t : str) | TickCase | TickLiteral | Choose (l : list (str * bool))
  | Focus (f : place) | Up | Down | Enter | Advanced | Chevron | Button
  | Loaded | Answered | Back (p : params).
(** [bar_step s e s' r]: [r] is the search that is made. *)
Inductive bar_step (s : bar) : deed -> bar -> option params -> Prop :=
| bs_q : forall t, br_focus s = InQ -> bar_step s (WriteQ t) (set_fields (one_line t) (br_files s) (br_exclude s) (br_i s) (br_literal s) s) None
| bs_files : forall t, br_focus s = InFiles -> bar_step s (WriteFiles t) (set_fields (br_q s) (one_line t) (br_exclude s) (br_i s) (br_literal s) s) None
| bs_exclude : forall t, br_focus s = InExclude -> bar_step s (WriteExclude t) (set_fields (br_q s) (br_files s) (one_line t) (br_i s) (br_literal s) s) None
| bs_case : bar_step s TickCase (set_fields (br_q s) (br_files s) (br_exclude s) (negb (br_i s)) (br_literal s) s) None
| bs_literal : bar_step s TickLiteral (set_fields (br_q s) (br_files s) (br_exclude s) (br_i s) (negb (br_literal s)) s) None
| bs_choose : forall l, map fst l = map fst (br_list s) -> l <> br_list s ->
    bar_step s (Choose l) (set_list l (selected_in l) (br_marks s) (br_known s) s) None
| bs_focus : forall f, bar_step s (Focus f)
    match f with InQ => focus_q s | InFiles => focus_files s | InExclude => focus_exclude s | Elsewhere => set_focus Elsewhere s end None
  (* 326-339, 345-358, 362-375 *)
| bs_down : bar_step s Down match br_focus s with InQ => focus_files s | _ => s end None
| bs_up : bar_step s Up
    match br_focus s with
    | InQ => hideAdvanced s
    | Elsewhere => s
    | _ => focus_q (if isAdvancedEmpty s then hideAdvanced s else s)
    end None
| bs_enter : br_focus s <> Elsewhere -> bar_step s Enter s (bar_params s)
  (* 516-520, 526-529, 600; half a surrogate pair is C78 *)
| bs_button : bar_step s Button s (bar_params s)
| bs_chevron : bar_step s Chevron (hideAdvanced s) None
| bs_advanced : bar_step s Advanced (showAdvanced s) None
| bs_loaded : forall q, br_known s = None -> get_param p0 n_q = Some q ->
    bar_step s Loaded (load_repos s) (if is_empty q then None else Some p0)
| bs_answered : forall marks, address_repos = Some marks -> bar_step s Answered (take_marks marks s) None
  (* 1045-1049 *)
| bs_back : forall p s', setParams p s = Some s' -> bar_step s (Back p) s' (Some p).

(** From the time the page comes up. *)
Inductive bar_run : list deed -> bar -> Prop :=
| br_start : forall s, bar_start = Some s -> bar_run [] s
| br_step : forall es s e s' r, bar_run es s -> bar_step s e s' r -> bar_run (es ++ [e]) s'.
End Bar.
