(** ui/assets/js/hound.js: searches and the loading of more results (60-250), and what the
    result view does with them (905-912, 1009-1051). An object that is passed on by reference
    is a number, its place in [pg_objs]. The expression that the view is given with the
    results (1025, 1033), and what comes of it when there is none, are in Model/PageSay.v. Requests are answered in any order. Strings are
    their UTF-8 bytes. [None]: an
    exception (TypeError). *)
From Verif Require Import Model.Base Model.GoFmt Model.Search.
Local Open Scope Z_scope.

(** An object with string values; the first entry of a name counts. [merge a b]: merge-anything,
    the properties of [b] win. *)
Definition params : Type := list (str * str).
Fixpoint get_param (p : params) (k : str) : option str :=
  match p with [] => None | (k', v) :: r => if str_eqb k' k then Some v else get_param r k end.
Definition merge (a b : params) : params := b ++ a.
Definition n_q : str := [113]%N.
Definition n_stats : str := [115; 116; 97; 116; 115]%N.
Definition n_repos : str := [114; 101; 112; 111; 115]%N.
Definition n_rng : str := [114; 110; 103]%N.
Definition fosho : str := [102; 111; 115; 104; 111]%N.
Definition star : str := [42]%N.
(** "The server broke down" (212, 247) *)
Definition broke_down : str := [84; 104; 101; 32; 115; 101; 114; 118; 101; 114; 32; 98; 114; 111; 107; 101; 32; 100; 111; 119; 110]%N.
Definition first_page : str := [58; 50; 48]%N.

(** What the server sends: the results (in the order in which the properties are enumerated)
    and whether there are statistics; or an error; [Broke]: the request failed. *)
Inductive reply := Results (rs : list (str * response)) (stats : bool) | Error (msg : str) | Broke.

(** results.push({...}) *)
Record result := mkRes { r_repo : str; r_rev : str; r_matches : list file_match; r_files : Z }.
(** Requests under way. *)
Inductive pend := PSearch (req : params) | PMore (obj : nat) (repo : str) (req : params).
Definition req_of (a : pend) : params := match a with PSearch r => r | PMore _ _ r => r end.
(** this.params, the objects, this.results, this.resultsByRepo; the state of the result view:
    its results (null at first) and its error. *)
Record pstate := mkPage {
  pg_params : params; pg_objs : list result; pg_results : list nat; pg_by : list (str * nat);
  pg_pending : list pend; v_results : option (list nat); v_error : option str }.
Definition page0 : pstate := mkPage [] [] [] [] [] None None.
Fixpoint by_repo (l : list (str * nat)) (k : str) : option nat :=
  match l with [] => None | (k', v) :: r => if str_eqb k' k then Some v else by_repo r k end.

(** hound.js:130-161: Search; willSearch clears the view (907-912). An empty query passes on
    [_this.Results], which is undefined, and the view reads its length (935). *)
Definition search_params (p : params) : params :=
  let m := merge [(n_stats, fosho); (n_repos, star); (n_rng, first_page)] p in
  match get_param m n_repos with Some [] => merge m [(n_repos, star)] | _ => m end.
Definition do_search (p : params) (s : pstate) : option pstate :=
  let m := search_params p in
  match get_param m n_q with
  | Some [] => None
  | _ => Some (mkPage m (pg_objs s) (pg_results s) (pg_by s) (pg_pending s ++ [PSearch m]) None (v_error s))
  end.

(** hound.js:187-192: results.sort; localeCompare is a parameter. *)
Section Locale.
Variable locale : str -> str -> Z.
Definition compare_results (a b : result) : Z :=
  let d := Z.of_nat (length (r_matches b)) - Z.of_nat (length (r_matches a)) in
  if d =? 0 then locale (r_repo a) (r_repo b) else d.
Fixpoint insert (x : result) (l : list result) : list result :=
  match l with
  | [] => [x]
  | y :: r => if 0 <? compare_results x y then y :: insert x r else x :: y :: r
  end.
Definition sort_results (l : list result) : list result := fold_right insert [] l.

(** hound.js:163-213: the answer to a search, didSearch (1023-1034), didError (1044-1049) *)
Definition search_answer (rep : reply) (s : pstate) : option pstate :=
  match rep with
  | Results rs stats =>
      let new := sort_results (map (fun '(repo, res) => mkRes repo (rs_rev res) (rs_matches res) (rs_found res)) rs) in
      let ids := seq (length (pg_objs s)) (length new) in
      if stats then
        Some (mkPage (pg_params s) (pg_objs s ++ new) ids (combine (map r_repo new) ids) (pg_pending s) (Some ids) None)
      else None
  | Error msg => match msg with
                 | [] => None
                 | _ => Some (mkPage (pg_params s) (pg_objs s) (pg_results s) (pg_by s) (pg_pending s) None (Some msg))
                 end
  | Broke => Some (mkPage (pg_params s) (pg_objs s) (pg_results s) (pg_by s) (pg_pending s) None (Some broke_down))
  end.

(** hound.js:217-230: LoadMore *)
Definition do_load (repo : str) (s : pstate) : option pstate :=
  obj <- by_repo (pg_by s) repo ;;
  res <- nth_error (pg_objs s) obj ;;
  let numLoaded := Z.of_nat (length (r_matches res)) in
  let numNeeded := r_files res - numLoaded in
  let numToLoad := Z.min 2000 numNeeded in
  let endAt := if numNeeded =? numToLoad then [] else fmt_d numToLoad in
  let req := merge (pg_params s) [(n_rng, fmt_d numLoaded ++ 58%N :: endAt); (n_repos, repo)] in
  Some (mkPage (pg_params s) (pg_objs s) (pg_results s) (pg_by s) (pg_pending s ++ [PMore obj repo req]) (v_results s) (v_error s)).

(** hound.js:232-249: its answer, didLoadMore (1036-1042) *)
Fixpoint find_result (rs : list (str * response)) (repo : str) : option response :=
  match rs with [] => None | (k, v) :: r => if str_eqb k repo then Some v else find_result r repo end.
Definition load_answer (obj : nat) (repo : str) (rep : reply) (s : pstate) : option pstate :=
  match rep with
  | Results rs _ =>
      result <- find_result rs repo ;;
      res <- nth_error (pg_objs s) obj ;;
      objs <- list_set (pg_objs s) obj (mkRes (r_repo res) (r_rev res) (r_matches res ++ rs_matches result) (r_files res)) ;;
      Some (mkPage (pg_params s) objs (pg_results s) (pg_by s) (pg_pending s) (Some (pg_results s)) None)
  | Error msg => match msg with
                 | [] => None
                 | _ => Some (mkPage (pg_params s) (pg_objs s) (pg_results s) (pg_by s) (pg_pending s) None (Some msg))
                 end
  | Broke => Some (mkPage (pg_params s) (pg_objs s) (pg_results s) (pg_by s) (pg_pending s) None (Some broke_down))
  end.

(** What happens: a search is asked for, more of a repository is asked for, a request that is
    under way is answered. *)
Inductive page_event := Search (p : params) | LoadMore (repo : str) | Arrive (a : pend) (rep : reply).
Inductive page_step (s : pstate) : page_event -> pstate -> Prop :=
  | ps_search p s' : do_search p s = Some s' -> page_step s (Search p) s'
  | ps_load repo s' : do_load repo s = Some s' -> page_step s (LoadMore repo) s'
  | ps_arrive before after a rep s' : pg_pending s = before ++ a :: after ->
      (let rest := mkPage (pg_params s) (pg_objs s) (pg_results s) (pg_by s) (before ++ after) (v_results s) (v_error s) in
       match a with PSearch _ => search_answer rep rest | PMore obj repo _ => load_answer obj repo rep rest end) = Some s' ->
      page_step s (Arrive a rep) s'.
End Locale.
