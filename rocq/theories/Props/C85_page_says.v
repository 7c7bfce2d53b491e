(** C85: what the page says about a search. *)
From Verif Require Import Model.Base Model.Search Model.PageState Model.PageAddress Model.PageSay Spec.Names Proofs.PageSayProofs.
From Coq Require Import Permutation.

(** While a search is under way the page says so, if it did not show an error before. *)
Theorem C85_searching_partial : forall locale trim escape rx RegExp s ev s',
  visits locale trim escape rx RegExp s -> asks trim rx s ev -> say_step locale trim escape rx RegExp s ev s' ->
  (forall m, says s <> SaysError m) -> says s' = SaysSearching.
Proof. exact searching_visit. Qed.
Print Assumptions C85_searching_partial.

(** When the answer is the next that happens, the page shows it: the error, that there is
    nothing, or the repositories of the answer, and it marks what was searched for. *)
Theorem C85_answer_partial : forall locale trim escape rx RegExp s ev s1 m rep s2,
  pg_pending (sy_page s) = [] -> asks trim rx s ev -> say_step locale trim escape rx RegExp s ev s1 ->
  say_step locale trim escape rx RegExp s1 (Answered (PSearch m) rep) s2 ->
  match rep with
  | Error msg => says s2 = SaysError msg
  | Broke => says s2 = SaysError (text "The server broke down")
  | Results rs _ => forall r, sought escape rx RegExp m r ->
      match rs with
      | [] => says s2 = SaysNothing
      | _ => exists ids, says s2 = Shows ids (Some r) /\
          Permutation (map (fun i => option_map r_repo (nth_error (pg_objs (sy_page s2)) i)) ids) (map Some (map fst rs))
      end
  end.
Proof. exact answered. Qed.
Print Assumptions C85_answer_partial.

(** In any order of events: if every expression can be made, the page says that it is
    searching only while a request is under way. *)
Theorem C85_not_stuck_partial : forall locale trim escape rx RegExp, (forall t i, RegExp t i <> None) ->
  forall s, visits locale trim escape rx RegExp s -> says s = SaysSearching -> pg_pending (sy_page s) <> [].
Proof. exact not_stuck. Qed.
Print Assumptions C85_not_stuck_partial.

(** A browser: blanks in front are cut; an expression must not begin with the flags of Go, of
    which ECMA-262 has none there. *)
Definition loc (_ _ : str) : Z := 0%Z.
Fixpoint cut (s : str) : str := match s with 32%N :: r => cut r | _ => s end.
Definition same (s : str) : str := s.
Definition rx : Type := (str * bool)%type.
Definition js (t : str) (i : bool) : option rx :=
  match t with 40%N :: 63%N :: 105%N :: _ => None | _ => Some (t, i) end.
Notation step := (say_step loc cut same rx js).
Notation visited := (visits loc cut same rx js).
Definition one : list (str * response) := [(text "r", mkResp [] 1 1 (text "v"))].
Definition typed (q : str) : form := mkFields q false false.

(** A visit, made by computing. *)
Inductive deed := Type_ (q : str) | Press | Open_ (p : params) | Answer (n : nat) (rep : reply).
Definition do1 (d : deed) (s : sstate rx) : option (sstate rx) :=
  match d with
  | Type_ q => Some (mkSay (typed q) (sy_page s) (sy_query s) (sy_regexp s))
  | Press => ask rx (sy_form s) (getParams cut (sy_form s) []) s
  | Open_ p => f <- setParams p (sy_form s) ;; ask rx f p s
  | Answer n rep =>
      match skipn n (pg_pending (sy_page s)) with
      | PSearch m :: after =>
          pg <- search_answer loc rep (mkPage (pg_params (sy_page s)) (pg_objs (sy_page s)) (pg_results (sy_page s)) (pg_by (sy_page s))
                  (firstn n (pg_pending (sy_page s)) ++ after) (v_results (sy_page s)) (v_error (sy_page s))) ;;
          Some (told cut same rx js rep (sy_page s) pg s)
      | _ => None
      end
  end.
Fixpoint do_all (ds : list deed) (s : sstate rx) : option (sstate rx) :=
  match ds with [] => Some s | d :: ds => s <- do1 d s ;; do_all ds s end.
Lemma do1_step : forall d s s', do1 d s = Some s' -> exists ev, step s ev s'.
Proof.
  intros [q| |p|n rep] s s' D; cbn [do1] in D.
  - injection D as <-. eexists. apply sy_typed.
  - eexists. apply sy_submitted. exact D.
  - destruct (setParams p (sy_form s)) as [f|] eqn:F; [|discriminate]. eexists. eapply sy_opened; eassumption.
  - destruct (skipn n _) as [|[m|] after] eqn:S; try discriminate. destruct (search_answer _ _ _) as [pg|] eqn:A; [|discriminate].
    injection D as <-. exists (Answered (PSearch m) rep). apply sy_answered. eapply ps_arrive; [|exact A].
    rewrite <- S. symmetry. apply firstn_skipn.
Qed.
Lemma do_all_visits : forall ds s s', visited s -> do_all ds s = Some s' -> visited s'.
Proof.
  induction ds as [|d ds IH]; intros s s' V D; cbn [do_all] in D; [congruence|]. destruct (do1 d s) as [s1|] eqn:E; [|discriminate].
  destruct (do1_step _ _ _ E) as (ev & ST). exact (IH s1 s' (vi_step _ _ _ _ _ _ _ _ V ST) D).
Qed.
Definition shown_after (ds : list deed) : option (said rx * nat) :=
  option_map (fun s => (says s, length (pg_pending (sy_page s)))) (do_all ds say0).
Lemma shown_visits : forall ds x n, shown_after ds = Some (x, n) -> exists s, visited s /\ says s = x /\ length (pg_pending (sy_page s)) = n.
Proof.
  intros ds x n S. unfold shown_after in S. destruct (do_all ds say0) as [s|] eqn:D; [|discriminate]. injection S as <- <-.
  exists s. split; [exact (do_all_visits ds _ _ (vi_start _ _ _ _ _) D)|auto].
Qed.

(** After an error the page goes on to show it while the next search is under way. *)
Theorem C85_old_error_refuted : exists s, visited s /\ says s = SaysError (text "bad") /\ length (pg_pending (sy_page s)) = 1.
Proof. apply (shown_visits [Type_ (text "a"); Press; Answer 0 (Error (text "bad")); Type_ (text "b"); Press]). reflexivity. Qed.
Print Assumptions C85_old_error_refuted.

(** The form is edited while the search is under way: something else is marked. *)
Theorem C85_edited_refuted : exists s ids, visited s /\ pg_params (sy_page s) = search_params (getParams cut (typed (text "a")) []) /\
  says s = Shows ids (Some (text "bc", false)).
Proof.
  destruct (do_all [Type_ (text "a"); Press; Type_ (text "bc"); Answer 0 (Results one true)] say0) as [s|] eqn:D; [|discriminate D].
  exists s, [0]. split; [exact (do_all_visits _ _ _ (vi_start _ _ _ _ _) D)|].
  vm_compute in D. injection D as <-. split; reflexivity.
Qed.
Print Assumptions C85_edited_refuted.

(** An expression with the flags of Go: its results are never shown. *)
Theorem C85_stuck_refuted : exists s, visited s /\ says s = SaysSearching /\ length (pg_pending (sy_page s)) = 0.
Proof. apply (shown_visits [Type_ (text "(?i)a"); Press; Answer 0 (Results one true)]). reflexivity. Qed.
Print Assumptions C85_stuck_refuted.

(** An address with a blank before the expression: the server is asked for both, the blank is
    not marked. *)
Definition blank : params := [(text "q", text " a"); (text "i", text "nope"); (text "literal", text "nope")].
Theorem C85_blank_refuted : exists s ids, visited s /\ pg_params (sy_page s) = search_params blank /\ says s = Shows ids (Some (text "a", false)).
Proof.
  destruct (do_all [Open_ blank; Answer 0 (Results one true)] say0) as [s|] eqn:D; [|discriminate D].
  exists s, [0]. split; [exact (do_all_visits _ _ _ (vi_start _ _ _ _ _) D)|].
  vm_compute in D. injection D as <-. split; reflexivity.
Qed.
Print Assumptions C85_blank_refuted.

Example C85_example : shown_after [Type_ (text "a"); Press] = Some (SaysSearching, 1) /\
  shown_after [Type_ (text "a"); Press; Answer 0 (Results one true)] = Some (Shows [0] (Some (text "a", false)), 0) /\
  shown_after [Type_ (text "a"); Press; Answer 0 (Results [] true)] = Some (SaysNothing, 0) /\
  shown_after [Type_ (text "a"); Press; Answer 0 Broke] = Some (SaysError (text "The server broke down"), 0).
Proof. repeat split. Qed.
