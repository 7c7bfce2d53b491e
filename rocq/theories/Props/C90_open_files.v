(** C90: what is open in the results on the page. *)
From Coq Require Import Lia.
From Verif Require Import Model.Base Model.Search Model.PageState Model.PageOpen Spec.Names Spec.LoadSpec Spec.OpenSpec Proofs.PageOpenProofs.
Local Open Scope nat_scope.

(** There is a component for every file that is shown, and no other. *)
Theorem C90_shape : forall locale s t r i, opened locale (s, t) -> (exists x m, on_page s r i x m) <-> (exists b, file_is t r i b).
Proof. exact shape. Qed.
Print Assumptions C90_shape.

(** The answer to a search, for a user who waits for it: everything is open but the files that
    were generated. *)
Theorem C90_fresh_partial : forall locale serve s last t req rep s' t' r i x m, visit locale serve s last -> opened locale (s, t) ->
  open_step locale (s, t) (Page (Arrive (PSearch req) rep)) (s', t') -> on_page s' r i x m ->
  file_is t' r i (negb (fm_auto m)) /\ repo_is t' r true.
Proof. exact fresh. Qed.
Print Assumptions C90_fresh_partial.

(** Whatever happens on the page but clicks: what is at a place stays as it is, what is new at a
    place is open if it was not generated. *)
Theorem C90_rendered : forall locale s t e s' t' r i x m, opened locale (s, t) -> open_step locale (s, t) (Page e) (s', t') -> on_page s' r i x m ->
  (forall b, file_is t r i b -> file_is t' r i b) /\ (nothing_at s r i -> file_is t' r i (negb (fm_auto m))).
Proof. exact rendered. Qed.
Print Assumptions C90_rendered.
Theorem C90_repo : forall locale s t e s' t' r, open_step locale (s, t) (Page e) (s', t') -> (exists b, repo_is t' r b) ->
  (forall b, repo_is t r b -> repo_is t' r b) /\ ((forall b, ~ repo_is t r b) -> repo_is t' r true).
Proof. exact repo_rendered. Qed.
Print Assumptions C90_repo.

(** More results leave the files that are there as they are. *)
Theorem C90_more : forall locale s t obj repo req rs st s' t' r i x m b, opened locale (s, t) ->
  open_step locale (s, t) (Page (Arrive (PMore obj repo req) (Results rs st))) (s', t') ->
  on_page s r i x m -> file_is t r i b -> exists x', on_page s' r i x' m /\ r_repo x' = r_repo x /\ file_is t' r i b.
Proof. exact more_keeps. Qed.
Print Assumptions C90_more.

(** A click on the title of a file is about this file. *)
Theorem C90_file : forall t c r i, c = FileTitle r i \/ c = FileLink r i ->
  (forall r' i' b, file_is t r' i' b -> file_is (clicked t c) r' i' (if Nat.eqb r r' && Nat.eqb i i' then negb b else b)) /\
  (forall r' b, repo_is t r' b -> repo_is (clicked t c) r' b).
Proof. intros t c r i C. split; [exact (file_click t c r i C)|exact (file_click_repo t c r i C)]. Qed.
Print Assumptions C90_file.

(** A click on a repository, be it on its chevron, opens or closes all its files, and is about
    this repository. *)
Theorem C90_toggle : forall t c r, c = RepoTitle r \/ c = Chevron r -> forall o, repo_is t r o ->
  repo_is (clicked t c) r (negb o) /\ (forall i b, file_is t r i b -> file_is (clicked t c) r i (negb o)) /\
  (forall r' b, r' <> r -> repo_is t r' b -> repo_is (clicked t c) r' b) /\ (forall r' i b, r' <> r -> file_is t r' i b -> file_is (clicked t c) r' i b).
Proof. exact repo_click. Qed.
Print Assumptions C90_toggle.

(** The buttons open and close everything. *)
Theorem C90_all : forall t c b, (c = ExpandAll /\ b = true) \/ (c = CollapseAll /\ b = false) ->
  (forall r o, repo_is t r o -> repo_is (clicked t c) r b) /\ (forall r i o, file_is t r i o -> file_is (clicked t c) r i b).
Proof. exact all_click. Qed.
Print Assumptions C90_all.

(** ** What goes wrong *)
Definition loc : str -> str -> Z := fun _ _ => 0%Z.
Definition fl (n : str) (auto : bool) : file_match := mkFM n [] auto.
Definition answer (r : str) (fs : list file_match) (n : Z) : reply := Results [(r, mkResp fs n 0 [])] true.
Definition asks (q : str) : params := [(text "q", q)].

(** A run of the page, with clicks, by computation. The first request under way is answered. *)
Inductive move := MSearch (p : params) | MMore (r : str) | MFirst (rep : reply) | MClick (c : click).
Definition played (m : move) (w : pstate * tree) : option ((pstate * tree) * doing) :=
  let (s, t) := w in
  match m with
  | MSearch p => s' <- do_search p s ;; Some ((s', render s' t), Page (Search p))
  | MMore r => s' <- do_load r s ;; Some ((s', render s' t), Page (LoadMore r))
  | MFirst rep =>
      match pg_pending s with
      | [] => None
      | a :: rest =>
          let s0 := mkPage (pg_params s) (pg_objs s) (pg_results s) (pg_by s) rest (v_results s) (v_error s) in
          s' <- match a with PSearch _ => search_answer loc rep s0 | PMore obj repo _ => load_answer obj repo rep s0 end ;;
          Some ((s', render s' t), Page (Arrive a rep))
      end
  | MClick c => Some ((s, clicked t c), Click c)
  end.
Lemma played_step : forall m w w' d, played m w = Some (w', d) -> open_step loc w d w'.
Proof.
  intros m [s t] w' d H. destruct m as [p|r|rep|c]; cbn [played] in H.
  - destruct (do_search p s) eqn:E; [|discriminate]. cbn [bind] in H. injection H as <- <-. constructor. constructor. exact E.
  - destruct (do_load r s) eqn:E; [|discriminate]. cbn [bind] in H. injection H as <- <-. constructor. constructor. exact E.
  - destruct (pg_pending s) as [|a rest] eqn:P; [discriminate|]. cbv zeta in H. destruct (match a with PSearch _ => _ | PMore _ _ _ => _ end) eqn:E; [|discriminate].
    cbn [bind] in H. injection H as <- <-. constructor. apply (ps_arrive _ _ [] rest); [exact P|]. destruct a; exact E.
  - injection H as <- <-. constructor.
Qed.
Fixpoint play (ms : list move) (w : pstate * tree) : option (pstate * tree) :=
  match ms with [] => Some w | m :: r => '(w', _) <- played m w ;; play r w' end.
Lemma play_opened : forall ms w w', opened loc w -> play ms w = Some w' -> opened loc w'.
Proof.
  induction ms as [|m ms IH]; intros w w' O H; cbn [play] in H; [congruence|].
  destruct (played m w) as [[w1 d]|] eqn:E; [|discriminate]. cbn [bind] in H. apply (IH w1); [|exact H]. exact (op_step _ _ _ _ O (played_step _ _ _ _ E)).
Qed.

(** A repository that was closed has an open file when more of it is loaded. *)
Theorem C90_closed_refuted : exists locale s t e s' t' i, opened locale (s, t) /\ repo_is t 0 false /\ (forall j b, file_is t 0 j b -> b = false) /\
  open_step locale (s, t) (Page e) (s', t') /\ repo_is t' 0 false /\ file_is t' 0 i true.
Proof.
  pose (start := [MSearch (asks (text "q")); MFirst (answer (text "r") [fl (text "a") false] 2); MClick (RepoTitle 0); MMore (text "r")]).
  destruct (play start (page0, [])) as [[s t]|] eqn:W; [|vm_compute in W; discriminate].
  destruct (played (MFirst (answer (text "r") [fl (text "b") false] 2)) (s, t)) as [[[s' t'] d]|] eqn:P; [|vm_compute in W; injection W as <- <-; vm_compute in P; discriminate].
  pose proof (play_opened _ _ _ (op_start loc) W) as O. pose proof (played_step _ _ _ _ P) as ST.
  vm_compute in W. injection W as <- <-. vm_compute in P. injection P as <- <- <-.
  eexists loc, _, _, _, _, _, 1. split; [exact O|]. split; [eexists; split; reflexivity|]. split.
  - intros j b (v & V & B). injection V as <-. destruct j as [|[|]]; cbn in B; congruence.
  - split; [exact ST|]. split; eexists; split; reflexivity.
Qed.
Print Assumptions C90_closed_refuted.

(** With two searches under way, a file of the second can be closed as the one at its place in the
    first was, and a generated one be open. *)
Theorem C90_late_refuted : exists locale s t req rep s' t' x m x' m', opened locale (s, t) /\
  open_step locale (s, t) (Page (Arrive (PSearch req) rep)) (s', t') /\
  on_page s' 0 0 x m /\ fm_auto m = false /\ file_is t' 0 0 false /\ on_page s' 0 1 x' m' /\ fm_auto m' = true /\ file_is t' 0 1 true.
Proof.
  pose (start := [MSearch (asks (text "q")); MSearch (asks (text "p")); MFirst (answer (text "r") [fl (text "a") false; fl (text "b") false] 2); MClick (FileTitle 0 0)]).
  destruct (play start (page0, [])) as [[s t]|] eqn:W; [|vm_compute in W; discriminate].
  destruct (played (MFirst (answer (text "z") [fl (text "c") false; fl (text "d") true] 2)) (s, t)) as [[[s' t'] d]|] eqn:P; [|vm_compute in W; injection W as <- <-; vm_compute in P; discriminate].
  pose proof (play_opened _ _ _ (op_start loc) W) as O. pose proof (played_step _ _ _ _ P) as ST.
  vm_compute in W. injection W as <- <-. vm_compute in P. injection P as <- <- <-.
  eexists loc, _, _, _, _, _, _, _, _, _, _. split; [exact O|]. split; [exact ST|]. split; [|split; [|split; [|split; [|split]]]].
  - eexists. split; [split; [reflexivity|eexists; split; [reflexivity|constructor; [reflexivity|constructor]]]|]. split; reflexivity.
  - reflexivity.
  - eexists; split; reflexivity.
  - eexists. split; [split; [reflexivity|eexists; split; [reflexivity|constructor; [reflexivity|constructor]]]|]. split; reflexivity.
  - reflexivity.
  - eexists; split; reflexivity.
Qed.
Print Assumptions C90_late_refuted.

(** To follow the link in the title of a file closes the file. *)
Theorem C90_link_refuted : exists locale s t, opened locale (s, t) /\ file_is t 0 0 true /\ file_is (clicked t (FileLink 0 0)) 0 0 false.
Proof.
  pose (start := [MSearch (asks (text "q")); MFirst (answer (text "r") [fl (text "a") false] 1)]).
  destruct (play start (page0, [])) as [[s t]|] eqn:W; [|vm_compute in W; discriminate].
  pose proof (play_opened _ _ _ (op_start loc) W) as O. vm_compute in W. injection W as <- <-.
  eexists loc, _, _. split; [exact O|]. split; eexists; split; reflexivity.
Qed.
Print Assumptions C90_link_refuted.

(** A search, its answer with a generated file, more of it, and clicks. *)
Example C90_example : exists s t, opened loc (s, t) /\ file_is t 0 0 false /\ file_is t 0 1 false /\ file_is t 0 2 true /\ repo_is t 0 true.
Proof.
  pose (start := [MSearch (asks (text "q")); MFirst (answer (text "r") [fl (text "a") false; fl (text "b") true] 3); MMore (text "r");
                  MClick (Chevron 0); MClick (RepoTitle 0); MClick (FileTitle 0 0); MClick (FileTitle 0 1); MFirst (answer (text "r") [fl (text "c") false] 3)]).
  destruct (play start (page0, [])) as [[s t]|] eqn:W; [|vm_compute in W; discriminate].
  pose proof (play_opened _ _ _ (op_start loc) W) as O. vm_compute in W. injection W as <- <-.
  eexists _, _. split; [exact O|]. repeat (split; [eexists; split; reflexivity|]). eexists; split; reflexivity.
Qed.
Example C90_fresh_example : exists serve s last t req rep s' t' x m, visit loc serve s last /\ opened loc (s, t) /\
  open_step loc (s, t) (Page (Arrive (PSearch req) rep)) (s', t') /\ on_page s' 0 1 x m /\ fm_auto m = true.
Proof.
  pose (rep := answer (text "r") [fl (text "a") false; fl (text "b") true] 3).
  destruct (do_search (asks (text "q")) page0) as [s|] eqn:D; [|discriminate D].
  assert (ST : page_step loc page0 (Search (asks (text "q"))) s) by (constructor; exact D).
  destruct (played (MFirst rep) (s, [])) as [[[s' t'] d]|] eqn:P; [|vm_compute in D; injection D as <-; vm_compute in P; discriminate].
  pose proof (played_step _ _ _ _ P) as S2.
  assert (O : opened loc (s, [])).
  { replace (@nil repo_view) with (render s []); [exact (op_step _ _ _ _ (op_start loc) (os_page _ _ _ _ _ ST))|]. vm_compute in D. injection D as <-. reflexivity. }
  assert (V : visit loc (fun _ => rep) s (Some (asks (text "q")))).
  { apply (vi_step loc (fun _ => rep) page0 None (Search (asks (text "q")))); [constructor| |exact ST]. repeat split; discriminate. }
  vm_compute in D. injection D as <-. vm_compute in P. injection P as <- <- <-.
  eexists _, _, _, _, _, _, _, _, _, _. split; [exact V|]. split; [exact O|]. split; [exact S2|]. split.
  - eexists. split; [split; [reflexivity|eexists; split; [reflexivity|constructor; [reflexivity|constructor]]]|]. split; reflexivity.
  - reflexivity.
Qed.
