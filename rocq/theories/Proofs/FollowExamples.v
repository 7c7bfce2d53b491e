(** An update loop that goes round for ever, and two histories of its variables (C97). *)
From Verif Require Import Model.Base Model.Config Model.Server Model.Polling Model.Follow Spec.ServerSpec Proofs.ServerProofs Proofs.ServerTrace Proofs.ServerExamples Proofs.PollExamples.
From Coq Require Import Lia Permutation ZArith.

Definition both : Config.repo := some_repo 0 None (Some true).
Definition start : server := one_repo both.
Definition on (f : repo -> repo) (s : server) : server := with_repo s 0 (f (repos s 0)).
Definition phase (p : poller) : server -> server := on (fun r => set_pl r p).
Definition main_at (a : main) (s : server) : server := mkServer (n s) (cap s) (slots s) (results s) (searchers s) (errs s) a (repos s).
(** Startup, a request for an update, and the update, which finds a new revision. *)
Definition first : list (actor * list event * (server -> server)) := [
  (Worker 0, [], fun s => with_slots s (S (slots s)) 0 (set_wk (repos s 0) WHeld));
  (Worker 0, [Work 0], on (fun r => set_wk r WBusy));
  (Worker 0, [Rest 0; Made 0 true], on (fun r => set_made r true));
  (Worker 0, [], fun s => mkServer (n s) (cap s) (slots s) (results s ++ [(0, true)]) (searchers s) (errs s) (at_main s) (set_repo (repos s) 0 (set_wk (repos s 0) WSent)));
  (Worker 0, [], fun s => with_slots s (pred (slots s)) 0 (set_wk (repos s 0) WDone));
  (Main, [], fun s => mkServer (n s) (cap s) (slots s) [] (searchers s ++ [0]) (errs s) (at_main s) (repos s));
  (Main, [], main_at MClean);
  (Main, [], main_at (MBegin [0]));
  (Main, [Began 0], fun s => mkServer (n s) (cap s) (slots s) (results s) (searchers s) (errs s) (MBegin []) (set_repo (repos s) 0 (put_update (repos s 0))));
  (Main, [Return [0] []], main_at MServe);
  (Poller 0, [Started 0], on (fun r => take_update r PWait));
  (Env, [Ack 0], on put_update);
  (Poller 0, [TookUpdate 0], on (fun r => take_update r PCheck));
  (Poller 0, [], phase PAcquire);
  (Poller 0, [], fun s => with_slots s (S (slots s)) 0 (set_pl (repos s 0) PHeld));
  (Poller 0, [Attempt 0; Work 0], phase PPull);
  (Poller 0, [], phase PBuild);
  (Poller 0, [], phase PSwap);
  (Poller 0, [Rest 0], phase PRelease);
  (Poller 0, [], fun s => with_slots s (pred (slots s)) 0 (set_pl (repos s 0) PWait))].
Definition nth_step (j : nat) (s : server) : actor * list event * server :=
  match nth_error first j with Some (a, es, f) => (a, es, f s) | None => (Poller 0, fst (round s), snd (round s)) end.
Fixpoint state_at (j : nat) : server := match j with 0 => start | S j' => snd (nth_step j' (state_at j')) end.
Definition going : execution := mkExecution state_at (fun j => fst (fst (nth_step j (state_at j)))) (fun j => snd (fst (nth_step j (state_at j)))).

Lemma late_step : forall j s, 20 <= j -> nth_step j s = (Poller 0, fst (round s), snd (round s)).
Proof. intros j s L. unfold nth_step. rewrite (proj2 (nth_error_None first j)) by exact L. reflexivity. Qed.
Lemma going_turns : forall j, 20 <= j -> turning (state_at j).
Proof.
  intros j L. induction L as [|j L IH]; [split; reflexivity|].
  change (state_at (S j)) with (snd (nth_step j (state_at j))). rewrite late_step by exact L. apply turning_step. exact IH.
Qed.
Lemma going_early : forall j, j < 20 -> step (ac going j) (st going j) (ev going j) (st going (S j)).
Proof.
  intros j L. cbn [going ac ev st]. change (state_at (S j)) with (snd (nth_step j (state_at j))).
  do 20 (destruct j as [|j]; [unfold nth_step; cbn [nth_error first fst snd]; unfold on, phase, main_at;
    first [apply st_wacquire; (reflexivity || (cbn; lia))|apply st_wwork; (reflexivity || (cbn; lia))|apply (st_wmade _ _ true); (reflexivity || (cbn; lia))
      |apply (st_wsend _ _ true); (reflexivity || (cbn; lia))|apply st_wrelease; (reflexivity || (cbn; lia))
      |apply (st_collect _ 0 true []); (reflexivity || (cbn; lia))|apply st_collected; reflexivity|apply st_clean; [reflexivity|apply Permutation_refl]
      |apply st_begin; reflexivity|apply st_return; reflexivity|apply st_gate; (reflexivity || (cbn; lia))|apply st_ack; (reflexivity || (left; reflexivity))
      |apply st_update; (reflexivity || (cbn; lia))|apply st_go; (reflexivity || (cbn; lia))|apply st_acquire; (reflexivity || (cbn; lia))
      |apply st_work; (reflexivity || (cbn; lia))|apply st_pulled; (reflexivity || (cbn; lia))|apply st_built; (reflexivity || (cbn; lia))
      |apply st_swapped; (reflexivity || (cbn; lia))|apply st_release; (reflexivity || (cbn; lia))]|]).
  lia.
Qed.
Lemma going_runs : is_execution going (initial 1 1 (fun _ => settings_of (init_repo both))).
Proof.
  split; [reflexivity|]. intros j. destruct (Nat.lt_ge_cases j 20) as [L|L]; [apply going_early; exact L|].
  cbn [going ac ev st]. change (state_at (S j)) with (snd (nth_step j (state_at j))). rewrite late_step by exact L. cbn [fst snd].
  apply turning_step. apply going_turns. exact L.
Qed.
Lemma going_fair : fair going.
Proof.
  intros a NE j. assert (D : a = Poller 0 \/ a <> Poller 0).
  { destruct a; try (right; discriminate). destruct (Nat.eq_dec i 0) as [->|N]; [left; reflexivity|right; congruence]. }
  destruct D as [->|D].
  - left. exists (j + 20). split; [lia|]. cbn [going ac]. rewrite late_step by lia. reflexivity.
  - right. exists (j + 20). split; [lia|]. intros j' L. apply turning_only; [apply going_turns; lia|exact NE|exact D].
Qed.

(** The variables if every pull returns the revision of its end. [ok]: the index can be swapped. *)
Definition ph (j : nat) : poller := pl (repos (state_at j) 0).
Fixpoint vars_at (up : nat -> str) (ok : bool) (j : nat) : vars :=
  match j with
  | 0 => mkVars [] 0 0 None
  | S j' =>
      let v := vars_at up ok j' in
      match ph j', ph (S j') with
      | PNone, PGate => mkVars (up j') 0 0 (Some j')
      | PHeld, PPull => mkVars (known v) j' (fetched v) (serves v)
      | PPull, PBuild => mkVars (known v) (began v) j' (serves v)
      | PSwap, PRelease => if ok then mkVars (up (fetched v)) (began v) (fetched v) (Some (fetched v)) else mkVars (known v) (began v) (fetched v) None
      | _, _ => v
      end
  end.
Definition out_at (ok : bool) (j : nat) : outcome :=
  match ph j, ph (S j) with
  | PPull, PRelease => Same
  | PPull, PBuild => Pulled
  | PSwap, PRelease => if ok then Swapped else SwapFailed
  | _, _ => Nothing
  end.

Definition phases : list poller := [PNone; PNone; PNone; PGate; PGate; PGate; PGate; PGate; PGate; PGate; PGate; PWait; PWait; PCheck; PAcquire; PHeld; PPull; PBuild; PSwap; PRelease; PWait].
Definition values (up : nat -> str) (ok : bool) : list vars :=
  let a := mkVars [] 0 0 None in let b := mkVars (up 2) 0 0 (Some 2) in
  let d := if ok then mkVars (up 16) 15 16 (Some 16) else mkVars (up 2) 15 16 None in
  [a; a; a; b; b; b; b; b; b; b; b; b; b; b; b; b; mkVars (up 2) 15 0 (Some 2); mkVars (up 2) 15 16 (Some 2); mkVars (up 2) 15 16 (Some 2); d; d].
Lemma early : forall up ok j, j < 21 -> ph j = nth j phases PNone /\ vars_at up ok j = nth j (values up ok) (mkVars [] 0 0 None).
Proof.
  intros up ok j L. do 21 (destruct j as [|j]; [split; [vm_compute; reflexivity|destruct ok; vm_compute; reflexivity]|]). lia.
Qed.

Section History.
  Context (up : nat -> str) (ok : bool) (r : str).
  Hypothesis (NEW : up 16 <> up 2) (LATE : forall j, 20 <= j -> up j = r) (NOW : known (vars_at up ok 20) = r).
  Lemma round_ph : forall j, 20 <= j -> ph (S j) = match ph j with PWait => PCheck | PCheck => PAcquire | PAcquire => PHeld | PHeld => PPull | PPull => PRelease | _ => PWait end.
  Proof.
    intros j L. unfold ph. change (state_at (S j)) with (snd (nth_step j (state_at j))). rewrite late_step by exact L. cbn [snd]. unfold round.
    pose proof (t_pl _ (going_turns j L)) as T. destruct (pl (repos (state_at j) 0)); try contradiction; cbn [snd with_repo with_slots repos]; rewrite set_same; reflexivity.
  Qed.
  Lemma vars_S : forall j, vars_at up ok (S j) =
    let v := vars_at up ok j in
    match ph j, ph (S j) with
    | PNone, PGate => mkVars (up j) 0 0 (Some j)
    | PHeld, PPull => mkVars (known v) j (fetched v) (serves v)
    | PPull, PBuild => mkVars (known v) (began v) j (serves v)
    | PSwap, PRelease => if ok then mkVars (up (fetched v)) (began v) (fetched v) (Some (fetched v)) else mkVars (known v) (began v) (fetched v) None
    | _, _ => v
    end.
  Proof. reflexivity. Qed.
  Lemma late_vars : forall j, 20 <= j -> known (vars_at up ok j) = r /\ serves (vars_at up ok j) = serves (vars_at up ok 20) /\ (ph j = PPull -> began (vars_at up ok j) <= j).
  Proof.
    intros j L. induction L as [|j L (A & B & D)].
    - split; [exact NOW|]. split; [reflexivity|]. discriminate.
    - pose proof (t_pl _ (going_turns j L)) as T. fold (ph j) in T. rewrite (vars_S j). rewrite (round_ph j L).
      destruct (ph j); try contradiction; cbn [known serves began]; (split; [exact A|split; [exact B|]]); try discriminate. lia.
  Qed.
  Lemma history : follows up going 0 (vars_at up ok) (out_at ok).
  Proof.
    intros j. destruct (Nat.lt_ge_cases j 20) as [L|L].
    - destruct (early up ok j ltac:(lia)) as (P1 & V1). destruct (early up ok (S j) ltac:(lia)) as (P2 & V2).
      unfold out_at. cbn [going st]. fold (ph j). fold (ph (S j)). rewrite P1, P2, V1, V2. clear P1 P2 V1 V2.
      do 20 (destruct j as [|j]; [cbn [nth phases values ac ev going];
        first [right; right; split; [discriminate|]; split; [intros X; vm_compute in X; intuition discriminate|]; split; reflexivity
          |right; left; split; [reflexivity|]; split; [right; left; reflexivity|]; split; [reflexivity|]; exists 2; split; [lia|]; split; reflexivity
          |left; split; [reflexivity|];
           first [apply mv_loop; exact Logic.I|apply (mv_begin up 15 (mkVars (up 2) 0 0 (Some 2)))
             |apply (mv_pulled up 16 (mkVars (up 2) 15 0 (Some 2)) 16); [cbn; lia|lia|exact NEW]|apply mv_built
             |destruct ok; [apply (mv_swapped up 18 (mkVars (up 2) 15 16 (Some 2)) 2); reflexivity|apply (mv_swapfail up 18 (mkVars (up 2) 15 16 (Some 2)) None); left; reflexivity]]]|]).
      lia.
    - left. cbn [going ac st]. rewrite late_step by exact L. split; [reflexivity|]. fold (ph j). fold (ph (S j)).
      destruct (late_vars j L) as (A & _ & D). pose proof (t_pl _ (going_turns j L)) as T. fold (ph j) in T.
      unfold out_at. rewrite (vars_S j). rewrite (round_ph j L). destruct (ph j) eqn:P; try contradiction; try (apply mv_loop; exact Logic.I).
      + apply mv_begin.
      + apply (mv_same up _ _ j); [apply D; reflexivity|lia|]. rewrite A. apply LATE. exact L.
  Qed.
End History.
