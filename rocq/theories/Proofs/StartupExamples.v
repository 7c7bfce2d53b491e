(** Histories of a small database path. *)
From Verif Require Import Model.Base Model.Startup Spec.StartupSpec Proofs.StartupProofs Proofs.StartupResults.
From Coq Require Import Lia.
Local Open Scope N_scope.

Definition enc0 (u r : str) (o : nat) : bytes := N.of_nat (length u) :: u ++ N.of_nat (length r) :: r.
Definition dec0 (b : bytes) : option (str * str) :=
  match b with
  | [] => None
  | c :: t => match skipn (N.to_nat c) t with
              | [] => None
              | m :: v => if Nat.eqb (N.to_nat m) (length v) then Some (firstn (N.to_nat c) t, v) else None end
  end.
Lemma dec0_enc0 : forall u r o, dec0 (enc0 u r o) = Some (u, r).
Proof.
  intros u r o. unfold dec0, enc0. rewrite Nat2N.id, skipn_app, skipn_all, Nat.sub_diag. cbn [skipn app].
  rewrite Nat2N.id, Nat.eqb_refl, firstn_app, firstn_all, Nat.sub_diag, app_nil_r. reflexivity.
Qed.
Lemma dec0_cut : forall u r o p b q, enc0 u r o = p ++ b :: q -> dec0 p = None.
Proof.
  intros u r o p b q E. destruct p as [|c p]; [reflexivity|]. unfold enc0 in E. cbn in E. injection E as <- E. unfold dec0. rewrite Nat2N.id.
  destruct (app_split _ _ _ _ E) as [(l & -> & E2)|(l & -> & E2)].
  - rewrite skipn_app, skipn_all, Nat.sub_diag. cbn [skipn app]. destruct l as [|m l]; [reflexivity|]. cbn in E2. injection E2 as <- ->.
    rewrite Nat2N.id. destruct (Nat.eqb_spec (length (l ++ b :: q)) (length l)) as [X|X]; [|reflexivity]. rewrite app_length in X. cbn in X. lia.
  - rewrite skipn_all2; [reflexivity|]. rewrite app_length. lia.
Qed.

Definition raw0 (u r : str) (o : nat) : list (str * bytes) :=
  ([102], r) :: match o with O => [([46], u)] | _ => [] end.
Definition W0 : world := mkWorld raw0 (fun _ _ _ => [91; 93]) (fun l => map (fun p => N.of_nat (length (snd p))) l) enc0 dec0 dec0_enc0 dec0_cut.

Definition ops0 (u r : str) (o : nat) : list op :=
  [SetRaw []; SetTri []; SetExcl []; SetRaw [([102], [])]; SetRaw (raw0 u r o); SetExcl [91; 93]; SetTri (tri_of W0 (raw0 u r o));
   SetMan []; SetMan (enc0 u r o)].
Lemma builds0 : forall u r o, builds W0 u r o (ops0 u r o).
Proof.
  intros u r o. exists [[([102], [])]], [], [], [[]]. split; [|reflexivity]. constructor; [|constructor]. exists (enc0 u r o). reflexivity.
Qed.

Definition ua : str := [97].
Definition r1 : str := [49].
Definition r2 : str := [50].

Ltac frs := split; [reflexivity|let i := fresh "i" in intros i; cbn; try (destruct i as [|[|i]]); intros X; cbn in X; try contradiction; try discriminate; intuition congruence].
Ltac nofind := let e := fresh "e" in intros e; cbn; repeat (destruct e as [|e]; [cbn; discriminate|]); cbn; discriminate.
Ltac nojob := let i := fresh "i" in intros i; intros L; cbn in L; repeat (destruct i as [|i]; [first [left; reflexivity | right; eexists; eexists; reflexivity]|]); lia.
Ltac nounclaimed := let e := fresh "e" in intros e; cbn; repeat (destruct e as [|e]; [cbn; try discriminate; try reflexivity; intros X Y; congruence|]); cbn; try reflexivity; intros X Y; congruence.

Ltac lss := split; [cbn; exact I|split; [first [left; reflexivity|right; reflexivity]|split; [first [left; reflexivity|right; reflexivity]|first [left; reflexivity|right; reflexivity]]]].

Ltac norm R := match type of R with runs _ ?t ?s => let s' := eval lazy in s in let t' := eval cbn [app] in t in change (runs W0 t' s') in R end.
Tactic Notation "go" hyp(R) uconstr(c) :=
  eapply runs_step in R; [|eapply c; first [reflexivity | apply builds0 | discriminate | (intros; discriminate) | (cbn; lia) | frs | nofind | nojob | nounclaimed | lss]]; norm R.

Tactic Notation "build" hyp(R) constr(i) := do 9 (go R (st_write _ _ _ i)); go R (st_built _ _ _ i).

(** Interruptions, computed. *)
Fixpoint cut (d : nat) (b : bool) (tr : list event) : bool :=
  match tr with [] => false | e :: t => match e with Crash => b | _ => false end || cut d (hurt_by d b e) t end.
Lemma cut_interrupted : forall d tr b, (exists t1 t2, tr = t1 ++ Crash :: t2 /\ fold_left (hurt_by d) t1 b = true) -> cut d b tr = true.
Proof.
  intros d tr. induction tr as [|e tr IH]; intros b (t1 & t2 & E & X); [destruct t1; discriminate|]. cbn [cut].
  destruct t1 as [|e' t1]; cbn in E.
  - injection E as -> ->. cbn in X. rewrite X. reflexivity.
  - injection E as -> ->. cbn in X. rewrite (IH (hurt_by d b e')); [apply orb_true_r|]. exists t1, t2. auto.
Qed.
Lemma not_cut : forall d tr, cut d false tr = false -> ~ interrupted d tr.
Proof. intros d tr E X. apply cut_interrupted in X. congruence. Qed.
Lemma is_cut : forall d tr b, cut d b tr = true -> exists t1 t2, tr = t1 ++ Crash :: t2 /\ fold_left (hurt_by d) t1 b = true.
Proof.
  intros d tr. induction tr as [|e tr IH]; intros b X; [discriminate|]. cbn in X. apply orb_prop in X. destruct X as [X|X].
  - destruct e; try discriminate. exists [], tr. auto.
  - destruct (IH _ X) as (t1 & t2 & -> & Y). exists (e :: t1), t2. auto.
Qed.

Ltac upto R := pose proof (runs_nil W0) as R; unfold initial in R.
Ltac boot R := upto R; go R (st_start _ _ [(ua, 0%nat)]); go R (st_new _ _ _ 0 ua 0 r1 0); build R 0%nat; go R st_clean; go R st_ready.

(** A build is cut off after five writes; the next start builds again and removes the rest. *)
Lemma cut_run : exists t1 cfg f t2 s s' x, runs W0 (t1 ++ Start cfg f :: t2) s /\ step W0 s [Ready] s' /\
  (forall e, In e t2 -> is_start e = false) /\ (forall i, ~ In (Pulled i [] []) t2) /\
  f 0%nat = Some x /\ read_man W0 x = None /\ raw x = Some (raw0 ua r1 0) /\ In (Live 0 1) t2 /\ (forall d, ~ interrupted d (t1 ++ Start cfg f :: t2)).
Proof.
  upto R. go R (st_start _ _ [(ua, 0%nat)]). go R (st_new _ _ _ 0 ua 0 r1 0). do 5 (go R (st_write _ _ _ 0)). go R st_crash.
  go R (st_start _ _ [(ua, 0%nat)]). go R (st_new _ _ _ 0 ua 0 r1 1). build R 0%nat. go R st_clean.
  go R (st_clean_begin _ _ _ 0). go R st_clean_end.
  match type of R with runs _ [?a; ?b; ?c; Start ?cfg ?f; ?d; ?e; ?g; ?h] ?s =>
    exists [a; b; c], cfg, f, [d; e; g; h], s; eexists; eexists; split; [exact R|] end.
  split; [eapply st_ready; [reflexivity|reflexivity|nounclaimed]|]. split; [|split; [|split; [reflexivity|split; [reflexivity|split; [reflexivity|split]]]]].
  - cbn. intros e. intuition (subst; reflexivity).
  - cbn. intros i. intuition discriminate.
  - cbn. auto.
  - intros d. apply not_cut. reflexivity.
Qed.

(** The removal of an index is cut off; the index is found and used by the next start. *)
Lemma hurt_run : exists tr s s' x, runs W0 tr s /\ step W0 s [Pulled 0 ua r1; Reused 0 0] s' /\ interrupted 0 tr /\
  disk s' 0%nat = Some x /\ raw x = None /\ live_dir s' 0 0.
Proof.
  boot R. go R st_crash. go R (st_start _ _ [(ua, 0%nat)]). go R (st_nopull _ _ _ 0). go R st_clean. go R (st_clean_begin _ _ _ 0).
  go R (st_clean_part _ _ _ 0 _ (mkDir None (Some [1; 1]) (Some [91; 93]) (Some (enc0 ua r1 0)))).
  go R st_crash. go R (st_start _ _ [(ua, 0%nat)]). eexists. eexists. eexists. eexists. split; [exact R|]. split; [|split; [|split; [|split]]].
  - eapply (st_reuse _ _ _ 0 ua 0 r1 0); try reflexivity; discriminate.
  - apply is_cut. reflexivity.
  - reflexivity.
  - reflexivity.
  - reflexivity.
Qed.

(** The same with the removal cut off after tri: no start succeeds any more while the head is
    that revision. *)
Lemma fatal_run : exists tr s, runs W0 tr s /\ interrupted 0 tr /\ proc s <> None /\
  forall es s', step W0 s es s' -> In (Pulled 0 ua r1) es -> proc s' = None.
Proof.
  boot R. go R st_crash. go R (st_start _ _ [(ua, 0%nat)]). go R (st_nopull _ _ _ 0). go R st_clean. go R (st_clean_begin _ _ _ 0).
  go R (st_clean_part _ _ _ 0 _ (mkDir None None (Some [91; 93]) (Some (enc0 ua r1 0)))).
  go R st_crash. go R (st_start _ _ [(ua, 0%nat)]). eexists. eexists. split; [exact R|]. split; [apply is_cut; reflexivity|]. split; [discriminate|].
  intros es s' ST IN. match type of ST with step _ ?t _ _ => remember t as s eqn:ES end.
  destruct ST; cbn in IN; repeat destruct IN as [IN|IN]; try discriminate; try contradiction; try reflexivity;
    injection IN; intros; subst i u r; subst s; cbn [proc disk] in *; injection H as <-; cbn in *.
  - destruct (H2 0%nat). reflexivity.
  - destruct d as [|d]; [injection H3 as <-; contradiction|discriminate].
  - destruct d as [|d]; [injection H3 as <-; discriminate|discriminate].
  - destruct d as [|d]; discriminate.
Qed.

(** Two repositories with the same Url. *)
Lemma twin_run : exists tr s s', runs W0 tr s /\ live_dir s 0 2 /\ live_dir s 1 0 /\ disk s 0%nat <> None /\
  step W0 s [Removed 0] s' /\ live_dir s' 1 0 /\ disk s' 0%nat = None.
Proof.
  upto R. go R (st_start _ _ [(ua, 0%nat); (ua, 0%nat)]). go R (st_new _ _ _ 0 ua 0 r1 0). go R (st_new _ _ _ 1 ua 0 r1 1). build R 0%nat. build R 1%nat.
  go R st_clean. go R st_ready. go R st_crash. go R (st_start _ _ [(ua, 0%nat); (ua, 0%nat)]).
  go R (st_reuse _ _ _ 0 ua 0 r1 0). go R (st_reuse _ _ _ 1 ua 0 r1 0). go R st_clean. go R (st_clean_begin _ _ _ 1). go R st_clean_end. go R st_ready.
  go R (st_update _ _ _ 0 ua 0 0 r1 2 r2). do 9 (go R (st_update_write _ _ _ 0)). go R (st_swap _ _ _ 0).
  eexists. eexists. eexists. split; [exact R|]. split; [reflexivity|]. split; [reflexivity|]. split; [discriminate|].
  split; [eapply (st_old_end _ _ _ 0); reflexivity|]. split; reflexivity.
Qed.

(** The same with different Urls. *)
Definition ub : str := [98].
Lemma pair_run : exists tr s, runs W0 tr s /\ distinct_urls tr /\ live_dir s 0 2 /\ live_dir s 1 1 /\ disk s 1%nat <> None.
Proof.
  upto R. go R (st_start _ _ [(ua, 0%nat); (ub, 0%nat)]). go R (st_new _ _ _ 0 ua 0 r1 0). go R (st_new _ _ _ 1 ub 0 r1 1). build R 0%nat. build R 1%nat.
  go R st_clean. go R st_ready. go R st_crash. go R (st_start _ _ [(ua, 0%nat); (ub, 0%nat)]).
  go R (st_reuse _ _ _ 0 ua 0 r1 0). go R (st_reuse _ _ _ 1 ub 0 r1 1). go R st_clean. go R st_ready.
  go R (st_update _ _ _ 0 ua 0 0 r1 2 r2). do 9 (go R (st_update_write _ _ _ 0)). go R (st_swap _ _ _ 0). go R (st_old_end _ _ _ 0).
  eexists. eexists. split; [exact R|]. split; [|split; [reflexivity|split; [reflexivity|discriminate]]].
  intros cfg f I. cbn in I. repeat destruct I as [I|I]; try discriminate; try contradiction; injection I as <- _; cbn;
  (constructor; [intros [X|[]]; discriminate|constructor; [intros []|constructor]]).
Qed.

(** An index is reused after the options have been changed. *)
Lemma stale_run : exists tr s s' x, runs W0 tr s /\ (exists t f, tr = t ++ [Start [(ua, 1%nat)] f]) /\ step W0 s [Pulled 0 ua r1; Reused 0 0] s' /\
  disk s' 0%nat = Some x /\ complete W0 ua r1 0 x /\ ~ complete W0 ua r1 1 x.
Proof.
  boot R. go R st_crash. go R (st_start _ _ [(ua, 1%nat)]). eexists. eexists. eexists. eexists. split; [exact R|]. split; [|split; [|split; [|split]]].
  - match type of R with runs _ [?a; ?b; ?c; ?d; ?e; Start ?cfg ?f] _ => exists [a; b; c; d; e], f; reflexivity end.
  - eapply (st_reuse _ _ _ 0 ua 1 r1 0); try reflexivity; discriminate.
  - reflexivity.
  - repeat split.
  - intros (X & _). discriminate.
Qed.

(** An index is reused. *)
Lemma again_run : exists tr s s', runs W0 tr s /\ step W0 s [Pulled 0 ua r1; Reused 0 0] s' /\ ~ interrupted 0 tr.
Proof.
  boot R. go R st_crash. go R (st_start _ _ [(ua, 0%nat)]). eexists. eexists. eexists. split; [exact R|]. split.
  - eapply (st_reuse _ _ _ 0 ua 0 r1 0); try reflexivity; discriminate.
  - apply not_cut. reflexivity.
Qed.

(** The removal of an index is cut off after the manifest. *)
Lemma safe_run : exists t1 cfg f t2 s x, runs W0 (t1 ++ Start cfg f :: t2) s /\ proc s <> None /\
  (forall e, In e t2 -> is_start e = false) /\ f 0%nat = Some x /\ read_man W0 x = None /\ interrupted 0 t1 /\ In (Live 0 1) t2.
Proof.
  boot R. go R st_crash. go R (st_start _ _ [(ua, 0%nat)]). go R (st_nopull _ _ _ 0). go R st_clean. go R (st_clean_begin _ _ _ 0).
  go R (st_clean_part _ _ _ 0 _ (mkDir None (Some [1; 1]) (Some [91; 93]) None)).
  go R st_crash. go R (st_start _ _ [(ua, 0%nat)]). go R (st_new _ _ _ 0 ua 0 r1 1). build R 0%nat.
  match type of R with runs _ [?a; ?b; ?c; ?d; ?e; ?g; ?h; ?i; Start ?cfg ?f; ?k; ?l] ?s =>
    exists [a; b; c; d; e; g; h; i], cfg, f, [k; l], s; eexists; split; [exact R|] end.
  split; [discriminate|]. split; [cbn; intros e; intuition (subst; reflexivity)|]. split; [reflexivity|]. split; [reflexivity|].
  split; [apply is_cut; reflexivity|cbn; auto].
Qed.
(** One repository is gone from the configuration. *)
Lemma dropped_run : exists t1 cfg f t2 s s' x y, runs W0 (t1 ++ Start cfg f :: t2) s /\ step W0 s [Ready] s' /\
  (forall e, In e t2 -> is_start e = false) /\ (forall i, ~ In (Pulled i [] []) t2) /\
  f 0%nat = Some x /\ f 1%nat = Some y /\ In (Reused 0 1) t2 /\ (forall i, ~ In (Reused i 0) t2) /\ live_dir s 0 1.
Proof.
  upto R. go R (st_start _ _ [(ua, 0%nat); (ub, 0%nat)]). go R (st_new _ _ _ 0 ua 0 r1 0). go R (st_new _ _ _ 1 ub 0 r1 1). build R 0%nat. build R 1%nat.
  go R st_clean. go R st_ready. go R st_crash. go R (st_start _ _ [(ub, 0%nat)]). go R (st_reuse _ _ _ 0 ub 0 r1 1). go R st_clean.
  go R (st_clean_begin _ _ _ 0). go R st_clean_end.
  match type of R with runs _ [?a; ?b; ?c; ?d; ?e; ?g; ?h; Start ?cfg ?f; ?j; ?k; ?l; ?m] ?s =>
    exists [a; b; c; d; e; g; h], cfg, f, [j; k; l; m], s; eexists; eexists; eexists; split; [exact R|] end.
  split; [eapply st_ready; [reflexivity|reflexivity|nounclaimed]|]. split; [cbn; intros e; intuition (subst; reflexivity)|].
  split; [cbn; intuition discriminate|]. split; [reflexivity|]. split; [reflexivity|]. split; [cbn; auto|]. split; [cbn; intuition discriminate|reflexivity].
Qed.
