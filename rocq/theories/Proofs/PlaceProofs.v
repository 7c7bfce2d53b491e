(** Where the commands of an update run. *)
From Verif Require Import Model.Base Model.GoStr Model.Vcs Spec.Names Spec.ApiSpec Spec.VcsSpec Spec.PlaceSpec
  Proofs.GoStrProofs Proofs.VcsProofs.
Local Open Scope N_scope.

Lemma split_entry : forall dir, entry_of dir (fst (path_split dir)) (snd (path_split dir)).
Proof.
  intros dir. unfold path_split. destruct (last_index_byte dir 47) as [i|] eqn:E; cbn [fst snd].
  - destruct (last_index_some _ _ _ E) as (A & B & C). split; [symmetry; apply firstn_skipn|]. split; [exact B|].
    right. exists (firstn i dir). rewrite A at 1. rewrite firstn_app, firstn_length_le by lia.
    rewrite firstn_all2 by (rewrite firstn_length_le; lia).
    replace (i + 1 - i)%nat with 1%nat by lia. reflexivity.
  - apply (proj1 (last_index_none _ _)) in E. split; [reflexivity|]. split; [exact E|left; reflexivity].
Qed.

Definition here (dir : str) (rs : history) : Prop := Forall (fun x => run_dir x = dir) rs.
(** The last thing done is asking for the revision. *)
Definition asked (w : world) (cmd : list str) (dir : str) (h' : history) (r : result) : Prop :=
  forall v, r = Some v -> exists before out, h' = before ++ [mkRun dir cmd true] /\
    w_exec w before dir cmd = (out, true) /\ trimmed out v.

Lemma head_asked : forall w cmd dir h h' r, head_rev w cmd dir h = (h', r) ->
  exists rs, h' = h ++ rs /\ here dir rs /\ asked w cmd dir h' r.
Proof.
  intros w cmd dir h h' r E. unfold head_rev, andthen, exec, ret in E.
  destruct (w_exec w h dir cmd) as [out ok] eqn:X. cbn [fst snd] in E. injection E as <- <-.
  exists [mkRun dir cmd ok]. split; [reflexivity|]. split; [repeat constructor|].
  intros v V. destruct ok; [|discriminate]. injection V as <-. exists h, out.
  split; [reflexivity|]. split; [exact X|apply trim_space_ok].
Qed.

Lemma then_asked : forall w dir0 args cmd dir h h' r,
  (r <~ exec w dir0 args ;; if snd r then head_rev w cmd dir else ret None) h = (h', r) ->
  exists ok rest, h' = h ++ mkRun dir0 args ok :: rest /\ here dir rest /\ asked w cmd dir h' r /\
    (ok = false -> rest = [] /\ r = None).
Proof.
  intros w dir0 args cmd dir h h' r E. unfold andthen, exec in E.
  destruct (w_exec w h dir0 args) as [out []]; cbn [fst snd] in E.
  - destruct (head_asked _ _ _ _ _ _ E) as (rs & A & B & C). exists true, rs. rewrite <- app_assoc in A.
    split; [exact A|]. split; [exact B|]. split; [exact C|discriminate].
  - unfold ret in E. injection E as <- <-. exists false, []. split; [reflexivity|]. split; [constructor|].
    split; [discriminate|auto].
Qed.

Lemma git_pull_asked : forall w g dir h h' r, git_Pull w g dir h = (h', r) ->
  exists rs, h' = h ++ rs /\ here dir rs /\ asked w (revision_cmd (Git g)) dir h' r.
Proof.
  intros w g dir h h' r E. destruct (pull_runs _ _ _ _ _ _ E) as (det & b1 & b2 & b3 & T & D & H & _).
  eexists. split; [exact H|]. split.
  - apply Forall_app. split; [|repeat constructor]. destruct D as [->|[b ->]]; repeat constructor.
  - unfold git_Pull, andthen in E. rewrite T in E. rewrite !git_run_eq in E.
    match type of E with git_HeadRev w dir ?hh = _ => destruct (head_asked _ _ _ hh _ _ E) as (rs & _ & _ & A) end.
    exact A.
Qed.

Theorem update_place : forall w d dir url h h' r, PullOrClone w d dir url h = (h', r) ->
  exists rs, h' = h ++ rs /\
    (w_exists w h dir = true -> here dir rs /\ forall c, In c (pull_cmd d) -> exists ok rest, rs = mkRun dir c ok :: rest) /\
    (w_exists w h dir = false -> exists p t ok rest, entry_of dir p t /\ rs = mkRun p (clone_cmd d url t) ok :: rest /\
       here dir rest /\ (ok = false -> rest = [] /\ r = None)) /\
    asked w (revision_cmd d) dir h' r.
Proof.
  intros w d dir url h h' r E. unfold PullOrClone in E. destruct (w_exists w h dir).
  - assert (exists rs, h' = h ++ rs /\ here dir rs /\ (forall c, In c (pull_cmd d) -> exists ok rest, rs = mkRun dir c ok :: rest) /\
              asked w (revision_cmd d) dir h' r) as (rs & A & B & C & D).
    { destruct d as [g| |s|]; cbn [Pull] in E.
      - destruct (git_pull_asked _ _ _ _ _ _ E) as (rs & A & B & C). exists rs. split; [exact A|]. split; [exact B|].
        split; [intros c []|exact C].
      - destruct (then_asked _ _ _ _ _ _ _ _ E) as (ok & rest & A & B & C & _). eexists. split; [exact A|].
        split; [constructor; [reflexivity|exact B]|]. split; [|exact C]. intros c [<-|[]]. exists ok, rest. reflexivity.
      - destruct (then_asked _ _ _ _ _ _ _ _ E) as (ok & rest & A & B & C & _). eexists. split; [exact A|].
        split; [constructor; [reflexivity|exact B]|]. split; [|exact C]. intros c [<-|[]]. exists ok, rest. reflexivity.
      - destruct (then_asked _ _ _ _ _ _ _ _ E) as (ok & rest & A & B & C & _). eexists. split; [exact A|].
        split; [constructor; [reflexivity|exact B]|]. split; [|exact C]. intros c [<-|[]]. exists ok, rest. reflexivity. }
    exists rs. split; [exact A|]. split; [auto|]. split; [discriminate|exact D].
  - assert (exists ok rest, h' = h ++ mkRun (fst (path_split dir)) (clone_cmd d url (snd (path_split dir))) ok :: rest /\
              here dir rest /\ asked w (revision_cmd d) dir h' r /\ (ok = false -> rest = [] /\ r = None)) as (ok & rest & A & B & C & D).
    { destruct d as [g| |s|]; cbn [Clone] in E; unfold git_Clone, hg_Clone, svn_Clone, bzr_Clone in E;
        destruct (path_split dir) as [p t] eqn:PS; cbn [fst snd]; try exact (then_asked _ _ _ _ _ _ _ _ E).
      unfold andthen, exec in E. match type of E with context [w_exec w h p ?a] => destruct (w_exec w h p a) as [out []] end; cbn [fst snd] in E.
      - destruct (git_pull_asked _ _ _ _ _ _ E) as (rs & A & B & C). exists true, rs. rewrite <- app_assoc in A.
        split; [exact A|]. split; [exact B|]. split; [exact C|discriminate].
      - unfold ret in E. injection E as <- <-. exists false, []. split; [reflexivity|]. split; [constructor|].
        split; [discriminate|auto]. }
    eexists. split; [exact A|]. split; [discriminate|]. split; [|exact C]. intros _.
    exists (fst (path_split dir)), (snd (path_split dir)), ok, rest.
    split; [apply split_entry|]. split; [reflexivity|]. split; [exact B|exact D].
Qed.
