(** Merging small indexes. *)
From Coq Require Import Sorted.
From Verif Require Import Model.Base Model.Writer Model.Reader Model.IndexRun Model.IndexMerge Spec.IndexSpec Spec.RunSpec Spec.MergeSpec
  Proofs.MergePathLists Proofs.IndexMergeProofs Proofs.IndexMergeTop.
Local Open Scope N_scope.

Definition one (f : doc) : list N * list read_ev := (fst f, [(snd f, ErrEOF)]).
Definition none (f : doc) : option skip_reason := None.
Lemma kept_plain : forall fs docs, Forall (fun f : doc => snd f <> []) fs -> kept (map one fs) (map none fs) docs -> docs = fs.
Proof.
  induction fs as [|f fs IH]; intros docs N K; cbn in K.
  - inversion K. reflexivity.
  - inversion N as [|? ? N1 N2]; subst.
    assert (EV : ev_ok [(snd f, ErrEOF)]) by (cbn; destruct (snd f); [congruence|exact I]).
    inversion K as [|? ? ? ? ? E A K'| |? ? ? ? ? E K']; subst.
    + rewrite (IH _ N2 K'). cbn. destruct f as (a, b). cbn. destruct b; [cbn in N1; congruence|]. rewrite app_nil_r. reflexivity.
    + destruct E. exact EV.
Qed.
Lemma made_one : forall ps fs D, Forall (fun p => p <> [] /\ ~ In 0 p) ps -> Forall (fun f : doc => snd f <> [] /\ Forall is_byte (snd f)) fs ->
  build_index 2 (fun _ => 7) ps (map one fs) = Some (map none fs, D) -> made D ps fs.
Proof.
  intros ps fs D P F B. destruct (made_build 2 (fun _ => 7) ps (map one fs) (map none fs) D) as (docs & K & M); [lia| |exact P|exact B|].
  - apply Forall_map. eapply Forall_impl; [|exact F]. intros f (_ & X). cbn. destruct (snd f); [constructor|]. rewrite app_nil_r. exact X.
  - rewrite (kept_plain fs docs) in M; [exact M| |exact K]. eapply Forall_impl; [|exact F]. intros f (X & _). exact X.
Qed.

Definition built (ps : list str) (fs : list doc) : bytes :=
  match build_index 2 (fun _ => 7) ps (map one fs) with Some (_, D) => D | None => [] end.
Ltac made_tac := apply made_one; [repeat constructor; cbn; try congruence; intros H; repeat (destruct H as [H|H]; [discriminate|]); exact H
  |repeat constructor; cbn; try congruence; unfold is_byte; lia|vm_compute; reflexivity].
Ltac not_in := let H := fresh in intros H; repeat (destruct H as [H|H]; [discriminate H|]); exact H.

(** Files a/1 "hello", c/1 "abcd", c/2 "hello"; newer: b/x "xhello", c/2 "abc". *)
Definition old_docs : list doc := [([97;47;49], [104;101;108;108;111]); ([99;47;49], [97;98;99;100]); ([99;47;50], [104;101;108;108;111])].
Definition new_docs : list doc := [([98;47;120], [120;104;101;108;108;111]); ([99;47;50], [97;98;99])].
Definition old_paths : list str := [[97]; [99]].
Definition new_paths : list str := [[98]; [99]].

Lemma ex_old : made (built old_paths old_docs) old_paths old_docs. Proof. made_tac. Qed.
Lemma ex_new : made (built new_paths new_docs) new_paths new_docs. Proof. made_tac. Qed.

Ltac sle_tac := let H := fresh in intros H; apply MergeRanges.lex_ltb in H; discriminate H.
Ltac sorted_tac := repeat first [apply SSorted_nil | apply SSorted_cons | apply Forall_nil | apply Forall_cons | sle_tac].

Lemma ex_mergeable : mergeable old_docs new_paths new_docs.
Proof.
  split; [sorted_tac|]. split.
  - repeat constructor; [exists [], 98|exists [], 99]; split; reflexivity.
  - split.
    + intros d [<-|[<-|[]]]; [exists [98]|exists [99]]; (split; [cbn; auto|]); [exists [47;120]|exists [47;50]]; reflexivity.
    + intros p _. split; apply sorted_in_step; cbn [map old_docs new_docs fst]; sorted_tac.
Qed.
Lemma ex_merge : exists C ix, merge (built old_paths old_docs) (built new_paths new_docs) = Some C /\ nlen C < 2^32 /\ ix_open C = Some ix /\
  ix_paths ix = Some [[97]; [98]; [99]] /\ ix_numName ix = 3%Z /\
  ix_name ix 0 = Some [97;47;49] /\ ix_name ix 1 = Some [98;47;120] /\ ix_name ix 2 = Some [99;47;50] /\
  posting_list ix 6841708 None = Some [0; 1] /\   (* "hel" *)
  posting_list ix 6382179 None = Some [2] /\      (* "abc" *)
  posting_list ix 6447972 None = Some [].         (* "bcd" *)
Proof.
  do 2 eexists. split; [vm_compute; reflexivity|]. split; [vm_compute; reflexivity|]. split; [vm_compute; reflexivity|].
  vm_compute. repeat split; reflexivity.
Qed.

(** *** Where the claim fails *)
Definition lost (A : bytes) (ps1 : list str) (docs1 : list doc) (B : bytes) (ps2 : list str) (docs2 : list doc) (d : doc) : Prop :=
  made A ps1 docs1 /\ made B ps2 docs2 /\ StronglySorted sle ps1 /\ StronglySorted sle ps2 /\
  (forall x, In x docs1 -> covered ps1 (fst x)) /\ (forall x, In x docs2 -> covered ps2 (fst x)) /\
  In d docs1 /\ ~ covered ps2 (fst d) /\
  exists C ix, merge A B = Some C /\ ix_open C = Some ix /\ forall i, i < Z.to_N (ix_numName ix) -> ix_name ix i <> Some (fst d).

(** The paths "e-acute" and "e-circumflex": the last byte of the first is 169. *)
Definition acute_docs : list doc := [([195;169;47;98], [97;98;99])].
Definition circ_docs : list doc := [([195;170;47;97], [97;98;99])].
Lemma lost_utf8 : lost (built [[195;170]] circ_docs) [[195;170]] circ_docs (built [[195;169]] acute_docs) [[195;169]] acute_docs ([195;170;47;97], [97;98;99]) /\
  StronglySorted le_doc circ_docs /\ StronglySorted le_doc acute_docs.
Proof.
  split; [|split; sorted_tac].
  split; [made_tac|]. split; [made_tac|]. split; [sorted_tac|]. split; [sorted_tac|].
  split; [intros x [<-|[]]; exists [195;170]; split; [left; reflexivity|exists [47;97]; reflexivity]|].
  split; [intros x [<-|[]]; exists [195;169]; split; [left; reflexivity|exists [47;98]; reflexivity]|].
  split; [left; reflexivity|]. split; [intros (p & [<-|[]] & s & E); discriminate E|].
  do 2 eexists. split; [vm_compute; reflexivity|]. split; [vm_compute; reflexivity|].
  intros i L. assert (i = 0) by (cbn [ix_numName] in L; lia). subst i. vm_compute. discriminate.
Qed.

(** Names in the order of filepath.Walk: r/a/b/x is before r/a.txt. The newer index is for
    r/a/b. *)
Definition walk_docs : list doc := [([114;47;97;47;98;47;120], [97;98;99]); ([114;47;97;46;116;120;116], [97;98;99])].
Definition sub_docs : list doc := [([114;47;97;47;98;47;121], [97;98;99])].
Lemma lost_walk : lost (built [[114]] walk_docs) [[114]] walk_docs (built [[114;47;97;47;98]] sub_docs) [[114;47;97;47;98]] sub_docs ([114;47;97;46;116;120;116], [97;98;99]) /\
  Forall plain_end [[114;47;97;47;98]].
Proof.
  split; [|repeat constructor; exists [114;47;97;47], 98; split; reflexivity].
  split; [made_tac|]. split; [made_tac|]. split; [sorted_tac|]. split; [sorted_tac|].
  split; [intros x [<-|[<-|[]]]; exists [114]; (split; [left; reflexivity|]); eexists; reflexivity|].
  split; [intros x [<-|[]]; exists [114;47;97;47;98]; split; [left; reflexivity|eexists; reflexivity]|].
  split; [right; left; reflexivity|]. split; [intros (p & [<-|[]] & s & E); discriminate E|].
  do 2 eexists. split; [vm_compute; reflexivity|]. split; [vm_compute; reflexivity|].
  intros i L. assert (i = 0) by (cbn [ix_numName] in L; lia). subst i. vm_compute. discriminate.
Qed.

(** A path covers every name it is a prefix of: the file r/ab is not in the directory r/a. *)
Definition ab_docs : list doc := [([114;47;97;98], [97;98;99])].
Definition a_docs : list doc := [([114;47;97;47;120], [97;98;99])].
Lemma lost_component : made (built [[114]] ab_docs) [[114]] ab_docs /\ made (built [[114;47;97]] a_docs) [[114;47;97]] a_docs /\ mergeable ab_docs [[114;47;97]] a_docs /\
  exists C ix, merge (built [[114]] ab_docs) (built [[114;47;97]] a_docs) = Some C /\ ix_open C = Some ix /\
    ix_numName ix = 1%Z /\ ix_name ix 0 = Some [114;47;97;47;120].
Proof.
  split; [made_tac|]. split; [made_tac|]. split.
  - split; [sorted_tac|]. split; [repeat constructor; exists [114;47], 97; split; reflexivity|]. split.
    + intros d [<-|[]]. exists [114;47;97]. split; [left; reflexivity|eexists; reflexivity].
    + intros p _. split; apply sorted_in_step; cbn [map ab_docs a_docs fst]; sorted_tac.
  - do 2 eexists. split; [vm_compute; reflexivity|]. split; [vm_compute; reflexivity|]. vm_compute. auto.
Qed.

(** An index without paths cannot be the newer one. *)
Lemma no_paths : made (built [] a_docs) [] a_docs /\ merge (built [[114]] ab_docs) (built [] a_docs) = None.
Proof. split; [made_tac|vm_compute; reflexivity]. Qed.
