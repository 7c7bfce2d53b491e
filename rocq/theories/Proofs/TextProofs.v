(** Valid UTF-8 passes both text tests. *)
From Verif Require Import Model.Base Model.Utf8 Model.Writer Model.IndexRun Spec.Utf8Spec Spec.IndexSpec
  Spec.RunSpec Proofs.Utf8Proofs Proofs.AddProofs Proofs.IndexProofs.
Local Open Scope N_scope.

Fixpoint chain (x : N) (l : bytes) : Prop :=
  match l with
  | [] => True
  | y :: r => may_follow (class_of x) (class_of y) /\ chain y r
  end.

Lemma chain_pairs : forall l z, chain z l ->
  forall p x y s, z :: l = p ++ [x; y] ++ s -> may_follow (class_of x) (class_of y).
Proof.
  induction l as [|a l IH]; intros z C p x y s E.
  - destruct p as [|? [|? ?]]; discriminate.
  - destruct C as [C1 C2]. destruct p as [|p0 p].
    + injection E as -> -> ->. exact C1.
    + injection E as _ E. exact (IH a C2 p x y s E).
Qed.

Lemma class_ascii : forall b, b < 0x80 -> class_of b = Ascii.
Proof. intros. unfold class_of. ncmp; try lia; reflexivity. Qed.
Lemma class_cont : forall y, y < 64 -> class_of (0x80 + y) = Cont.
Proof. intros. unfold class_of. ncmp; try lia; reflexivity. Qed.
Lemma class_lead : forall b, 0xC0 <= b -> b < 0xF8 -> class_of b = Lead.
Proof. intros. unfold class_of. ncmp; try lia; reflexivity. Qed.

Lemma chain_utf8 : forall cs z, Forall (fun bs => exists r, utf8 r bs) cs ->
  class_of z = Ascii \/ class_of z = Cont -> chain z (concat cs).
Proof.
  induction cs as [|bs cs IH]; intros z F Z; cbn [concat]; [exact I|].
  pose proof (Forall_inv F) as [r U]. pose proof (Forall_inv_tail F) as F1. clear F. specialize (fun z => IH z F1).
  destruct U as [r L|r b0 b1 x y E0 E1 Ly Er R1 R2|r b0 b1 b2 x y z' E0 E1 E2 Ly Lz Er R1 R2 SC|
    r b0 b1 b2 b3 w x y z' E0 E1 E2 E3 Lx Ly Lz Er R1 R2]; cbn [app chain].
  - rewrite (class_ascii r L). split; [destruct Z as [-> | ->]; exact I|].
    apply IH. left. apply class_ascii. assumption.
  - subst b1. assert (C0 : class_of b0 = Lead) by (apply class_lead; lia).
    pose proof (class_cont y Ly) as C1. rewrite C0, C1.
    split; [destruct Z as [-> | ->]; exact I|]. split; [exact I|]. apply IH. tauto.
  - subst b1 b2. assert (C0 : class_of b0 = Lead) by (apply class_lead; lia).
    pose proof (class_cont y Ly) as C1. pose proof (class_cont z' Lz) as C2. rewrite C0, C1, C2.
    split; [destruct Z as [-> | ->]; exact I|]. do 2 (split; [exact I|]). apply IH. tauto.
  - subst b1 b2 b3. assert (C0 : class_of b0 = Lead) by (apply class_lead; lia).
    pose proof (class_cont x Lx) as C1. pose proof (class_cont y Ly) as C2. pose proof (class_cont z' Lz) as C3.
    rewrite C0, C1, C2, C3.
    split; [destruct Z as [-> | ->]; exact I|]. do 3 (split; [exact I|]). apply IH. tauto.
Qed.

Lemma valid_pairs_ok : forall text, valid_utf8 text -> pairs_ok text.
Proof.
  intros text (cs & -> & F) p x y s E. eapply chain_pairs; [|exact E].
  apply chain_utf8; [assumption|]. left. reflexivity.
Qed.

Lemma valid_utf8_bytes : forall text, valid_utf8 text -> Forall is_byte text.
Proof.
  intros text (cs & -> & F). induction F as [|bs cs [r U] F IH]; [constructor|].
  cbn [concat]. apply Forall_app. split; [eapply utf8_byte; eassumption|assumption].
Qed.

Lemma valid_never_invalid : forall cap w name evs w', (1 <= cap)%nat -> reachable cap w ->
  ev_ok evs -> valid_utf8 (ev_content evs) -> iw_add cap w name evs <> Some (Some InvalidUTF8, w').
Proof.
  intros cap w name evs w' C R E V H.
  destruct (add_criteria cap w name evs _ _ C R (valid_utf8_bytes _ V) E H) as [X _].
  cbn in X. apply X, valid_pairs_ok, V.
Qed.
