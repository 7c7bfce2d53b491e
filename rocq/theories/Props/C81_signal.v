(** C81: who hears of a signal. *)
From Verif Require Import Model.Base Model.Signal Proofs.SignalProofs.
From Coq Require Import Lia.
Local Open Scope nat_scope.

(** Signals as they come about. *)
Inductive made (behave : list N -> N -> N -> list act) : signal -> Prop :=
| made_new : made behave new_signal
| made_tap : forall l s, made behave s -> made behave (tap l s)
| made_untap : forall l s, made behave s -> made behave (untap l s)
| made_raise : forall d v s s' t b, made behave s -> raises behave d v s s' t b -> made behave s'.
Lemma made_good : forall behave s, made behave s -> good s.
Proof.
  intros behave s M. induction M as [|l s M IH|l s M IH|d v s s' t b M IH R].
  - unfold good, new_signal, alloc. cbn. lia.
  - apply tap_kept.
  - apply untap_kept. exact IH.
  - destruct (proj1 (raise_calls behave) _ _ _ _ _ _ R IH) as (_ & G & _). exact G.
Qed.

(** Raising calls those who listen when it is raised, in order, each with what was passed,
    whatever they do meanwhile; if one throws, those after it are not called. *)
Theorem C81_raise : forall behave d v s s' t b, made behave s -> raises behave d v s s' t b ->
  (b = false -> filter (fun c => c_depth c =? d) t = map (fun l => mkCall d l v) (listeners s)) /\
  (exists later, map (fun l => mkCall d l v) (listeners s) = filter (fun c => c_depth c =? d) t ++ later) /\
  Forall (fun c => d <= c_depth c) t.
Proof.
  intros behave d v s s' t b M R. destruct (proj1 (raise_calls behave) _ _ _ _ _ _ R (made_good _ _ M)) as (_ & _ & D & P & E).
  split; [exact E|]. split; [exact P|exact D].
Qed.
Print Assumptions C81_raise.

(** An exception comes out of all the raises around it: after the call of a listener that throws
    at once there is no other; and one comes out only of a listener that throws. *)
Theorem C81_throw : forall behave d v s s' t b, raises behave d v s s' t b ->
  (forall c, In c t -> (forall before v, behave before (c_who c) v = [Throw]) -> b = true /\ exists t0, t = t0 ++ [c]) /\
  (b = true -> exists c before, In c t /\ In Throw (behave before (c_who c) (c_arg c))).
Proof.
  intros behave d v s s' t b R. split; [|exact (proj1 (thrown_by behave) _ _ _ _ _ _ R)].
  intros c I TH. exact (proj1 (throw_ends behave (c_who c) TH) _ _ _ _ _ _ R c I eq_refl).
Qed.
Print Assumptions C81_throw.
(** 1 raises again; 5 throws: 2 is not called. *)
Definition ex_thrower (before : list N) (l v : N) : list act :=
  match l with 1%N => if length before <? 1 then [Raise 9; Tap 7] else [] | 5%N => [Throw] | _ => [] end.
Example C81_throw_example : exists s1 t, raises ex_thrower 0 8 (tap 2 (tap 5 (tap 1 new_signal))) s1 t true /\
  t = [mkCall 0 1 8; mkCall 1 1 9; mkCall 1 5 9] /\ (forall before v, ex_thrower before 5 v = [Throw]) /\ listeners s1 = [1; 5; 2]%N.
Proof.
  eexists. eexists. split; [|split; [|split]].
  - apply raise_all. eapply each_throw; [vm_compute; lia|vm_compute; reflexivity|]. apply (acts_raise_throw _ _ 9). apply raise_all.
    eapply each_call; [vm_compute; lia|vm_compute; reflexivity|apply acts_end|]. eapply each_throw; [vm_compute; lia|vm_compute; reflexivity|]. apply acts_throw.
  - reflexivity.
  - reflexivity.
  - vm_compute. reflexivity.
Qed.

(** Tapping adds at the end, untapping takes out the first; a listener that is not there
    is no error. *)
Theorem C81_tap : forall s l, listeners (tap l s) = listeners s ++ [l].
Proof. intros s l. apply tap_ok. Qed.
Print Assumptions C81_tap.
Theorem C81_untap : forall s l,
  (~ In l (listeners s) -> untap l s = s) /\
  (forall a b, listeners s = a ++ l :: b -> ~ In l a -> listeners (untap l s) = a ++ b).
Proof. intros s l. split; [apply untap_absent|intros a b; apply untap_present]. Qed.
Print Assumptions C81_untap.

(** 1 removes itself and 2 and adds 3; 2 is called all the same, 3 not yet. Raising within
    a call: 3 raises again once, and then throws. *)
Definition ex_behave (before : list N) (l v : N) : list act :=
  match l with
  | 1%N => [Untap 1; Untap 2; Tap 3]
  | 3%N => if (length before <? 3) then [Raise 9] else [Throw]
  | _ => []
  end.
Example C81_example : exists s s1 s2 t1 t2, s = tap 2 (tap 1 new_signal) /\ made ex_behave s /\
  raises ex_behave 0 7 s s1 t1 false /\ t1 = [mkCall 0 1 7; mkCall 0 2 7] /\ listeners s1 = [3]%N /\
  raises ex_behave 0 8 s1 s2 t2 true /\ t2 = [mkCall 0 3 8; mkCall 1 3 9].
Proof.
  eexists. eexists. eexists. eexists. eexists. split; [reflexivity|]. split; [repeat constructor|]. split.
  - apply raise_all. eapply each_call; [vm_compute; lia|vm_compute; reflexivity| |].
    + cbn [ex_behave]. apply acts_untap, acts_untap, acts_tap, acts_end.
    + eapply each_call; [vm_compute; lia|vm_compute; reflexivity| |].
      * cbn [ex_behave]. apply acts_end.
      * apply each_end. vm_compute. lia.
  - split; [reflexivity|]. split; [vm_compute; reflexivity|]. split.
    + apply raise_all. eapply each_throw; [vm_compute; lia|vm_compute; reflexivity|].
      apply (acts_raise_throw _ _ 9). apply raise_all. eapply each_throw; [vm_compute; lia|vm_compute; reflexivity|]. apply acts_throw.
    + reflexivity.
Qed.
