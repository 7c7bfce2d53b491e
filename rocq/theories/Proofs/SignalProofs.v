(** Signals. *)
From Verif Require Import Model.Base Model.Signal.
From Coq Require Import Lia.
Local Open Scope nat_scope.

(** Arrays that are there stay as they are. *)
Definition kept (s s' : signal) : Prop :=
  length (sg_heap s) <= length (sg_heap s') /\ forall a, a < length (sg_heap s) -> array (sg_heap s') a = array (sg_heap s) a.
Definition good (s : signal) : Prop := sg_listeners s < length (sg_heap s).
Lemma kept_refl : forall s, kept s s.
Proof. intros s. split; auto. Qed.
Lemma kept_trans : forall a b c, kept a b -> kept b c -> kept a c.
Proof. intros a b c (A & B) (C & D). split; [lia|]. intros x L. rewrite D by lia. apply B. exact L. Qed.
Lemma array_app : forall h l a, a < length h -> array (h ++ [l]) a = array h a.
Proof. intros h l a L. unfold array. apply app_nth1. exact L. Qed.
Lemma array_last : forall h l, array (h ++ [l]) (length h) = l.
Proof. intros h l. unfold array. rewrite app_nth2, Nat.sub_diag by lia. reflexivity. Qed.
Lemma update_length : forall h a l, length (update h a l) = length h.
Proof. induction h as [|x h IH]; intros [|a] l; cbn [update length]; [reflexivity..|]. f_equal. apply IH. Qed.
Lemma update_other : forall h a b l, a <> b -> array (update h a l) b = array h b.
Proof.
  induction h as [|x h IH]; intros [|a] [|b] l D; cbn [update]; try reflexivity; [congruence|].
  change (array (update h a l) b = array h b). apply IH. congruence.
Qed.
Lemma update_same : forall h a l, a < length h -> array (update h a l) a = l.
Proof.
  induction h as [|x h IH]; intros [|a] l L; cbn [length] in L; [lia|lia|reflexivity|].
  change (array (update h a l) a = l). apply IH. lia.
Qed.
Lemma tap_kept : forall l s, kept s (tap l s) /\ good (tap l s).
Proof.
  intros l s. unfold tap, alloc. cbv zeta. split; [split|]; unfold good; cbn [sg_heap sg_listeners].
  - rewrite app_length. cbn [length]. lia.
  - intros a L. apply array_app. exact L.
  - rewrite app_length. cbn [length]. lia.
Qed.
Lemma untap_kept : forall l s, good s -> kept s (untap l s) /\ good (untap l s).
Proof.
  intros l s G. unfold untap, alloc. cbv zeta. destruct (index_of l (listeners s)) as [ix|]; [|split; [apply kept_refl|exact G]].
  split; [split|]; unfold good; cbn [sg_heap sg_listeners].
  - rewrite update_length, app_length. cbn [length]. lia.
  - intros a L. rewrite update_other by lia. apply array_app. exact L.
  - rewrite update_length, app_length. cbn [length]. lia.
Qed.
Lemma tap_ok : forall l s, listeners (tap l s) = listeners s ++ [l].
Proof. intros l s. unfold tap, alloc. unfold listeners at 1. cbn [sg_heap sg_listeners]. apply array_last. Qed.
Lemma index_none : forall l xs, index_of l xs = None <-> ~ In l xs.
Proof.
  intros l xs. induction xs as [|x xs IH]; cbn [index_of In]; [tauto|]. destruct (N.eqb_spec x l) as [->|D].
  - split; [discriminate|]. tauto.
  - destruct (index_of l xs); cbn [option_map].
    + split; [discriminate|]. intros N1. exfalso. apply N1. right. destruct (in_dec N.eq_dec l xs) as [I|NI]; [exact I|].
      exfalso. apply IH in NI. discriminate.
    + split; [|reflexivity]. intros _ [E|I]; [congruence|]. exact (proj1 IH eq_refl I).
Qed.
Lemma index_some : forall l a b, ~ In l a -> index_of l (a ++ l :: b) = Some (length a).
Proof.
  intros l a b. induction a as [|x a IH]; intros NI; cbn [app index_of length].
  - rewrite N.eqb_refl. reflexivity.
  - destruct (N.eqb_spec x l) as [->|D]; [exfalso; apply NI; left; reflexivity|]. rewrite IH; [reflexivity|]. intros I. apply NI. right. exact I.
Qed.
Lemma untap_absent : forall l s, ~ In l (listeners s) -> untap l s = s.
Proof. intros l s NI. unfold untap. rewrite (proj2 (index_none _ _) NI). reflexivity. Qed.
Lemma untap_present : forall l s a b, listeners s = a ++ l :: b -> ~ In l a -> listeners (untap l s) = a ++ b.
Proof.
  intros l s a b E NI. unfold untap. rewrite E, (index_some l a b NI). unfold alloc. cbv zeta. unfold listeners at 1. cbn [sg_heap sg_listeners].
  rewrite update_same by (rewrite app_length; cbn [length]; lia). rewrite array_last.
  rewrite firstn_app, Nat.sub_diag, firstn_all, firstn_O, app_nil_r. f_equal.
  rewrite skipn_app. rewrite skipn_all2 by lia. replace (S (length a) - length a) with 1 by lia. reflexivity.
Qed.

(** The calls of a raise itself, not of those within. *)
Definition own (d : nat) (t : list call) : list call := filter (fun c => c_depth c =? d) t.
Definition deeper (d : nat) (t : list call) : Prop := Forall (fun c => d <= c_depth c) t.
Lemma own_app : forall d a b, own d (a ++ b) = own d a ++ own d b.
Proof. intros d a b. unfold own. apply filter_app. Qed.
Lemma own_deeper : forall d t, deeper (S d) t -> own d t = [].
Proof.
  intros d t F. induction F as [|c t L F IH]; [reflexivity|]. cbn [own filter]. destruct (Nat.eqb_spec (c_depth c) d); [lia|exact IH].
Qed.
Definition prefix_of (x y : list call) : Prop := exists z, y = x ++ z.
Definition to_all (d : nat) (v : N) (ls : list N) : list call := map (fun l => mkCall d l v) ls.
Lemma deeper_S : forall d t, deeper (S d) t -> deeper d t.
Proof. intros d t F. unfold deeper in *. rewrite Forall_forall in *. intros c I. specialize (F c I). cbv beta in F. lia. Qed.

Theorem raise_calls : forall behave,
  (forall d v s s' t b, raises behave d v s s' t b -> good s ->
     kept s s' /\ good s' /\ deeper d t /\ prefix_of (own d t) (to_all d v (listeners s)) /\
     (b = false -> own d t = to_all d v (listeners s))) /\
  (forall d v a i len s s' t b, each behave d v a i len s s' t b -> good s -> a < length (sg_heap s) -> len = length (array (sg_heap s) a) ->
     kept s s' /\ good s' /\ deeper d t /\ prefix_of (own d t) (to_all d v (skipn i (array (sg_heap s) a))) /\
     (b = false -> own d t = to_all d v (skipn i (array (sg_heap s) a)))) /\
  (forall d l s s' t b, acts behave d l s s' t b -> good s -> kept s s' /\ good s' /\ deeper (S d) t).
Proof.
  intros behave. apply signal_mind; intros.
  - apply H0; [assumption|exact H1|reflexivity].
  - split; [apply kept_refl|]. split; [assumption|]. split; [constructor|].
    rewrite skipn_all2 by lia. split; [exists []; reflexivity|reflexivity].
  - exfalso. apply nth_error_None in H0. lia.
  - destruct (H2 H5) as (K1 & G1 & D1). cbn [sg_heap sg_listeners] in K1. destruct K1 as (KL & KA). cbn [sg_heap] in KL, KA.
    destruct H4 as (K2 & G2 & D2 & P2 & E2); [exact G1|lia|rewrite KA by assumption; assumption|].
    rewrite KA in P2, E2 by assumption.
    assert (SK : skipn i (array (sg_heap s) a) = l :: skipn (S i) (array (sg_heap s) a)).
    { clear - H0. revert i H0. generalize (array (sg_heap s) a). intros xs. induction xs as [|x xs IH]; intros [|i] E; cbn [nth_error] in E; try discriminate.
      - injection E as ->. reflexivity.
      - cbn [skipn]. apply IH. exact E. }
    assert (OW : own d (mkCall d l v :: t1 ++ t2) = mkCall d l v :: own d t2).
    { change (own d (mkCall d l v :: t1 ++ t2)) with (if d =? d then mkCall d l v :: own d (t1 ++ t2) else own d (t1 ++ t2)).
      rewrite Nat.eqb_refl. rewrite own_app, (own_deeper d t1) by exact D1. reflexivity. }
    split; [|split; [exact G2|split; [|split]]].
    + eapply kept_trans; [|exact K2]. split; assumption.
    + constructor; [cbn [c_depth]; lia|]. apply Forall_app. split; [apply deeper_S; exact D1|exact D2].
    + rewrite OW, SK. destruct P2 as (z & Z). exists z. cbn [to_all map app]. f_equal. exact Z.
    + intros B. rewrite OW, SK. cbn [to_all map]. f_equal. exact (E2 B).
  - destruct (H2 H3) as (K1 & G1 & D1). destruct K1 as (KL & KA). cbn [sg_heap] in KL, KA.
    assert (SK : skipn i (array (sg_heap s) a) = l :: skipn (S i) (array (sg_heap s) a)).
    { clear - H0. revert i H0. generalize (array (sg_heap s) a). intros xs. induction xs as [|x xs IH]; intros [|i] E; cbn [nth_error] in E; try discriminate.
      - injection E as ->. reflexivity.
      - cbn [skipn]. apply IH. exact E. }
    assert (OW : own d (mkCall d l v :: t1) = [mkCall d l v]).
    { change (own d (mkCall d l v :: t1)) with (if d =? d then mkCall d l v :: own d t1 else own d t1).
      rewrite Nat.eqb_refl. rewrite (own_deeper d t1) by exact D1. reflexivity. }
    split; [split; assumption|]. split; [exact G1|]. split; [constructor; [cbn [c_depth]; lia|apply deeper_S; exact D1]|]. split; [|discriminate].
    rewrite OW, SK. eexists. reflexivity.
  - split; [apply kept_refl|]. split; [assumption|constructor].
  - destruct (tap_kept l s) as (K & G). destruct (H0 G) as (K2 & G2 & D2). split; [eapply kept_trans; eassumption|]. split; assumption.
  - destruct (untap_kept l s H1) as (K & G). destruct (H0 G) as (K2 & G2 & D2). split; [eapply kept_trans; eassumption|]. split; assumption.
  - destruct (H0 H3) as (K & G & D & _). destruct (H2 G) as (K2 & G2 & D2). split; [eapply kept_trans; eassumption|]. split; [exact G2|].
    apply Forall_app. split; assumption.
  - destruct (H0 H1) as (K & G & D & _). split; [exact K|]. split; assumption.
  - split; [apply kept_refl|]. split; [assumption|constructor].
Qed.

(** ** Exceptions *)
Definition ends_it (l0 : N) (t : list call) (b : bool) : Prop := forall c, In c t -> c_who c = l0 -> b = true /\ exists t0, t = t0 ++ [c].
Lemma ends_app : forall l0 t1 t2 b, ends_it l0 t1 false -> ends_it l0 t2 b -> ends_it l0 (t1 ++ t2) b.
Proof.
  intros l0 t1 t2 b H1 H2 c I W. apply in_app_iff in I. destruct I as [I|I].
  - destruct (H1 c I W) as (E & _). discriminate.
  - destruct (H2 c I W) as (-> & t0 & ->). split; [reflexivity|]. exists (t1 ++ t0). rewrite app_assoc. reflexivity.
Qed.
Lemma throw_ends : forall behave l0, (forall before v, behave before l0 v = [Throw]) ->
  (forall d v s s' t b, raises behave d v s s' t b -> ends_it l0 t b) /\
  (forall d v a i len s s' t b, each behave d v a i len s s' t b -> ends_it l0 t b) /\
  (forall d l s s' t b, acts behave d l s s' t b -> ends_it l0 t b).
Proof.
  intros behave l0 TH. apply signal_mind; intros; try assumption; try (solve [intros c []]).
  - change (mkCall d l v :: t1 ++ t2) with ([mkCall d l v] ++ t1 ++ t2). refine (ends_app l0 _ _ b _ (ends_app l0 _ _ b _ _)); [|assumption|assumption].
    intros c [<-|[]] W. cbn [c_who] in W. subst l. exfalso. rewrite TH in *.
    match goal with A : acts _ _ [Throw] _ _ _ false |- _ => inversion A end.
  - intros c [<-|I] W.
    + cbn [c_who] in W. subst l. rewrite TH in *. split; [reflexivity|]. exists [].
      match goal with A : acts _ _ [Throw] _ _ _ true |- _ => inversion A; subst; reflexivity end.
    + match goal with A : ends_it l0 t1 true |- _ => destruct (A c I W) as (_ & t0 & ->) end. split; [reflexivity|]. exists (mkCall d l v :: t0). reflexivity.
  - refine (ends_app l0 _ _ b _ _); assumption.
Qed.
Lemma thrown_by : forall behave,
  (forall d v s s' t b, raises behave d v s s' t b -> b = true -> exists c before, In c t /\ In Throw (behave before (c_who c) (c_arg c))) /\
  (forall d v a i len s s' t b, each behave d v a i len s s' t b -> b = true -> exists c before, In c t /\ In Throw (behave before (c_who c) (c_arg c))) /\
  (forall d l s s' t b, acts behave d l s s' t b -> b = true -> In Throw l \/ exists c before, In c t /\ In Throw (behave before (c_who c) (c_arg c))).
Proof.
  intros behave. apply signal_mind; intros; try discriminate; try (solve [auto]).
  - match goal with A : b = true -> _, B : b = true |- _ => destruct (A B) as (c & before & I & T) end. exists c, before. split; [right; apply in_app_iff; right; exact I|exact T].
  - match goal with A : true = true -> _ |- _ => destruct (A eq_refl) as [T|(c & before & I & T)] end.
    + exists (mkCall d l v), (sg_called s). split; [left; reflexivity|exact T].
    + exists c, before. split; [right; exact I|exact T].
  - match goal with A : b = true -> _, B : b = true |- _ => destruct (A B) as [T|T] end; [left; right; exact T|right; exact T].
  - match goal with A : b = true -> _, B : b = true |- _ => destruct (A B) as [T|T] end; [left; right; exact T|right; exact T].
  - match goal with A : b = true -> _, B : b = true |- _ => destruct (A B) as [T|(c & before & I & T)] end; [left; right; exact T|right]. exists c, before. split; [apply in_app_iff; right; exact I|exact T].
  - left. left. reflexivity.
Qed.
