From Verif Require Import Model.Base Model.Vcs Model.Generated.

Lemma rounds_auto : forall w d dir url auto oks rv h h' ms, rounds w d dir url auto rv oks h = (h', ms) ->
  forall m, In m ms -> m_auto m = auto.
Proof.
  intros w d dir url auto oks. induction oks as [|ok oks IH]; intros rv h h' ms E m I.
  - cbn [rounds] in E. unfold ret in E. injection E as <- <-. destruct I.
  - cbn [rounds] in E. unfold andthen at 1 in E. destruct (updateAndReindex w d dir url auto rv ok h) as [h1 [n|]] eqn:U.
    + unfold andthen, ret in E. destruct (rounds w d dir url auto (m_rev n) oks h1) as [h2 l] eqn:R. injection E as <- <-.
      destruct I as [<- | I]; [|exact (IH _ _ _ _ R m I)].
      unfold updateAndReindex, andthen, ret in U. destruct (PullOrClone w d dir url h) as [h3 [r|]]; [|discriminate].
      destruct (str_eqb r rv); [discriminate|]. destruct ok; [|discriminate]. injection U as <- <-. reflexivity.
    + exact (IH _ _ _ _ E m I).
Qed.

(** The list is made once, after the first pull. *)
Theorem searcher_auto : forall w d dir url conf found oks h h' m ms, searcher w d dir url conf found oks h = (h', Some (m, ms)) ->
  let h1 := fst (PullOrClone w d dir url h) in let auto := snd (auto_files w d dir conf h1) in
  snd (PullOrClone w d dir url h) = Some (m_rev m) /\
  (forall n, In n ms -> m_auto n = auto) /\ m_auto m = match found (m_rev m) with Some l => l | None => auto end.
Proof.
  intros w d dir url conf found oks h h' m ms E. unfold searcher, newSearcher, andthen, ret in E.
  destruct (PullOrClone w d dir url h) as [h1 [r|]]; [|discriminate]. cbn [fst snd].
  destruct (auto_files w d dir conf h1) as [h2 auto]. cbn [snd]. cbn [m_rev] in E.
  destruct (rounds w d dir url auto r oks h2) as [h3 l] eqn:R. assert (m = mkMan r match found r with Some l => l | None => auto end) by congruence.
  assert (ms = l) by congruence. subst m ms. cbn [m_rev m_auto]. split; [reflexivity|]. split; [|reflexivity]. exact (rounds_auto _ _ _ _ _ _ _ _ _ _ R).
Qed.
