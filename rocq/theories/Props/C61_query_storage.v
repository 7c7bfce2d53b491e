(** C61: combining trigram queries in place. The queries are structs in memory
    (Model/QueryHeap.v), a combination writes to the structs and arrays of its
    arguments; [hsat] (Spec/QueryHeapSpec.v) reads a query's meaning off the memory. *)
From Verif Require Import Model.Base Model.Syntax Model.Query Model.Analyze Model.QueryHeap Model.AnalyzeHeap
  Spec.QueryHeapSpec Spec.QueriesSpec Spec.QuerySpec Spec.RegexSpec Proofs.AnalyzeTop Proofs.QueriesProofs.

(** Two clients, each using every query it holds at most once, one after the other in
    the same memory: every query in the hands of either means what its history says, at
    the end of both, and the two shared constants are as they were. *)
Theorem C61_clients : forall grow s1 m1 s2 m2, steps_meaning s1 [] = Some m1 -> steps_meaning s2 [] = Some m2 ->
  exists h1 p1 h2 p2,
    ends_with (fun fuel => steps_run grow fuel s1 (heap0, [])) (h1, p1) /\
    ends_with (fun fuel => steps_run grow fuel s2 (h1, [])) (h2, p2) /\
    Forall2 (fun p (m : meaning) => forall T, hsat h1 T p <-> m T) p1 m1 /\
    Forall2 (fun p (m : meaning) => forall T, hsat h2 T p <-> m T) (p1 ++ p2) (m1 ++ m2) /\
    same heap0 h2 p_all /\ same heap0 h2 p_none.
Proof. exact clients_ok. Qed.
Print Assumptions C61_clients.

(** The same for the queries of any patterns, one after the other: RegexpQuery uses the
    operations so that each has, after all of them, the meaning the tree model gives. *)
Theorem C61_patterns : forall grow fold orbit_max res, exists h ps,
  ends_with (fun fuel => queries_run grow fold orbit_max fuel res heap0) (h, ps) /\
  Forall2 (fun p re => forall T, hsat h T p <-> sat T (snd (regexp_query grow fold orbit_max re))) ps res /\
  same heap0 h p_all /\ same heap0 h p_none.
Proof. exact queries_ok. Qed.
Print Assumptions C61_patterns.

Local Open Scope N_scope.
Definition abc : str := [97; 98; 99].
Definition xyz : str := [120; 121; 122].
Definition uvw : str := [117; 118; 119].
Definition rst : str := [114; 115; 116].

(** Using an operand again is not covered, and cannot be: abc AND xyz reuses the struct
    and the array of its first operand, which then means something else. *)
Theorem C61_operand_again : exists steps h p r h' s T,
  steps_run go_grow 9 steps (heap0, []) = Some (h, [p; r]) /\
  and_or_h go_grow 9 h p r QAnd = Some (h', s) /\
  hsat h T p /\ ~ hsat h' T p.
Proof.
  eexists [SAll; STrigrams 0 [abc]; SAll; STrigrams 0 [xyz]].
  destruct (steps_run go_grow 9 [SAll; STrigrams 0 [abc]; SAll; STrigrams 0 [xyz]] (heap0, [])) as [[h l]|] eqn:E;
    [| vm_compute in E; discriminate].
  assert (exists p r, l = [p; r]) as [p [r ->]] by (vm_compute in E; injection E as _ <-; do 2 eexists; reflexivity).
  destruct (and_or_h go_grow 9 h p r QAnd) as [[h' s]|] eqn:E2.
  2:{ exfalso. vm_compute in E. injection E as <- <- <-. vm_compute in E2. discriminate. }
  exists h, p, r, h', s, (eq xyz). split; [reflexivity | split; [first [exact E2 | reflexivity] |]].
  vm_compute in E. injection E as <- <- <-. vm_compute in E2. injection E2 as <- <-. split.
  - apply hsat_and; [reflexivity | |].
    + cbn. intros t [<- | []]. reflexivity.
    + cbn. intros t [].
  - intros K. inversion K as [? A | ? A B C | ? t A | ? t A]; cbn in *; try discriminate.
    specialize (B abc). assert (xyz = abc) as X; [| discriminate X]. apply B. cbn. auto.
Qed.
Print Assumptions C61_operand_again.

(** A history with factoring: (abc xyz) OR (abc uvw), then AND rst. *)
Definition history : list qstep :=
  [SAll; STrigrams 0 [abc]; STrigrams 0 [xyz]; SAll; STrigrams 0 [abc]; STrigrams 0 [uvw]; SOr 0 0; STrigrams 0 [rst]].
Lemma tri_self : forall a b c (T : tset), (some_string [[a; b; c]] T <-> T [a; b; c]).
Proof.
  intros a b c T. split.
  - intros [K | [[w [[<- | []] L]] | [w [[<- | []] K]]]]; [discriminate | cbn in L; lia |].
    apply K. exists [], []. split; reflexivity.
  - intros K. right. right. exists [a; b; c]. split; [left; reflexivity |].
    intros x [u [v [E L]]]. assert (x = [a; b; c]) as ->; [| exact K].
    assert (length u + 3 + length v = 3)%nat as M.
    { apply (f_equal (@length N)) in E. rewrite !app_length in E. cbn [length] in E. lia. }
    destruct u; [| cbn in M; lia]. destruct v; [| cbn in M; lia]. cbn [app] in E. rewrite app_nil_r in E. congruence.
Qed.
Example history_meaning : exists m, steps_meaning history [] = Some [m] /\ m (fun t => t = abc \/ t = uvw \/ t = rst) /\
  ~ m (fun t => t = abc \/ t = rst) /\ ~ m (fun t => t = uvw \/ t = xyz \/ t = rst).
Proof.
  eexists. split; [reflexivity |]. cbv beta. unfold abc, xyz, uvw, rst. repeat rewrite tri_self. intuition congruence.
Qed.
(** What is in memory in the end: the trigram both had together with rst, and below it
    one struct with the two remainders. *)
Definition read_node (h : heap) (p : nat) : qop * list str * list nat :=
  (n_op (node h p), elems_s h (n_tri (node h p)), elems_p h (n_sub (node h p))).
Example history_memory :
  match steps_run go_grow 20 history (heap0, []) with
  | Some (h, [p]) =>
      match read_node h p with
      | (o, t, [s]) => Some (o, t, read_node h s)
      | _ => None
      end
  | _ => None
  end = Some (QAnd, [abc; rst], (QOr, [uvw; xyz], [])).
Proof. vm_compute. reflexivity. Qed.
