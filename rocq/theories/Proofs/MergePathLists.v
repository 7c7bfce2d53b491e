(** merge.go:111-132, paths of the merged index. *)
From Coq Require Import Sorted.
From Verif Require Import Model.Base Model.Writer Model.GoStr Model.IndexMerge Spec.RunSpec Spec.MergeSpec
  Proofs.Arith Proofs.StrLemmas Proofs.GoStrProofs Proofs.MergeProofs Proofs.ReaderProofs Proofs.MergeRanges.
Local Open Scope N_scope.

Fixpoint mins (last : str) (zs : list str) : list str :=
  match zs with [] => [] | z :: r => if has_prefix z last then mins last r else z :: mins z r end.
Fixpoint omerge (fuel : nat) (p1 p2 : list str) : list str :=
  match fuel with
  | O => []
  | S f => match p1, p2 with
           | [], [] => []
           | x :: q1, [] => x :: omerge f q1 []
           | [], y :: q2 => y :: omerge f [] q2
           | x :: q1, y :: q2 => if str_leb x y then x :: omerge f q1 p2 else y :: omerge f p1 q2
           end
  end.
Lemma merge_paths_eq : forall fuel p1 p2 last, merge_paths fuel p1 p2 last = mins last (omerge fuel p1 p2).
Proof.
  induction fuel as [|f IH]; intros p1 p2 last; [reflexivity|]. cbn [merge_paths omerge].
  destruct p1 as [|x q1]; destruct p2 as [|y q2]; [reflexivity|cbn [mins]; rewrite !IH; reflexivity|cbn [mins]; rewrite !IH; reflexivity|].
  destruct (str_leb x y); cbn [mins]; rewrite !IH; reflexivity.
Qed.
Lemma omerge_in : forall fuel p1 p2 x, (length p1 + length p2 <= fuel)%nat -> (In x (omerge fuel p1 p2) <-> In x p1 \/ In x p2).
Proof.
  induction fuel as [|f IH]; intros p1 p2 x L.
  - destruct p1; [|cbn in L; lia]. destruct p2; [|cbn in L; lia]. cbn. tauto.
  - cbn [omerge]. destruct p1 as [|a q1]; destruct p2 as [|b q2].
    + cbn. tauto.
    + cbn [In]. rewrite IH by (cbn in *; lia). cbn. tauto.
    + cbn [In]. rewrite IH by (cbn in *; lia). cbn. tauto.
    + destruct (str_leb a b); cbn [In]; rewrite IH by (cbn in *; lia); cbn; tauto.
Qed.
Lemma sle_trans : forall a b c, sle a b -> sle b c -> sle a c.
Proof. unfold sle. intros a b c A B L. apply A. apply (le_lex_trans b c a B L). Qed.
Lemma leb_sle : forall a b, str_leb a b = true <-> sle a b.
Proof. intros a b. unfold str_leb, sle. rewrite <- not_lex. destruct (str_ltb b a); cbn; split; congruence. Qed.
Lemma nleb_sle : forall a b, str_leb a b = false -> sle b a.
Proof. intros a b H. unfold str_leb in H. intros L. destruct (str_ltb b a) eqn:E; [|discriminate]. apply lex_ltb in E.
  pose proof (lex_trans _ _ _ L E) as X. apply lex_ltb in X. rewrite str_ltb_irrefl in X. discriminate. Qed.
Lemma omerge_sorted : forall fuel p1 p2, StronglySorted sle p1 -> StronglySorted sle p2 -> (length p1 + length p2 <= fuel)%nat ->
  StronglySorted sle (omerge fuel p1 p2).
Proof.
  induction fuel as [|f IH]; intros p1 p2 S1 S2 L; [constructor|]. cbn [omerge]. destruct p1 as [|a q1]; destruct p2 as [|b q2]; [constructor| | |].
  - inversion S2 as [|? ? A B]; subst. rewrite Forall_forall in B. constructor; [apply IH; [exact S1|exact A|cbn in *; lia]|]. apply Forall_forall. intros x I.
    apply omerge_in in I; [|cbn in *; lia]. destruct I as [[]|I]. apply B, I.
  - inversion S1 as [|? ? A B]; subst. rewrite Forall_forall in B. constructor; [apply IH; [exact A|exact S2|cbn in *; lia]|]. apply Forall_forall. intros x I.
    apply omerge_in in I; [|cbn in *; lia]. destruct I as [I|[]]. apply B, I.
  - inversion S1 as [|? ? A1 B1]; subst. inversion S2 as [|? ? A2 B2]; subst. rewrite Forall_forall in B1, B2. destruct (str_leb a b) eqn:E.
    + apply leb_sle in E. constructor; [apply IH; [exact A1|exact S2|cbn in *; lia]|]. apply Forall_forall. intros x I.
      apply omerge_in in I; [|cbn in *; lia]. destruct I as [I|[<-|I]]; [apply B1, I|exact E|]. apply (sle_trans _ b); [exact E|apply B2, I].
    + apply nleb_sle in E. constructor; [apply IH; [exact S1|exact A2|cbn in *; lia]|]. apply Forall_forall. intros x I.
      apply omerge_in in I; [|cbn in *; lia]. destruct I as [[<-|I]|I]; [exact E| |apply B2, I]. apply (sle_trans _ a); [exact E|apply B1, I].
Qed.

Lemma prefix_iff : forall p x, has_prefix x p = true <-> prefix p x.
Proof. intros. apply has_prefix_iff. Qed.
Lemma prefix_refl : forall p, prefix p p.
Proof. intros p. exists []. symmetry. apply app_nil_r. Qed.
Lemma prefix_trans : forall a b c, prefix a b -> prefix b c -> prefix a c.
Proof. intros a b c (s & ->) (s' & ->). exists (s ++ s'). rewrite app_assoc. reflexivity. Qed.
(** The strings under a path are an interval. *)
Lemma prefix_between : forall p z x, prefix p x -> sle p z -> sle z x -> prefix p z.
Proof.
  unfold sle. induction p as [|c p IH]; intros z x (s & E) A B; [exists z; reflexivity|]. destruct z as [|a z]; [destruct A; constructor|].
  destruct (N.lt_trichotomy a c) as [L|[->|L]].
  - destruct A. apply lex_head, L.
  - destruct (IH z (p ++ s)) as (s' & ->).
    + exists s. reflexivity.
    + intros X. apply A. apply lex_tail, X.
    + intros X. apply B. rewrite E. apply lex_tail, X.
    + exists s'. reflexivity.
  - destruct B. rewrite E. apply lex_head, L.
Qed.
Lemma lex_of_prefix : forall y z, prefix y z -> sle z y -> y = z.
Proof.
  intros y z (s & ->) H. destruct s as [|c s]; [symmetry; apply app_nil_r|]. exfalso. apply H. clear H. induction y as [|a y IH]; cbn; [constructor|apply lex_tail, IH].
Qed.
Lemma sle_refl : forall a, sle a a.
Proof. intros a L. apply lex_ltb in L. rewrite str_ltb_irrefl in L. discriminate. Qed.
Lemma sle_anti : forall a b, sle a b -> sle b a -> a = b.
Proof. intros a b A B. apply not_lex in A, B. apply str_ltb_total; assumption. Qed.
Lemma sle_cases : forall a b, sle a b -> a = b \/ lex a b.
Proof. intros a b A. destruct (str_ltb a b) eqn:E; [right; apply lex_ltb, E|]. left. apply sle_anti; [exact A|apply not_lex, E]. Qed.

Lemma mins_in : forall zs last, StronglySorted sle zs -> (forall z, In z zs -> sle last z) -> forall x,
  (In x (mins last zs) <-> In x zs /\ ~ prefix last x /\ forall y, In y zs -> prefix y x -> y = x).
Proof.
  induction zs as [|z r IH]; intros last S B x; [cbn; tauto|]. inversion S as [|? ? S1 S2]; subst. rewrite Forall_forall in S2. cbn [mins].
  destruct (has_prefix z last) eqn:E.
  - apply prefix_iff in E. rewrite IH; [|exact S1|intros y I; apply B; right; exact I]. split.
    + intros (I & NP & M). split; [right; exact I|]. split; [exact NP|]. intros y [<-|J] P; [|apply M; assumption].
      destruct NP. apply (prefix_trans _ _ _ E P).
    + intros ([<-|I] & NP & M); [contradiction|]. split; [exact I|]. split; [exact NP|]. intros y J P. apply M; [right; exact J|exact P].
  - assert (NE : ~ prefix last z) by (intros P; apply prefix_iff in P; congruence).
    cbn [In]. rewrite (IH z); [|exact S1|intros y I; apply S2, I]. split.
    + intros [<-|(I & NP & M)].
      * split; [left; reflexivity|]. split; [exact NE|]. intros y [<-|J] P; [reflexivity|]. apply lex_of_prefix; [exact P|apply S2, J].
      * split; [right; exact I|]. split.
        -- intros P. apply NE. apply (prefix_between last z x P); [apply B; left; reflexivity|apply S2, I].
        -- intros y [<-|J] P; [contradiction|]. apply M; assumption.
    + intros ([<-|I] & NP & M); [left; reflexivity|]. destruct (has_prefix x z) eqn:Q.
      * apply prefix_iff in Q. left. apply M; [left; reflexivity|exact Q].
      * right. split; [exact I|]. split; [intros P; apply prefix_iff in P; congruence|]. intros y J P. apply M; [right; exact J|exact P].
Qed.
Lemma mins_sub : forall zs last x, In x (mins last zs) -> In x zs.
Proof.
  induction zs as [|z r IH]; intros last x; [auto|]. cbn [mins]. destruct (has_prefix z last); [intros I; right; apply (IH _ _ I)|].
  intros [<-|I]; [left; reflexivity|right; apply (IH _ _ I)].
Qed.
Lemma mins_sorted : forall zs last, StronglySorted sle zs -> (forall z, In z zs -> sle last z) -> StronglySorted lex (mins last zs).
Proof.
  induction zs as [|z r IH]; intros last S B; [constructor|]. inversion S as [|? ? S1 S2]; subst. rewrite Forall_forall in S2. cbn [mins].
  destruct (has_prefix z last); [apply IH; [exact S1|intros y I; apply B; right; exact I]|].
  constructor; [apply IH; [exact S1|exact S2]|]. apply Forall_forall. intros x I.
  apply mins_in in I; [|exact S1|exact S2]. destruct I as (I & NP & _). destruct (sle_cases z x (S2 x I)) as [<-|L]; [|exact L].
  destruct NP. apply prefix_refl.
Qed.

Lemma merge_paths_spec : forall ps1 ps2, Forall path_ok ps1 -> Forall path_ok ps2 -> StronglySorted sle ps1 -> StronglySorted sle ps2 ->
  paths_merged ps1 ps2 (merge_paths (length ps1 + length ps2) ps1 ps2 [0]).
Proof.
  intros ps1 ps2 O1 O2 S1 S2. rewrite merge_paths_eq. set (k := (length ps1 + length ps2)%nat).
  rewrite Forall_forall in O1, O2.
  assert (IN : forall x, In x (omerge k ps1 ps2) <-> In x ps1 \/ In x ps2) by (intros x; apply omerge_in; unfold k; lia).
  assert (SO : StronglySorted sle (omerge k ps1 ps2)) by (apply omerge_sorted; [exact S1|exact S2|unfold k; lia]).
  assert (OK : forall x, In x (omerge k ps1 ps2) -> path_ok x) by (intros x I; apply IN in I; destruct I; auto).
  assert (B : forall z, In z (omerge k ps1 ps2) -> sle [0] z).
  { intros z I L. destruct (OK z I) as (NE & NF). destruct z as [|a z]; [congruence|]. inversion L as [|? ? ? ? X|? ? ? X]; subst; [lia|inversion X]. }
  split; [apply mins_sorted; assumption|]. intros x. rewrite (mins_in _ _ SO B). split.
  - intros (I & _ & M). split; [apply IN, I|]. intros y J P. apply M; [apply IN, J|exact P].
  - intros (I & M). apply IN in I. split; [exact I|]. split.
    + intros (s & ->). destruct (OK _ I) as (_ & NF). apply NF. left. reflexivity.
    + intros y J P. apply M; [apply IN, J|exact P].
Qed.

Lemma merge_paths_ok : forall ps1 ps2, Forall path_ok ps1 -> Forall path_ok ps2 -> Forall path_ok (merge_paths (length ps1 + length ps2) ps1 ps2 [0]).
Proof.
  intros ps1 ps2 O1 O2. rewrite Forall_forall in *. intros x I. rewrite merge_paths_eq in I. apply mins_sub in I. apply omerge_in in I; [|lia].
  destruct I; auto.
Qed.

Definition psum (ps : list str) : N := fold_right (fun p k => nlen p + 1 + k) 0 ps.
Lemma psum_bytes : forall ps, nlen (paths_bytes ps) = psum ps + 1.
Proof.
  intros ps. unfold paths_bytes. rewrite nlen_app. change (nlen [0]) with 1. f_equal. induction ps as [|p ps IH]; [reflexivity|].
  cbn [map concat psum fold_right]. fold (psum ps). rewrite !nlen_app, IH. change (nlen [0]) with 1. lia.
Qed.
Lemma merge_paths_size : forall fuel ps1 ps2 last, psum (merge_paths fuel ps1 ps2 last) <= psum ps1 + psum ps2.
Proof.
  intros fuel ps1 ps2 last. rewrite merge_paths_eq.
  assert (M : forall zs l, psum (mins l zs) <= psum zs).
  { induction zs as [|z r IH]; intros l; [cbn; lia|]. cbn [mins]. destruct (has_prefix z l); cbn [psum fold_right]; fold (psum r); 
      [specialize (IH l); lia|]. specialize (IH z). fold (psum (mins z r)). lia. }
  etransitivity; [apply M|]. clear. revert ps1 ps2. induction fuel as [|f IH]; intros p1 p2; [cbn; lia|]. cbn [omerge].
  destruct p1 as [|x q1]; destruct p2 as [|y q2].
  - cbn. lia.
  - cbn [psum fold_right]. fold (psum (omerge f [] q2)). fold (psum q2). specialize (IH [] q2). cbn [psum fold_right] in IH. fold (psum q2) in IH. lia.
  - cbn [psum fold_right]. fold (psum (omerge f q1 [])). fold (psum q1). specialize (IH q1 []). cbn [psum fold_right] in IH. fold (psum q1) in IH. lia.
  - destruct (str_leb x y).
    + specialize (IH q1 (y :: q2)). cbn [psum fold_right] in *. fold (psum (omerge f q1 (y :: q2))) in *. fold (psum q1) in *. fold (psum q2) in *. lia.
    + specialize (IH (x :: q1) q2). cbn [psum fold_right] in *. fold (psum (omerge f (x :: q1) q2)) in *. fold (psum q1) in *. fold (psum q2) in *. lia.
Qed.
