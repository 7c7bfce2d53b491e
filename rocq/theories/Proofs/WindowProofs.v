(** The context of all matches of a file together. *)
From Verif Require Import Model.Base Model.Grep Model.Matcher Spec.MatchSpec Spec.GrepSpec Spec.ClientSpec Spec.PresentSpec
  Spec.WholeSpec Proofs.SplitProofs Proofs.MatchTop Proofs.GrepProofs Proofs.GrepTop Proofs.ContextProofs Proofs.ClientServer.
From Coq Require Import Sorted Lia.
Local Open Scope nat_scope.

Lemma lastn_len : forall {A} n (l : list A), length (lastn n l) = Nat.min n (length l).
Proof. intros A n l. unfold lastn. rewrite skipn_length. lia. Qed.

Section Window.
  Context (lines : list str) (nctx : nat) (out : list hit).
  Hypothesis IN : forall h, In h out -> 1 <= h_no h <= length lines.
  Hypothesis AF : forall h, In h out -> h_after h = firstn nctx (skipn (h_no h) lines).
  Hypothesis BE : forall h, In h out -> exists j, (j = 0 \/ exists h', In h' out /\ h_no h' = j) /\ j < h_no h /\
    (forall h', In h' out -> ~ (j < h_no h' < h_no h)) /\
    h_before h = lastn nctx (drop_head (skipn j (firstn (h_no h - 1) lines))).

  Lemma last_is : forall h, In h out -> last_line h = h_no h + Nat.min nctx (length lines - h_no h).
  Proof. intros h I. unfold last_line. rewrite (AF h I), firstn_length, skipn_length. reflexivity. Qed.

  Lemma drop_head_case : forall j n, j < n -> n <= length lines ->
    (nth_error lines j = Some [] /\ length (drop_head (skipn j (firstn n lines))) = n - j - 1) \/
    (nth_error lines j <> Some [] /\ length (drop_head (skipn j (firstn n lines))) = n - j).
  Proof.
    intros j n L L'. pose proof (skipn_length j (firstn n lines)) as SL. rewrite firstn_length in SL.
    assert (nth_error (skipn j (firstn n lines)) 0 = nth_error lines j) as E.
    { rewrite <- (firstn_skipn n lines) at 2. rewrite nth_error_app1 by (rewrite firstn_length; lia).
      rewrite <- (firstn_skipn j (firstn n lines)) at 2.
      rewrite nth_error_app2; rewrite !firstn_length; [|lia]. f_equal. lia. }
    destruct (skipn j (firstn n lines)) as [|[|c x] r] eqn:ES; cbn [drop_head length nth_error] in *; [lia| |].
    - left. split; [congruence|lia].
    - right. split; [congruence|lia].
  Qed.

  Lemma before_empty : forall j n, n <= j -> skipn j (firstn n lines) = [].
  Proof. intros j n L. apply skipn_all2. rewrite firstn_length. lia. Qed.

  (** Line [k] (from 1) is in the context of a hit. *)
  Lemma window : forall k, 1 <= k <= length lines ->
    ((exists h, In h out /\ first_line h <= k <= last_line h) <->
     (exists h, In h out /\ h_no h <= k + nctx /\ k <= h_no h + nctx) /\
     (k = 1 -> nth_error lines 0 = Some [] -> exists h, In h out /\ h_no h = 1)).
  Proof.
    intros k K. split.
    - intros (h & I & L1 & L2). pose proof (IN h I) as R. pose proof (last_is h I) as LI.
      destruct (BE h I) as (j & PJ & J & NB & EB).
      assert (length (h_before h) <= nctx) by (rewrite EB, lastn_len; lia). unfold first_line in L1. split.
      + exists h. split; [exact I|]. lia.
      + intros -> E. destruct (Nat.eq_dec (h_no h) 1) as [E1|N1]; [eauto|].
        destruct (Nat.eq_dec j 0) as [->|NJ].
        * exfalso. destruct (drop_head_case 0 (h_no h - 1)) as [[_ L]|[X _]]; [lia|lia| |contradiction].
          rewrite EB, lastn_len, L in L1. lia.
        * destruct PJ as [->|(h' & I' & E')]; [lia|]. exfalso.
          assert (LL : length (drop_head (skipn j (firstn (h_no h - 1) lines))) <= h_no h - 1 - j).
          { destruct (Nat.le_gt_cases (h_no h - 1) j) as [L|L]; [rewrite before_empty by exact L; cbn; lia|].
            destruct (drop_head_case j (h_no h - 1) L ltac:(lia)) as [[_ ->]|[_ ->]]; lia. }
          rewrite EB, lastn_len in L1. lia.
    - intros ((h & I & L1 & L2) & FE).
      remember (h_no h - k) as n eqn:En. revert h I L1 L2 En. induction n as [n IHn] using (well_founded_induction Nat.lt_wf_0).
      intros h I L1 L2 ->. pose proof (IN h I) as R. pose proof (last_is h I) as LI.
      destruct (BE h I) as (j & PJ & J & NB & EB).
      destruct (Nat.le_gt_cases (h_no h) k) as [G|L].
      { exists h. split; [exact I|]. unfold first_line. lia. }
      assert (LAST : k <= last_line h) by lia.
      destruct (Nat.le_gt_cases k j) as [KJ|KJ].
      { destruct PJ as [->|(h' & I' & E')]; [lia|]. apply (IHn (h_no h' - k) ltac:(lia) h'); auto; lia. }
      destruct (drop_head_case j (h_no h - 1)) as [[E LD]|[_ LD]]; [lia|lia| |].
      + destruct (Nat.eq_dec k (S j)) as [->|NK].
        * destruct PJ as [->|(h' & I' & E')].
          -- destruct (FE eq_refl E) as (h1 & I1 & E1). exfalso. apply (NB h1 I1). lia.
          -- exists h'. split; [exact I'|]. pose proof (last_is h' I') as LI'. unfold first_line. lia.
        * exists h. split; [exact I|]. split; [|exact LAST]. unfold first_line. rewrite EB, lastn_len, LD. lia.
      + exists h. split; [exact I|]. split; [|exact LAST]. unfold first_line. rewrite EB, lastn_len, LD. lia.
  Qed.

  (** The rows that cover the hits are the lines near the hits. *)
  Lemma rows_near : forall pieces (M : nat -> Prop) rs,
    (forall k t, nth_error lines k = Some t -> nth_error pieces k = Some t) ->
    (forall k, k < length lines -> (M k <-> exists h, In h out /\ h_no h = S k)) ->
    covers pieces out rs -> rows_shown nctx lines M rs.
  Proof.
    intros pieces M rs LP MM (SS & CV & RW). split; [exact SS|]. intros no t mk.
    assert (NEAR : forall k t, k < length lines -> nth_error lines k = Some t ->
      ((exists h, In h out /\ (Z.of_nat (first_line h) <= Z.of_nat (S k) <= Z.of_nat (last_line h))%Z) <->
       (exists k', k' < length lines /\ M k' /\ k' <= k + nctx /\ k <= k' + nctx) /\ (k = 0 -> t = [] -> M 0))).
    { intros k t' Lk Nk. pose proof (window (S k) ltac:(lia)) as W.
      assert (X : (exists h, In h out /\ (Z.of_nat (first_line h) <= Z.of_nat (S k) <= Z.of_nat (last_line h))%Z) <->
                  exists h, In h out /\ first_line h <= S k <= last_line h).
      { split; intros (h & I & L); exists h; (split; [exact I|lia]). }
      rewrite X, W. clear X W. split; intros (A & B); split.
      - destruct A as (h & I & L1 & L2). pose proof (IN h I) as R. exists (h_no h - 1). split; [lia|]. split; [|lia].
        apply MM; [lia|]. exists h. split; [exact I|lia].
      - intros -> ->. destruct (B eq_refl Nk) as (h & I & E). apply MM; [lia|]. eauto.
      - destruct A as (k' & L' & Mk & L1 & L2). apply MM in Mk; [|exact L']. destruct Mk as (h & I & E).
        exists h. split; [exact I|lia].
      - intros E0 N0. assert (k = 0) as -> by lia. assert (t' = []) as -> by congruence.
        destruct (proj1 (MM 0 Lk) (B eq_refl eq_refl)) as (h & I & E). eauto. }
    assert (MK : forall k, k < length lines -> (M k <-> exists m, In m out /\ Z.of_nat (h_no m) = Z.of_nat (S k))).
    { intros k Lk. rewrite (MM k Lk). split; intros (h & I & E); exists h; (split; [exact I|lia]). }
    split.
    - intros I. destruct (RW no t mk I) as (P & NP & MT).
      destruct (proj1 (CV no) (ex_intro _ t (ex_intro _ mk I))) as (h & Ih & B).
      pose proof (IN h Ih) as R. pose proof (last_is h Ih) as LI.
      exists (Z.to_nat no - 1). assert (Lk : Z.to_nat no - 1 < length lines) by lia.
      assert (E : no = Z.of_nat (S (Z.to_nat no - 1))) by lia. split; [exact E|].
      assert (Nk : nth_error lines (Z.to_nat no - 1) = Some t).
      { destruct (nth_error lines (Z.to_nat no - 1)) as [t'|] eqn:EN; [|apply nth_error_None in EN; lia].
        apply LP in EN. congruence. }
      split; [exact Nk|]. split; [rewrite (MK _ Lk), <- E; exact MT|].
      apply (NEAR _ t Lk Nk). exists h. split; [exact Ih|lia].
    - intros (k & -> & Nk & MT & NR).
      assert (Lk : k < length lines) by (apply nth_error_Some; congruence).
      apply (NEAR k t Lk Nk) in NR. destruct (proj2 (CV (Z.of_nat (S k))) NR) as (t' & mk' & I).
      destruct (RW _ _ _ I) as (_ & NP & MT'). replace (Z.to_nat (Z.of_nat (S k)) - 1) with k in NP by lia.
      apply LP in Nk. assert (t' = t) as -> by congruence. rewrite <- (MK k Lk) in MT'.
      assert (mk' = mk) as -> by (destruct mk, mk'; tauto || (symmetry; tauto)). exact I.
  Qed.
End Window.
