(** Positional description of the reported lines. *)
From Verif Require Import Model.Base Model.Grep Spec.MatchSpec Spec.GrepSpec Proofs.SplitProofs Proofs.GrepProofs.
From Coq Require Import Sorted.
Local Open Scope nat_scope.

Definition nos (base : nat) (out : list hit) : list nat := map (fun h => h_no h - base) out.

Section Pos.
Variable P : bool -> bool -> bytes -> Prop.
Variable nctx : nat.

Definition ctx_ok (base : nat) (pcs : list bytes) (out : list hit) (h : hit) : Prop :=
  exists A0 pre post, pcs = A0 ++ pre ++ h_line h :: post /\
    h_no h = base + length A0 + length pre + 1 /\
    fresh (nos base out) (length A0) = true /\
    (forall h', In h' out -> h_no h' <= base + length A0 \/ h_no h <= h_no h') /\
    h_before h = lastn nctx (drop_head pre) /\
    h_after h = firstn nctx (drop_tail post).

Lemma fresh_hd : forall base out, fresh (nos base out) 0 = true.
Proof. reflexivity. Qed.

Lemma fresh_iff : forall base out k, Forall (fun h => base < h_no h) out ->
  fresh (nos base out) k = true <-> k = 0 \/ exists h, In h out /\ h_no h = base + k.
Proof.
  intros base out k B. unfold fresh. rewrite orb_true_iff, Nat.eqb_eq, existsb_exists. split.
  - intros [H|(x & I & E)]; [auto|]. right. apply Nat.eqb_eq in E. subst x.
    apply in_map_iff in I. destruct I as (h & E & I). exists h. split; [assumption|].
    rewrite Forall_forall in B. specialize (B h I). lia.
  - intros [H|(h & I & E)]; [auto|]. right. exists k. rewrite Nat.eqb_refl. split; [|reflexivity].
    apply in_map_iff. exists h. split; [lia|assumption].
Qed.

Lemma scan_pos : forall base pcs out, scan P nctx base pcs out ->
  Forall (fun h => base < h_no h <= base + length pcs) out /\
  StronglySorted lt (map h_no out) /\
  (forall k line, (exists h, In h out /\ h_no h = base + S k /\ h_line h = line) <->
     piece_reported P (nos base out) pcs k line) /\
  (forall h, In h out -> ctx_ok base pcs out h).
Proof.
  intros base pcs out SC. induction SC as [lineno pcs BE|lineno pcs BNE NH|lineno pre line post out BNE HH NH SC IH].
  - split; [constructor|]. split; [constructor|]. split; [|intros h []]. intros k line. split.
    + intros (h & [] & _).
    + intros (Nk & _ & NP). exfalso. apply NP. destruct (joinl_nil pcs BE) as [-> | ->].
      * destruct k; discriminate.
      * destruct k as [|k]; [|destruct k; discriminate]. injection Nk as <-. auto.
  - split; [constructor|]. split; [constructor|]. split; [|intros h []]. intros k line. split.
    + intros (h & [] & _).
    + intros (Nk & Pk & _). exfalso. apply nth_error_split in Nk. destruct Nk as (p & q & -> & <-).
      apply (NH p line q eq_refl). unfold line_hit.
      replace (true && is_nil p)%bool with (fresh (nos lineno []) (length p)).
      2:{ unfold fresh. cbn. destruct p; reflexivity. }
      replace (true && is_nil q)%bool with (Nat.eqb (S (length p)) (length (p ++ line :: q))).
      2:{ rewrite app_length. cbn [length]. destruct q; cbn [is_nil andb length]; [apply Nat.eqb_eq|apply Nat.eqb_neq]; lia. }
      exact Pk.
  - destruct IH as (B & SS & IH & CX).
    set (h0 := hit_of nctx lineno pre line post) in *.
    assert (N0 : h_no h0 = lineno + length pre + 1) by reflexivity.
    assert (B' : Forall (fun h => lineno < h_no h <= lineno + length (pre ++ line :: post)) (h0 :: out)).
    { constructor.
      - rewrite N0, app_length. cbn [length]. lia.
      - eapply Forall_impl; [|exact B]. cbn beta. intros h H. rewrite app_length. cbn [length]. lia. }
    assert (Blt : Forall (fun h => lineno < h_no h) (h0 :: out)).
    { eapply Forall_impl; [|exact B']. cbn beta. intros; lia. }
    assert (Blt2 : Forall (fun h => lineno + length pre + 1 < h_no h) out).
    { eapply Forall_impl; [|exact B]. cbn beta. intros; lia. }
    assert (FR : forall k', fresh (nos lineno (h0 :: out)) (length pre + 1 + k') = fresh (nos (lineno + length pre + 1) out) k').
    { intros k'. apply eq_true_iff_eq. rewrite (fresh_iff lineno _ _ Blt), (fresh_iff _ _ _ Blt2). split.
      - intros [H|(h & [<-|I] & E)]; [lia| |].
        + left. rewrite N0 in E. lia.
        + right. exists h. split; [assumption|lia].
      - intros [->|(h & I & E)]; right.
        + exists h0. split; [left; reflexivity|]. lia.
        + exists h. split; [right; assumption|lia]. }
    assert (FR2 : forall k, k <= length pre -> fresh (nos lineno (h0 :: out)) k = Nat.eqb k 0).
    { intros k L. apply eq_true_iff_eq. rewrite (fresh_iff lineno _ _ Blt), Nat.eqb_eq. split; [|auto].
      intros [H|(h & [<-|I] & E)]; [assumption|lia|].
      rewrite Forall_forall in B. specialize (B h I). lia. }
    split; [exact B'|]. split.
    { cbn [map]. constructor; [assumption|]. apply Forall_map. eapply Forall_impl; [|exact B]. cbn beta. intros; lia. }
    split.
    + intros k l. destruct (Nat.lt_trichotomy k (length pre)) as [LT|[EQ|GT]].
      * split.
        -- intros (h & [<-|I] & E & _); [lia|]. rewrite Forall_forall in B. specialize (B h I). lia.
        -- intros (Nk & Pk & _). exfalso. rewrite nth_error_app1 in Nk by assumption.
           apply nth_error_split in Nk. destruct Nk as (p & q & -> & <-).
           apply (NH p l q eq_refl). unfold line_hit. rewrite FR2 in Pk by lia.
           replace (true && is_nil p)%bool with (length p =? 0) by (destruct p; reflexivity).
           replace (true && is_nil (q ++ line :: post))%bool
             with (S (length p) =? length ((p ++ l :: q) ++ line :: post)); [exact Pk|].
           transitivity false; [apply Nat.eqb_neq; rewrite !app_length; cbn; lia|destruct q; reflexivity].
      * subst k. split.
        -- intros (h & [<-|I] & E & <-); [|rewrite Forall_forall in B; specialize (B h I); lia].
           split; [rewrite nth_error_app2, Nat.sub_diag by lia; reflexivity|]. split.
           ++ rewrite FR2 by lia. unfold line_hit in HH.
              replace (length pre =? 0) with (true && is_nil pre)%bool by (destruct pre; reflexivity).
              replace (S (length pre) =? length (pre ++ line :: post)) with (true && is_nil post)%bool; [exact HH|].
              rewrite app_length. cbn [length]. destruct post; cbn [is_nil andb length]; symmetry;
                [apply Nat.eqb_eq; lia|apply Nat.eqb_neq; lia].
           ++ intros (LL & E0 & FF). apply BNE. rewrite FR2 in FF by lia. apply Nat.eqb_eq in FF.
              destruct pre; [|discriminate]. rewrite app_length in LL. cbn in LL.
              destruct post; [|cbn in LL; lia]. cbn [h_line hit_of h0] in E0. subst. reflexivity.
        -- intros (Nk & _). rewrite nth_error_app2, Nat.sub_diag in Nk by lia. injection Nk as <-.
           exists h0. split; [left; reflexivity|]. split; [lia|reflexivity].
      * replace k with (length pre + 1 + (k - length pre - 1)) by lia.
        set (k' := k - length pre - 1). specialize (IH k' l). split.
        -- intros (h & [<-|I] & E & El); [lia|].
           destruct (proj1 IH) as (Nk & Pk & Ph). { exists h. split; [assumption|]. split; [lia|assumption]. }
           unfold piece_reported. rewrite FR. split; [|split].
           ++ rewrite nth_error_app2 by lia. replace (length pre + 1 + k' - length pre) with (S k') by lia. exact Nk.
           ++ replace (S (length pre + 1 + k') =? length (pre ++ line :: post)) with (S k' =? length post); [exact Pk|].
              rewrite app_length. cbn [length].
              destruct (Nat.eqb_spec (S k') (length post)); symmetry; [apply Nat.eqb_eq; lia|apply Nat.eqb_neq; lia].
           ++ intros (LL & E0 & FF). apply Ph. rewrite app_length in LL. cbn [length] in LL.
              split; [lia|]. split; assumption.
        -- intros (Nk & Pk & Ph). rewrite FR in Pk, Ph.
           destruct (proj2 IH) as (h & I & E & El).
           { split; [|split].
             - rewrite nth_error_app2 in Nk by lia. replace (length pre + 1 + k' - length pre) with (S k') in Nk by lia. exact Nk.
             - replace (S (length pre + 1 + k') =? length (pre ++ line :: post)) with (S k' =? length post) in Pk; [exact Pk|].
               rewrite app_length. cbn [length].
               destruct (Nat.eqb_spec (S k') (length post)); symmetry; [apply Nat.eqb_eq; lia|apply Nat.eqb_neq; lia].
             - intros (LL & E0 & FF). apply Ph. rewrite app_length. cbn [length].
               split; [lia|]. split; assumption. }
           exists h. split; [right; assumption|]. split; [lia|assumption].
    + intros h [<-|I].
      * exists [], pre, post. split; [reflexivity|]. split; [cbn; lia|]. split; [reflexivity|]. split.
        -- intros h' [<-|I']; [right; lia|]. right. rewrite Forall_forall in B. specialize (B h' I'). lia.
        -- split; reflexivity.
      * destruct (CX h I) as (A0 & pr & po & E & En & Fr & NB & Eb & Ea).
        exists (pre ++ line :: A0), pr, po. rewrite E. split; [rewrite <- app_assoc; reflexivity|].
        rewrite app_length. cbn [length]. split; [lia|]. split.
        { replace (length pre + S (length A0)) with (length pre + 1 + length A0) by lia. rewrite FR. assumption. }
        split; [|split; assumption].
        intros h' [<-|I']; [left; lia|]. destruct (NB h' I') as [L|G]; [left|right]; lia.
Qed.
End Pos.
