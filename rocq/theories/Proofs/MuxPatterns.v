(** net/http's ServeMux with any patterns. *)
From Coq Require Import Sorted Permutation Lia.
From Verif Require Import Model.Base Model.GoStr Model.Mux Spec.Names Spec.MuxSpec Proofs.StrLemmas Proofs.GoStrProofs Proofs.MuxProofs.
Local Open Scope N_scope.

Lemma firstn_app_l : forall {A} (a b : list A), firstn (length a) (a ++ b) = a.
Proof. intros A a b. rewrite firstn_app, Nat.sub_diag, firstn_O, app_nil_r. apply firstn_all. Qed.
Section Patterns.
Context {H : Type}.
Definition register (rs : list (str * H)) : option (mux H) :=
  fold_left (fun m e => m <- m ;; handle m (fst e) (snd e)) rs (Some (mkMux [] [])).

Definition slashed (q : str) : bool := match last_byte q with Some l => l =? 47 | None => false end.
Lemma slashed_ok : forall q, slashed q = true <-> ends_slash q.
Proof.
  intros q. unfold slashed, last_byte, ends_slash. change (text "/") with [47]. split.
  - destruct (rev q) as [|c t] eqn:E; [discriminate|]. intros X. apply N.eqb_eq in X. subst c. exists (rev t). rewrite <- (rev_involutive q), E. reflexivity.
  - intros (x & ->). rewrite rev_app_distr. reflexivity.
Qed.
Lemma last_none : forall q, last_byte q = None <-> q = [].
Proof.
  intros q. unfold last_byte. split; [|intros ->; reflexivity]. destruct (rev q) as [|c t] eqn:E; [|discriminate]. intros _. rewrite <- (rev_involutive q), E. reflexivity.
Qed.
Definition longer (a b : str * H) : Prop := (length (fst b) <= length (fst a))%nat.
Lemma sorted_in : forall (es : list (str * H)) e, Permutation (appendSorted es e) (e :: es).
Proof.
  intros es e. induction es as [|x es IH]; [apply Permutation_refl|]. cbn [appendSorted]. destruct (Nat.ltb (length (fst x)) (length (fst e))); [apply Permutation_refl|].
  eapply Permutation_trans; [apply perm_skip; exact IH|apply perm_swap].
Qed.
Lemma sorted_kept : forall (es : list (str * H)) e, StronglySorted longer es -> StronglySorted longer (appendSorted es e).
Proof.
  intros es e. induction es as [|x es IH]; intros SO; cbn [appendSorted]; [repeat constructor|]. inversion SO as [|? ? SO' FA]; subst.
  destruct (Nat.ltb_spec (length (fst x)) (length (fst e))) as [L|L].
  - constructor; [exact SO|]. constructor; [unfold longer; lia|]. rewrite Forall_forall in *. intros y I. specialize (FA y I). unfold longer in *. lia.
  - constructor; [apply IH; exact SO'|]. rewrite Forall_forall in *. intros y I. apply (Permutation_in _ (sorted_in es e)) in I. destruct I as [<-|I]; [exact L|exact (FA y I)].
Qed.

(** A mux with these patterns. *)
Record holds (rs : list (str * H)) (m : mux H) : Prop := {
  h_table : m_table m = rs;
  h_nodup : NoDup (map fst rs);
  h_names : ~ In [] (map fst rs);
  h_es : Permutation (m_es m) (filter (fun e => slashed (fst e)) rs);
  h_sorted : StronglySorted longer (m_es m) }.

Lemma nodup_snoc : forall {A} (l : list A) x, NoDup l -> ~ In x l -> NoDup (l ++ [x]).
Proof.
  intros A l x ND NI. apply (Permutation_NoDup (l := x :: l)); [|constructor; assumption]. apply Permutation_cons_append.
Qed.
Lemma handle_ok : forall rs m p h m', holds rs m -> handle m p h = Some m' -> holds (rs ++ [(p, h)]) m'.
Proof.
  intros rs m p h m' HO E. unfold handle in E. destruct (last_byte p) as [l|] eqn:L; [|discriminate]. destruct (lookup (m_table m) p) eqn:K; [discriminate|]. injection E as <-.
  destruct HO as [T ND NN ES SO]. rewrite T in K. apply lookup_none in K.
  assert (SL : (l =? slash) = slashed p) by (unfold slashed; rewrite L; reflexivity). rewrite SL.
  constructor; cbn [m_table m_es].
  - congruence.
  - rewrite map_app. apply nodup_snoc; assumption.
  - rewrite map_app, in_app_iff. intros [I|[I|[]]]; [exact (NN I)|]. cbn [fst] in I. subst p. discriminate.
  - rewrite filter_app. cbn [filter fst]. destruct (slashed p).
    + eapply Permutation_trans; [apply sorted_in|]. eapply Permutation_trans; [apply perm_skip; exact ES|]. apply Permutation_cons_append.
    + rewrite app_nil_r. exact ES.
  - destruct (slashed p); [apply sorted_kept|]; exact SO.
Qed.
Lemma register_snoc : forall rs e, register (rs ++ [e]) = (m <- register rs ;; handle m (fst e) (snd e)).
Proof. intros rs e. unfold register. rewrite fold_left_app. reflexivity. Qed.
Lemma register_holds : forall rs m, register rs = Some m -> holds rs m.
Proof.
  intros rs. induction rs as [|[p h] rs IH] using rev_ind; intros m E.
  - injection E as <-. constructor; cbn [m_table m_es map filter]; [reflexivity|constructor|intros []|apply perm_nil|constructor].
  - rewrite register_snoc in E. destruct (register rs) as [m0|]; [|discriminate]. cbn [bind fst snd] in E. exact (handle_ok _ _ _ _ _ (IH m0 eq_refl) E).
Qed.
Theorem register_when : forall rs, (exists m, register rs = Some m) <-> NoDup (map fst rs) /\ ~ In [] (map fst rs).
Proof.
  intros rs. split; [intros (m & E); destruct (register_holds _ _ E); auto|].
  induction rs as [|[p h] rs IH] using rev_ind; intros (ND & NN); [eexists; reflexivity|].
  rewrite map_app in ND, NN. cbn [map fst] in ND, NN.
  assert (ND' : NoDup (map fst rs) /\ ~ In p (map fst rs)).
  { apply (Permutation_NoDup (Permutation_sym (Permutation_cons_append (map fst rs) p))) in ND. inversion ND; subst. auto. }
  destruct IH as (m & E); [split; [apply ND'|intros I; apply NN; apply in_app_iff; left; exact I]|].
  rewrite register_snoc, E. cbn [bind fst snd]. unfold handle. destruct (last_byte p) eqn:L; [|apply last_none in L; subst p; exfalso; apply NN; apply in_app_iff; right; left; reflexivity].
  rewrite (h_table _ _ (register_holds _ _ E)). destruct (lookup rs p) eqn:K; [|eexists; reflexivity].
  exfalso. apply (proj2 ND'). apply lookup_in in K; [|apply ND']. apply (in_map fst) in K. exact K.
Qed.

Lemma find_first : forall (es : list (str * H)) p e, StronglySorted longer es -> find (fun e => has_prefix p (fst e)) es = Some e ->
  In e es /\ has_prefix p (fst e) = true /\ forall e', In e' es -> has_prefix p (fst e') = true -> (length (fst e') <= length (fst e))%nat.
Proof.
  intros es p e. induction es as [|x es IH]; intros SO F; [discriminate|]. cbn [find] in F. inversion SO as [|? ? SO' FA]; subst. destruct (has_prefix p (fst x)) eqn:P.
  - injection F as <-. split; [left; reflexivity|]. split; [exact P|]. intros e' [<-|I] _; [lia|]. rewrite Forall_forall in FA. exact (FA e' I).
  - destruct (IH SO' F) as (I & P' & M). split; [right; exact I|]. split; [exact P'|]. intros e' [<-|I'] Q; [congruence|exact (M e' I' Q)].
Qed.

Lemma match_ok : forall rs m p h, holds rs m -> (mux_match m p = Some h <-> chosen rs p h).
Proof.
  intros rs m p h [T ND NN ES SO]. unfold mux_match. rewrite T. destruct (lookup rs p) as [h0|] eqn:K.
  - apply lookup_in in K; [|exact ND]. split.
    + intros E. injection E as <-. apply c_exact. exact K.
    + intros C. destruct C as [h I|q h y NI _ _ _ _].
      * f_equal. assert (Z : lookup rs p = Some h) by (apply lookup_in; assumption). apply (lookup_in rs p h0 ND) in K. congruence.
      * exfalso. apply NI. apply (in_map fst) in K. exact K.
  - apply lookup_none in K. destruct (find (fun e => has_prefix p (fst e)) (m_es m)) as [[q h0]|] eqn:F.
    + destruct (find_first _ _ _ SO F) as (I & P & M). cbn [fst snd] in *. apply (Permutation_in _ ES) in I. apply filter_In in I. destruct I as (I & SL). cbn [fst] in SL. apply slashed_ok in SL.
      apply has_prefix_iff in P. destruct P as (y & Y).
      assert (MAX : forall q' y', In q' (map fst rs) -> ends_slash q' -> p = q' ++ y' -> (length q' <= length q)%nat).
      { intros q' y' I' S' E'. apply in_map_iff in I'. destruct I' as ([q1 h1] & <- & I'). apply (M (q1, h1)).
        - apply (Permutation_in _ (Permutation_sym ES)). apply filter_In. split; [exact I'|]. apply slashed_ok. exact S'.
        - apply has_prefix_iff. exists y'. exact E'. }
      split.
      * intros E. injection E as <-. exact (c_under rs p q h0 y K I SL Y MAX).
      * intros C. destruct C as [h I'|q' h y' _ I' S' E' MAX']; [exfalso; apply K; apply (in_map fst) in I'; exact I'|].
        assert (L1 : (length q' <= length q)%nat) by (apply (MAX q' y'); [apply (in_map fst) in I'; exact I'|exact S'|exact E']).
        assert (L2 : (length q <= length q')%nat) by (apply (MAX' q y); [apply (in_map fst) in I; exact I|exact SL|exact Y]).
        assert (q' = q).
        { assert (X : firstn (length q) p = q) by (rewrite Y; apply firstn_app_l). assert (X' : firstn (length q') p = q') by (rewrite E'; apply firstn_app_l).
          rewrite <- X, <- X'. f_equal. lia. }
        subst q'. f_equal. apply (lookup_in rs q h0 ND) in I. apply (lookup_in rs q h ND) in I'. congruence.
    + split; [discriminate|]. intros C. exfalso. destruct C as [h I'|q' h y' _ I' S' E' MAX']; [apply K; apply (in_map fst) in I'; exact I'|].
      assert (X : has_prefix p (fst (q', h)) = true) by (apply has_prefix_iff; exists y'; exact E').
      rewrite (find_none _ _ F (q', h)) in X; [discriminate|]. apply (Permutation_in _ (Permutation_sym ES)). apply filter_In. split; [exact I'|]. apply slashed_ok. exact S'.
Qed.
Lemma to_slash_ok : forall rs m p, holds rs m -> (to_slash m p = true <-> needs_slash rs p).
Proof.
  intros rs m p [T ND NN ES SO]. unfold to_slash, needs_slash. rewrite T. change (text "/") with [slash]. destruct (lookup rs p) eqn:K.
  - split; [discriminate|]. intros (_ & _ & NI & _). exfalso. apply NI. apply lookup_in in K; [|exact ND]. apply (in_map fst) in K. exact K.
  - apply lookup_none in K. destruct (last_byte p) as [l|] eqn:L.
    + assert (NE : p <> []) by (intros E; apply last_none in E; congruence). assert (SL : (l =? slash) = slashed p) by (unfold slashed; rewrite L; reflexivity).
      rewrite SL. destruct (lookup rs (p ++ [slash])) eqn:K2.
      * apply lookup_in in K2; [|exact ND]. apply (in_map fst) in K2. cbn [fst] in K2. split.
        { intros X. split; [exact NE|]. split; [|split; assumption]. intros Y. apply slashed_ok in Y. rewrite Y in X. discriminate. }
        { intros (_ & Y & _). destruct (slashed p) eqn:Z; [|reflexivity]. exfalso. apply Y. apply slashed_ok. exact Z. }
      * apply lookup_none in K2. split; [discriminate|]. intros (_ & _ & _ & I). contradiction.
    + apply last_none in L. split; [discriminate|]. intros (NE & _). contradiction.
Qed.

Theorem dispatch_ok : forall rs m r o, register rs = Some m -> (dispatch m r = Some o <-> dispatched rs r o).
Proof.
  intros rs m r o RE. pose proof (register_holds _ _ RE) as HO. unfold dispatch. destruct (q_star r) eqn:QS.
  { split; [intros E; injection E as <-; apply d_star; exact QS|]. intros D. inversion D; subst; congruence. }
  assert (WAY : forall path, (forall p, wants r p <-> p = path) ->
    (Some (if to_slash m path then Moved (path ++ [slash]) (q_query r) else if str_eqb path (q_path r) then match mux_match m (q_path r) with Some h => Handled h | None => Missing end else Moved path (q_query r)) = Some o
      <-> dispatched rs r o)).
  { intros path W. destruct (to_slash m path) eqn:TS.
    - apply (to_slash_ok _ _ _ HO) in TS. split.
      + intros E. injection E as <-. apply (d_slash rs r path QS); [apply W; reflexivity|exact TS].
      + intros D. destruct D as [X|p _ Wp NSp|p _ Wp NSp _|h _ Wp NSp _|_ Wp NSp _]; [congruence| | | |]; apply W in Wp; [subst p; reflexivity|subst p; contradiction|rewrite Wp in NSp; contradiction|rewrite Wp in NSp; contradiction].
    - assert (NS : ~ needs_slash rs path) by (intros X; apply (to_slash_ok _ _ _ HO) in X; congruence).
      destruct (str_eqb path (q_path r)) eqn:EQ.
      + apply str_eqb_eq in EQ. subst path. destruct (mux_match m (q_path r)) as [h|] eqn:M.
        * split.
          { intros E. injection E as <-. apply d_there; [exact QS|apply W; reflexivity|exact NS|]. apply (match_ok _ _ _ _ HO). exact M. }
          { intros D. destruct D as [X|p _ Wp NSp|p _ Wp _ NEp|h' _ Wp NSp C|_ Wp NSp C]; [congruence|apply W in Wp; subst p; contradiction|apply W in Wp; contradiction| |].
            - apply (match_ok _ _ _ _ HO) in C. congruence.
            - exfalso. apply (C h). apply (match_ok _ _ _ _ HO). exact M. }
        * split.
          { intros E. injection E as <-. apply d_none; [exact QS|apply W; reflexivity|exact NS|]. intros h C. apply (match_ok _ _ _ _ HO) in C. congruence. }
          { intros D. destruct D as [X|p _ Wp NSp|p _ Wp _ NEp|h' _ Wp NSp C|_ Wp NSp C]; [congruence|apply W in Wp; subst p; contradiction|apply W in Wp; contradiction| |reflexivity].
            apply (match_ok _ _ _ _ HO) in C. congruence. }
      + assert (NE : path <> q_path r) by (intros X; subst path; rewrite str_eqb_refl in EQ; discriminate). split.
        * intros E. injection E as <-. apply (d_moved rs r path QS); [apply W; reflexivity|exact NS|exact NE].
        * intros D. destruct D as [X|p _ Wp NSp|p _ Wp _ NEp|h' _ Wp NSp C|_ Wp NSp C]; [congruence| | | |]; apply W in Wp; [subst p; contradiction|subst p; reflexivity|congruence|congruence]. }
  destruct (q_connect r) eqn:QC.
  - rewrite <- (WAY (q_path r)); [rewrite str_eqb_refl; reflexivity|]. intros p. unfold wants. rewrite QC. intuition discriminate.
  - destruct (clean_total (q_path r)) as (path & E). rewrite E. cbn [bind]. rewrite <- (WAY path); [reflexivity|].
    intros p. unfold wants. rewrite QC, proper_clean, E. split; [intros [(X & _)|(_ & X)]; congruence|intros ->; right; split; reflexivity].
Qed.
End Patterns.
