(** Writing and reading back a text. *)
From Verif Require Import Model.Base Model.Utf8 Model.JsonText Spec.Utf8Spec Spec.IndexSpec Spec.JsonSpec Proofs.Utf8Proofs.
From Coq Require Import Lia.
Local Open Scope N_scope.

Lemma ascii_cases : forall (P : N -> Prop), (forall n, (n < 128)%nat -> P (N.of_nat n)) -> forall b, b < 128 -> P b.
Proof. intros P H b L. rewrite <- (N2Nat.id b). apply H. lia. Qed.

(** Reading a written ASCII character. *)
Lemma read_ascii : forall short fuel b x pre, b < 0x80 ->
  read_text (S fuel) (escape_ascii short b ++ x) pre = read_text fuel x (pre ++ [b]).
Proof.
  intros short fuel b x pre L. revert b L. apply ascii_cases. intros n H.
  do 128 (destruct n as [|n]; [destruct short; reflexivity|]). lia.
Qed.

Lemma ascii_len : forall short b, (1 <= length (escape_ascii short b))%nat.
Proof.
  intros short b. unfold escape_ascii.
  repeat match goal with |- context [if ?c then _ else _] => destruct c end; cbn; lia.
Qed.

Lemma decode_one : forall p0 p c, 0x80 <= p0 -> decode_rune (p0 :: p) = (c, 1%nat) -> c = rune_error.
Proof.
  intros p0 p c L. unfold decode_rune. rewrite (proj2 (N.ltb_ge _ _) L).
  destruct (lead_info p0) as [[[sz lo] hi]|]; [|congruence].
  destruct (Nat.ltb (length (p0 :: p)) sz); [congruence|].
  destruct p as [|b1 p1]; [congruence|]. destruct ((b1 <? lo) || (hi <? b1)); [congruence|].
  destruct (Nat.leb sz 2); [congruence|]. destruct p1 as [|b2 p2]; [congruence|].
  destruct (negb (is_cont b2)); [congruence|]. destruct (Nat.leb sz 3); [congruence|].
  destruct p2 as [|b3 p3]; [congruence|]. destruct (negb (is_cont b3)); congruence.
Qed.

Lemma encode_of_utf8 : forall r bs, utf8 r bs -> encode_rune r = bs.
Proof. intros r bs H. apply utf8_fun with r; [|exact H]. apply encode_rune_utf8. exact (utf8_scalar _ _ H). Qed.

Lemma read_back : forall short n s, (length s <= n)%nat -> Forall is_byte s ->
  exists s', replaced s s' /\ forall fuel rest pre, (length (escape_text short n s) < fuel)%nat ->
    read_text fuel (escape_text short n s ++ 34 :: rest) pre = Some (pre ++ s', rest).
Proof.
  intros short. induction n as [|n IH]; intros s L B.
  - destruct s; [|cbn in L; lia]. exists []. split; [constructor|]. intros [|fuel] rest pre F; [cbn in F; lia|].
    cbn. rewrite app_nil_r. reflexivity.
  - destruct s as [|b r].
    { exists []. split; [constructor|]. intros [|fuel] rest pre F; [cbn in F; lia|]. cbn. rewrite app_nil_r. reflexivity. }
    cbn [escape_text]. cbn [length] in L. destruct (N.ltb_spec b 0x80) as [A|A].
    + destruct (IH r) as (s' & R & RD); [lia|exact (Forall_inv_tail B)|].
      exists ([b] ++ s'). split; [apply (rep_char b [b]); [constructor; exact A|exact R]|].
      intros [|fuel] rest pre F; [cbn in F; lia|]. rewrite app_length in F. pose proof (ascii_len short b).
      rewrite <- app_assoc, read_ascii by exact A. rewrite RD by lia. rewrite <- app_assoc. reflexivity.
    + destruct (decode_rune (b :: r)) as [c size] eqn:D.
      destruct (Nat.eqb_spec size 1) as [S1|S1].
      * subst size. pose proof (decode_one _ _ _ A D) as ->. rewrite N.eqb_refl. cbn [andb].
        destruct (IH r) as (s' & R & RD); [lia|exact (Forall_inv_tail B)|].
        exists (0xEF :: 0xBF :: 0xBD :: s'). split.
        { apply rep_bad; [|exact R]. intros q bs x U E. rewrite E, (decode_utf8 _ _ _ U) in D.
          destruct bs as [|b0 [|b1 bs]]; [discriminate| |discriminate].
          assert (X : b = b0) by (cbn in E; congruence). inversion U as [q' Q| | |]. lia. }
        intros [|fuel] rest pre F; [cbn in F; lia|]. rewrite <- app_assoc.
        change (read_text (S fuel) (esc_bad ++ escape_text short n r ++ 34 :: rest) pre)
          with (read_text fuel (escape_text short n r ++ 34 :: rest) (pre ++ [0xEF; 0xBF; 0xBD])).
        rewrite RD by (rewrite app_length in F; cbn in F; lia). rewrite <- app_assoc. reflexivity.
      * rewrite andb_false_r.
        destruct (decode_accepts b r c size D (or_intror S1) B) as (rest0 & E & U & SZ).
        set (bs := firstn size (b :: r)) in *.
        assert (ER : rest0 = skipn size (b :: r)).
        { pose proof (firstn_skipn size (b :: r)) as X. fold bs in X. rewrite E in X at 2. apply app_inv_head in X. congruence. }
        assert (LB : (length bs + length rest0 = S (length r))%nat) by (rewrite <- app_length, <- E; reflexivity).
        assert (NB : bs <> []) by (exact (utf8_nonempty _ _ U)).
        assert (LN : (0 < length bs)%nat) by (destruct bs; [congruence|cbn; lia]).
        rewrite <- ER.
        assert (BR : Forall is_byte rest0) by (rewrite E in B; apply Forall_app in B; apply B).
        destruct (IH rest0 ltac:(lia) BR) as (s' & R & RD).
        assert (H80 : exists b0 t, bs = b0 :: t /\ 0x80 <= b0).
        { destruct bs as [|b0 t] eqn:EB; [congruence|]. exists b0, t. split; [reflexivity|].
          assert (b = b0) by (cbn [app] in E; congruence). subst b0. exact A. }
        exists (bs ++ s'). split; [rewrite E; apply (rep_char c bs); assumption|].
        intros [|fuel] rest pre F; [lia|].
        destruct ((c =? 0x2028) || (c =? 0x2029)) eqn:LS.
        -- assert (G : read_text (S fuel) ((esc_line_sep c ++ escape_text short n rest0) ++ 34 :: rest) pre =
                       read_text fuel (escape_text short n rest0 ++ 34 :: rest) (pre ++ encode_rune c)).
           { apply orb_true_iff in LS. destruct LS as [LS|LS]; apply N.eqb_eq in LS; rewrite LS; reflexivity. }
           rewrite G, RD by (rewrite app_length in F; cbn [esc_line_sep length] in F; lia).
           rewrite (encode_of_utf8 _ _ U), <- app_assoc. reflexivity.
        -- rewrite <- app_assoc. pose proof (decode_utf8 c bs (escape_text short n rest0 ++ 34 :: rest) U) as D2.
           destruct H80 as (b0 & t & EB & GE). rewrite EB in *.
           cbn [app read_text] in *. 
           rewrite (proj2 (N.eqb_neq b0 34)) by lia. rewrite (proj2 (N.eqb_neq b0 92)) by lia.
           rewrite (proj2 (N.ltb_ge b0 32)) by lia. rewrite (proj2 (N.ltb_ge b0 0x80)) by lia.
           rewrite D2. cbn [length skipn]. rewrite skipn_app, Nat.sub_diag, skipn_all. cbn [app skipn].
           rewrite RD by (cbn [length] in F; rewrite app_length in F; lia).
           rewrite (encode_of_utf8 _ _ U), <- app_assoc. reflexivity.
Qed.

Theorem literal_read : forall short s rest, Forall is_byte s ->
  exists s', read_literal (json_literal short s ++ rest) = Some (s', rest) /\ replaced s s'.
Proof.
  intros short s rest B. destruct (read_back short (length s) s (le_n _) B) as (s' & R & RD).
  exists s'. split; [|exact R]. unfold json_literal, read_literal. cbn [app]. rewrite <- app_assoc. cbn [app].
  rewrite RD; [reflexivity|]. rewrite app_length. cbn [length]. lia.
Qed.

Lemma fffd : utf8 0xFFFD [0xEF; 0xBF; 0xBD].
Proof. apply utf8_3 with 15 63 61; unfold scalar; lia. Qed.

Lemma replaced_valid : forall s s', replaced s s' -> valid_utf8 s'.
Proof.
  intros s s' R. induction R as [|r bs s s' U R IH|b s s' N R IH]; [apply valid_utf8_nil| |].
  - exact (valid_utf8_cons _ _ _ U IH).
  - exact (valid_utf8_cons _ [0xEF; 0xBF; 0xBD] _ fffd IH).
Qed.
Lemma replaced_exact : forall s s', replaced s s' -> valid_utf8 s -> s' = s.
Proof.
  intros s s' R. induction R as [|r bs s s' U R IH|b s s' N R IH]; intros V; [reflexivity| |].
  - f_equal. apply IH. destruct V as (cs & E & F). destruct cs as [|c cs].
    { apply app_eq_nil in E. destruct E as [-> _]. destruct (utf8_nonempty _ _ U). reflexivity. }
    destruct (Forall_inv F) as (q & Q). pose proof (decode_utf8 _ _ s U) as D1. cbn [concat] in E.
    rewrite E, (decode_utf8 _ _ (concat cs) Q) in D1. injection D1 as -> LQ.
    assert (c = bs) by (apply utf8_fun with r; assumption). subst c. apply app_inv_head in E.
    exists cs. split; [exact E|exact (Forall_inv_tail F)].
  - exfalso. destruct V as (cs & E & F). destruct cs as [|c cs]; [discriminate|].
    destruct (Forall_inv F) as (q & Q). exact (N q c (concat cs) Q E).
Qed.
