(** No text that is written as JSON contains markup. *)
From Verif Require Import Model.Base Model.Utf8 Model.GoFmt Model.JsonText Model.Json
  Spec.ApiSpec Spec.Utf8Spec Spec.JsonValueSpec Spec.OfferSpec Proofs.Utf8Proofs Proofs.JsonProofs Proofs.JsonValueProofs.
Local Open Scope N_scope.

Lemma lowerhex_plain : forall x, x < 16 -> plain (lowerhex x).
Proof. intros x L. unfold lowerhex, plain. destruct (N.ltb_spec x 10); lia. Qed.
Lemma high_plain : forall c, 128 <= c -> plain c. Proof. intros c L. unfold plain. lia. Qed.
Lemma escape_ascii_plain : forall short b, b < 128 -> Forall plain (escape_ascii short b).
Proof.
  intros short b L. unfold escape_ascii. assert (P : forall l, forallb (fun c => negb ((c =? 38) || (c =? 60) || (c =? 62))) l = true -> Forall plain l).
  { intros l E. apply Forall_forall. intros c I. apply (proj1 (forallb_forall _ _) E) in I. apply negb_true_iff in I.
    apply orb_false_iff in I. destruct I as [I I3]. apply orb_false_iff in I. destruct I as [I1 I2].
    apply N.eqb_neq in I1, I2, I3. repeat split; assumption. }
  destruct (html_safe b) eqn:E.
  - apply Forall_cons; [|constructor]. unfold html_safe in E. apply andb_true_iff in E. destruct E as [_ E]. apply negb_true_iff in E.
    rewrite !orb_false_iff in E. destruct E as ((((_ & E2) & E3) & E4) & _). apply N.eqb_neq in E2, E3, E4. repeat split; assumption.
  - destruct ((b =? 92) || (b =? 34)) eqn:E1.
    + apply orb_true_iff in E1. destruct E1 as [E1|E1]; apply N.eqb_eq in E1; subst b; apply P; reflexivity.
    + destruct ((b =? 8) && short); [apply P; reflexivity|]. destruct ((b =? 12) && short); [apply P; reflexivity|].
      destruct (b =? 10); [apply P; reflexivity|]. destruct (b =? 13); [apply P; reflexivity|]. destruct (b =? 9); [apply P; reflexivity|].
      assert (HB : b / 16 < 16) by (apply N.div_lt_upper_bound; lia). assert (HM : b mod 16 < 16) by (apply N.mod_lt; discriminate).
      change [92; 117; 48; 48; lowerhex (b / 16); lowerhex (b mod 16)] with ([92; 117; 48; 48] ++ [lowerhex (b / 16); lowerhex (b mod 16)]).
      apply Forall_app. split; [apply P; reflexivity|].
      apply Forall_cons; [apply lowerhex_plain; exact HB|]. apply Forall_cons; [apply lowerhex_plain; exact HM|constructor].
Qed.

Lemma utf8_high : forall r bs, utf8 r bs -> 128 <= hd 0 bs -> Forall plain bs.
Proof. intros r bs U H. destruct U; cbn [hd] in H; repeat (apply Forall_cons; [apply high_plain; lia|]); constructor. Qed.

Lemma escape_text_plain : forall short n s, Forall is_byte s -> Forall plain (escape_text short n s).
Proof.
  intros short. induction n as [|n IH]; intros s B; [destruct s; constructor|]. destruct s as [|b r]; [constructor|].
  cbn [escape_text]. destruct (N.ltb_spec b 0x80) as [A|A].
  - apply Forall_app. split; [apply escape_ascii_plain; exact A|apply IH; exact (Forall_inv_tail B)].
  - destruct (decode_rune (b :: r)) as [c size] eqn:D. destruct (Nat.eqb_spec size 1) as [S1|S1].
    + subst size. pose proof (decode_one _ _ _ A D) as ->. rewrite N.eqb_refl. cbn [andb]. apply Forall_app. split; [|apply IH; exact (Forall_inv_tail B)].
      unfold esc_bad. repeat (apply Forall_cons; [repeat split; discriminate|]). constructor.
    + rewrite andb_false_r. destruct (decode_accepts b r c size D (or_intror S1) B) as (rest0 & E & U & SZ).
      assert (BS : Forall is_byte (skipn size (b :: r))).
      { rewrite <- (firstn_skipn size (b :: r)) in B. apply Forall_app in B. apply B. }
      destruct ((c =? 0x2028) || (c =? 0x2029)) eqn:LS; apply Forall_app; (split; [|apply IH; exact BS]).
      * unfold esc_line_sep. repeat (apply Forall_cons; [repeat split; discriminate|]).
        apply Forall_cons; [apply lowerhex_plain, N.mod_lt; discriminate|constructor].
      * apply (utf8_high _ _ U). destruct size; [lia|]. exact A.
Qed.

Lemma literal_plain : forall short s, Forall is_byte s -> Forall plain (json_literal short s).
Proof.
  intros short s B. unfold json_literal. apply Forall_cons; [repeat split; discriminate|]. apply Forall_app.
  split; [apply escape_text_plain; exact B|apply Forall_cons; [repeat split; discriminate|constructor]].
Qed.
Lemma number_plain : forall s, number_text s -> Forall plain s.
Proof.
  assert (P : forall d, Forall digit d -> Forall plain d).
  { intros d D. eapply Forall_impl; [|exact D]. intros c C. unfold digit in C. unfold plain. lia. }
  assert (O : forall c, plain c -> forall d, Forall plain d -> Forall plain (c :: d)) by (intros; constructor; assumption).
  intros s (sign & i & f & e & -> & SG & (_ & DI & _) & F & E). apply Forall_app. split; [|apply Forall_app; split; [apply P; exact DI|apply Forall_app; split]].
  - destruct SG as [->| ->]; [constructor|apply O; [repeat split; discriminate|constructor]].
  - destruct F as [->|(d & -> & _ & D)]; [constructor|apply O; [repeat split; discriminate|apply P; exact D]].
  - destruct E as [->|(c & s & d & -> & C & S & _ & D)]; [constructor|]. apply O; [destruct C as [->| ->]; repeat split; discriminate|].
    destruct S as [->|[->| ->]]; cbn [app]; [apply P; exact D|apply O; [repeat split; discriminate|apply P; exact D]..].
Qed.
Lemma commas_plain : forall l, Forall (Forall plain) l -> Forall plain (commas l).
Proof.
  induction l as [|x [|y l] IH]; intros F; [constructor|exact (Forall_inv F)|]. rewrite commas_cons. apply Forall_app.
  split; [exact (Forall_inv F)|]. apply Forall_cons; [repeat split; discriminate|exact (IH (Forall_inv_tail F))].
Qed.
Lemma wrap_plain : forall a b s, plain a -> plain b -> Forall plain s -> Forall plain (a :: s ++ [b]).
Proof. intros a b s A B F. apply Forall_cons; [exact A|]. apply Forall_app. split; [exact F|]. apply Forall_cons; [exact B|constructor]. Qed.

Theorem print_plain : forall short v, writable v -> Forall plain (print short v).
Proof.
  intros short. apply (jv_induction (fun v => writable v -> Forall plain (print short v))).
  - intros _. repeat (apply Forall_cons; [repeat split; discriminate|]). constructor.
  - intros [] _; repeat (apply Forall_cons; [repeat split; discriminate|]); constructor.
  - intros lit W. apply number_plain. inversion W. assumption.
  - intros s W. apply literal_plain. inversion W. assumption.
  - intros l IH W. cbn [print]. apply wrap_plain; [repeat split; discriminate|repeat split; discriminate|]. apply commas_plain.
    assert (W' : Forall writable l) by (inversion W; assumption). clear W. apply Forall_map.
    induction IH as [|v l Hv _ IHl]; constructor; [apply Hv; exact (Forall_inv W')|apply IHl; exact (Forall_inv_tail W')].
  - intros l IH W. cbn [print]. apply wrap_plain; [repeat split; discriminate|repeat split; discriminate|]. apply commas_plain.
    assert (W' : Forall (fun p => Forall is_byte (fst p) /\ writable (snd p)) l) by (inversion W; assumption). clear W. apply Forall_map.
    induction IH as [|v l Hv _ IHl]; constructor; [|apply IHl; exact (Forall_inv_tail W')].
    destruct (Forall_inv W') as [W1 W2]. apply Forall_app. split; [apply literal_plain; exact W1|].
    apply Forall_cons; [repeat split; discriminate|]. apply Hv. exact W2.
Qed.

(** The list of the repositories. *)
From Verif Require Import Model.Config Model.Offer Proofs.OfferProofs.
Theorem page_plain : forall short repos, Forall (fun p : str * option repo => Forall is_byte (fst p) /\ forall r, snd p = Some r -> repo_bytes r) repos ->
  Forall plain (page_repos short repos).
Proof.
  intros short repos F. unfold page_repos. rewrite repos_json_print. apply print_plain. constructor. apply Forall_map.
  eapply Permutation.Permutation_Forall; [apply Permutation.Permutation_sym, by_key_perm|].
  eapply Forall_impl; [|exact F]. intros [k o] [B R]. cbn [fst snd] in *. split; [exact B|].
  apply enc_opt_writable. intros r ->. apply repo_writable. apply R. reflexivity.
Qed.
