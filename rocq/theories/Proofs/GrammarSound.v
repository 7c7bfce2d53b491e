(** Whatever the JSON reader accepts is JSON, up to the replacement of what is not text. *)
From Verif Require Import Model.Base Model.Utf8 Model.GoFmt Model.JsonText Model.Json
  Spec.Names Spec.ApiSpec Spec.Utf8Spec Spec.JsonSpec Spec.JsonValueSpec Spec.JsonGrammar
  Proofs.StrLemmas Proofs.Utf8Proofs Proofs.JsonProofs Proofs.JsonValueProofs Proofs.GrammarProofs.
Local Open Scope N_scope.

Lemma hexval_inv : forall c v, hexval c = Some v -> hex_digit c v.
Proof.
  intros c v. unfold hexval, hex_digit.
  destruct ((48 <=? c) && (c <=? 57)) eqn:E1; [|destruct ((97 <=? c) && (c <=? 102)) eqn:E2; [|destruct ((65 <=? c) && (c <=? 70)) eqn:E3]].
  - apply andb_true_iff in E1. destruct E1 as [A B]. apply N.leb_le in A, B. intros E. left. split; [lia|congruence].
  - apply andb_true_iff in E2. destruct E2 as [A B]. apply N.leb_le in A, B. intros E. right. right. split; [lia|]. assert (v = c - 87) by congruence. lia.
  - apply andb_true_iff in E3. destruct E3 as [A B]. apply N.leb_le in A, B. intros E. right. left. split; [lia|]. assert (v = c - 55) by congruence. lia.
  - discriminate.
Qed.
Lemma hex4_inv : forall s v r, hex4 s = Some (v, r) -> exists h, s = h ++ r /\ four_hex h v.
Proof.
  intros s v r E. destruct s as [|a [|b [|c [|d s]]]]; try discriminate. cbn [hex4] in E.
  destruct (hexval a) as [x|] eqn:A; [|discriminate]. destruct (hexval b) as [y|] eqn:B; [|discriminate].
  destruct (hexval c) as [z|] eqn:C; [|discriminate]. destruct (hexval d) as [w|] eqn:D; [|discriminate].
  assert (r = s) by congruence. subst r. exists [a; b; c; d]. split; [reflexivity|].
  exists a, b, c, d, x, y, z, w. split; [reflexivity|]. repeat (split; [apply hexval_inv; assumption|]).
  assert (v = ((x * 16 + y) * 16 + z) * 16 + w) by congruence. lia.
Qed.
Lemma hex_small : forall c v, hex_digit c v -> v < 16.
Proof. intros c v [[A ->]|[[A ->]|[A ->]]]; lia. Qed.
Lemma four_small : forall h v, four_hex h v -> v < 65536.
Proof.
  intros h v (a & b & c & d & x & y & z & w & _ & A & B & C & D & ->).
  apply hex_small in A, B, C, D. lia.
Qed.

Lemma match_u : forall {A} (s : str) (f : str -> A) (y : A),
  (exists r, s = 92 :: 117 :: r /\ (match s with 92 :: 117 :: r3 => f r3 | _ => y end) = f r) \/
  (match s with 92 :: 117 :: r3 => f r3 | _ => y end) = y.
Proof.
  intros A s f y. destruct s as [|a s]; [right; reflexivity|]. destruct (N.eq_dec a 92) as [->|NA].
  - destruct s as [|b s]; [right; reflexivity|]. destruct (N.eq_dec b 117) as [->|NB].
    + left. exists s. split; reflexivity.
    + right. destruct b as [|p]; [reflexivity|]. repeat (destruct p as [p|p|]; try reflexivity). congruence.
  - right. destruct a as [|p]; [reflexivity|]. repeat (destruct p as [p|p|]; try reflexivity). congruence.
Qed.

Lemma scalar_bytes : forall r, scalar r -> utf8 r (encode_rune r). Proof. exact encode_rune_utf8. Qed.
Lemma error_scalar : scalar 0xFFFD. Proof. right. split; discriminate. Qed.

Lemma text_sound : forall fuel s pre out rest, Forall is_byte s -> read_text fuel s pre = Some (out, rest) ->
  exists t v, s = t ++ 34 :: rest /\ out = pre ++ v /\ lax_chars t v.
Proof.
  induction fuel as [|fuel IH]; intros s pre out rest B E; [destruct s; discriminate|].
  destruct s as [|c r]; [discriminate|]. cbn [read_text] in E.
  assert (STEP : forall t q r0 rd, c :: r = t ++ r0 -> Forall is_byte r0 -> lax_char t q -> scalar q -> rd = encode_rune q ->
    read_text fuel r0 (pre ++ rd) = Some (out, rest) -> exists t v, c :: r = t ++ 34 :: rest /\ out = pre ++ v /\ lax_chars t v).
  { intros t q r0 rd ES BR C SC -> RT. destruct (IH r0 _ out rest BR RT) as (t' & v & E1 & E2 & L).
    exists (t ++ t'), (encode_rune q ++ v). split; [rewrite ES, E1, app_assoc; reflexivity|]. split; [rewrite E2, app_assoc; reflexivity|].
    apply (lcs_cons t q); [exact C|apply scalar_bytes; exact SC|exact L]. }
  destruct (N.eqb_spec c 34) as [->|N1].
  { exists [], []. split; [assert (rest = r) by congruence; subst; reflexivity|]. split; [rewrite app_nil_r; congruence|constructor]. }
  destruct (N.eqb_spec c 92) as [->|N2].
  - destruct r as [|e r']; [discriminate|]. assert (BR : Forall is_byte r') by (exact (Forall_inv_tail (Forall_inv_tail B))).
    destruct (N.eqb_spec e 117) as [->|N3].
    + destruct (hex4 r') as [[rr r2]|] eqn:H; [|discriminate]. destruct (hex4_inv _ _ _ H) as (h & Eh & FH).
      assert (B2 : Forall is_byte r2) by (rewrite Eh in BR; apply Forall_app in BR; apply BR).
      assert (HALF : 0xD800 <= rr <= 0xDFFF -> read_text fuel r2 (pre ++ encode_rune rune_error) = Some (out, rest) ->
        exists t v, 92 :: 117 :: r' = t ++ 34 :: rest /\ out = pre ++ v /\ lax_chars t v).
      { intros RR RT. apply (STEP (text "\u" ++ h) 0xFFFD r2 (encode_rune rune_error)); try assumption; try reflexivity.
        - rewrite Eh, <- app_assoc. reflexivity.
        - apply (lc_half h rr FH RR).
        - exact error_scalar. }
      destruct (is_surrogate rr) eqn:SU.
      * assert (RR : 0xD800 <= rr <= 0xDFFF).
        { unfold is_surrogate in SU. apply andb_true_iff in SU. destruct SU as [X Y]. apply N.leb_le in X, Y. split; assumption. }
        match type of E with ?m = _ => match m with context [hex4] => idtac end end.
        destruct (match_u r2 (fun r3 => match hex4 r3 with
             | Some (rr1, r4) => if decode_pair rr rr1 =? rune_error then read_text fuel r2 (pre ++ encode_rune rune_error)
                 else read_text fuel r4 (pre ++ encode_rune (decode_pair rr rr1))
             | None => read_text fuel r2 (pre ++ encode_rune rune_error) end) (read_text fuel r2 (pre ++ encode_rune rune_error)))
          as [(r3 & E3 & M)|M]; cbv beta in M; rewrite M in E; clear M.
        -- destruct (hex4 r3) as [[rr1 r4]|] eqn:H2; [|exact (HALF RR E)]. destruct (hex4_inv _ _ _ H2) as (h' & Eh' & FH').
           destruct (decode_pair rr rr1 =? rune_error) eqn:DP; [exact (HALF RR E)|]. apply N.eqb_neq in DP.
           unfold decode_pair in *. destruct ((0xD800 <=? rr) && (rr <? 0xDC00) && (0xDC00 <=? rr1) && (rr1 <? 0xE000)) eqn:CC; [|congruence].
           rewrite !andb_true_iff in CC. destruct CC as (((C1 & C2) & C3) & C4). apply N.leb_le in C1, C3. apply N.ltb_lt in C2, C4.
           apply (STEP (text "\u" ++ h ++ text "\u" ++ h') (0x10000 + (rr - 0xD800) * 0x400 + (rr1 - 0xDC00)) r4 (encode_rune ((rr - 0xD800) * 1024 + (rr1 - 0xDC00) + 0x10000))).
           ++ rewrite Eh, E3, Eh', <- !app_assoc. reflexivity.
           ++ rewrite E3, Eh' in B2. apply Forall_inv_tail, Forall_inv_tail in B2. apply Forall_app in B2. apply B2.
           ++ apply lc_char. apply jc_pair; [exact FH|exact FH'|lia|lia].
           ++ right. lia.
           ++ f_equal. lia.
           ++ exact E.
        -- exact (HALF RR E).
      * assert (SC : scalar rr).
        { pose proof (four_small _ _ FH) as L. unfold is_surrogate in SU. apply andb_false_iff in SU. destruct SU as [X|X]; apply N.leb_gt in X; [left|right]; lia. }
        apply (STEP (text "\u" ++ h) rr r2 (encode_rune rr)); try assumption; try reflexivity.
        -- rewrite Eh, <- app_assoc. reflexivity.
        -- apply lc_char, jc_u; assumption.
    + assert (ESC : forall q rd, lax_char [92; e] q -> q < 128 -> rd = [q] -> read_text fuel r' (pre ++ rd) = Some (out, rest) ->
        exists t v, 92 :: e :: r' = t ++ 34 :: rest /\ out = pre ++ v /\ lax_chars t v).
      { intros q rd C L -> RT. apply (STEP [92; e] q r' [q]); try assumption; try reflexivity; [left; lia|].
        symmetry. apply encode_of_utf8. constructor. exact L. }
      destruct ((e =? 34) || (e =? 92) || (e =? 47)) eqn:E3.
      { rewrite !orb_true_iff in E3. destruct E3 as [[E3|E3]|E3]; apply N.eqb_eq in E3; subst e.
        - apply (ESC 34 [34]); [apply lc_char; exact jc_quote|reflexivity|reflexivity|exact E].
        - apply (ESC 92 [92]); [apply lc_char; exact jc_backslash|reflexivity|reflexivity|exact E].
        - apply (ESC 47 [47]); [apply lc_char; exact jc_slash|reflexivity|reflexivity|exact E]. }
      destruct (N.eqb_spec e 98) as [->|_]; [eapply (ESC 8); [apply lc_char; exact jc_b|reflexivity|reflexivity|exact E]|].
      destruct (N.eqb_spec e 102) as [->|_]; [eapply (ESC 12); [apply lc_char; exact jc_f|reflexivity|reflexivity|exact E]|].
      destruct (N.eqb_spec e 110) as [->|_]; [eapply (ESC 10); [apply lc_char; exact jc_n|reflexivity|reflexivity|exact E]|].
      destruct (N.eqb_spec e 114) as [->|_]; [eapply (ESC 13); [apply lc_char; exact jc_r|reflexivity|reflexivity|exact E]|].
      destruct (N.eqb_spec e 116) as [->|_]; [eapply (ESC 9); [apply lc_char; exact jc_t|reflexivity|reflexivity|exact E]|]. discriminate.
  - destruct (N.ltb_spec c 32) as [L|L]; [discriminate|]. destruct (N.ltb_spec c 0x80) as [L8|L8].
    + apply (STEP [c] c r [c]); try reflexivity.
      * exact (Forall_inv_tail B).
      * apply lc_char, jc_plain; [constructor; exact L8|exact L|exact N1|exact N2].
      * left. lia.
      * symmetry. apply encode_of_utf8. constructor. exact L8.
      * exact E.
    + destruct (decode_rune (c :: r)) as [rr size] eqn:D. assert (BS : Forall is_byte (skipn size (c :: r))).
      { rewrite <- (firstn_skipn size (c :: r)) in B. apply Forall_app in B. apply B. }
      destruct (Nat.eq_dec size 1) as [->|S1].
      * pose proof (decode_one _ _ _ L8 D) as ->. apply (STEP [c] 0xFFFD r (encode_rune rune_error)); try reflexivity.
        -- exact (Forall_inv_tail B).
        -- apply lc_byte. exact L8.
        -- exact error_scalar.
        -- exact E.
      * destruct (decode_accepts c r rr size D (or_intror S1) B) as (_ & _ & U & SZ).
        apply (STEP (firstn size (c :: r)) rr (skipn size (c :: r)) (encode_rune rr)); try assumption; try reflexivity.
        -- symmetry. apply firstn_skipn.
        -- assert (128 <= rr).
           { destruct size; [lia|]. cbn [firstn] in U. inversion U; subst; lia. }
           apply lc_char, jc_plain; [exact U|lia|lia|lia].
        -- exact (utf8_scalar _ _ U).
Qed.

Lemma literal_sound : forall s out rest, Forall is_byte s -> read_literal s = Some (out, rest) ->
  exists lit, s = lit ++ rest /\ lax_string out lit.
Proof.
  intros s out rest B E. destruct s as [|c r]; [discriminate|]. destruct (N.eq_dec c 34) as [->|NC].
  - cbn [read_literal] in E. destruct (text_sound _ _ _ _ _ (Forall_inv_tail B) E) as (t & v & E1 & E2 & L).
    exists (text """" ++ t ++ text """"). split; [rewrite E1, <- !app_assoc; reflexivity|]. exists t. split; [reflexivity|]. rewrite E2. exact L.
  - exfalso. unfold read_literal in E. destruct c as [|p]; [discriminate|]. repeat (destruct p as [p|p|]; try discriminate). congruence.
Qed.

Lemma space_sound : forall s, exists w, s = w ++ skip_space s /\ blank w.
Proof.
  induction s as [|c s IH]; [exists []; split; [reflexivity|constructor]|]. cbn [skip_space]. destruct (is_space c) eqn:E.
  - destruct IH as (w & E1 & B). exists (c :: w). split; [cbn [app]; congruence|]. constructor; [|exact B].
    unfold is_space in E. rewrite !orb_true_iff, !N.eqb_eq in E. tauto.
  - exists []. split; [reflexivity|constructor].
Qed.

Lemma digits_sound : forall s d rest, digits s = (d, rest) -> s = d ++ rest /\ Forall digit d.
Proof.
  induction s as [|c s IH]; intros d rest E; cbn [digits] in E; [inversion E; split; [reflexivity|constructor]|].
  destruct (is_digit c) eqn:D.
  - destruct (digits s) as [a b]. injection E as <- <-. destruct (IH a b eq_refl) as [-> F]. split; [reflexivity|].
    constructor; [|exact F]. unfold is_digit in D. apply andb_true_iff in D. destruct D as [X Y]. apply N.leb_le in X, Y. split; assumption.
  - injection E as <- <-. split; [reflexivity|constructor].
Qed.
Lemma some_digits_sound : forall s d rest, some_digits s = Some (d, rest) -> s = d ++ rest /\ d <> [] /\ Forall digit d.
Proof.
  intros s d rest E. unfold some_digits in E. destruct (digits s) as [a b] eqn:D. destruct (digits_sound _ _ _ D) as [-> F].
  destruct a as [|x a]; [discriminate|]. injection E as <- <-. split; [reflexivity|]. split; [discriminate|exact F].
Qed.
Lemma int_sound : forall s i rest, read_int s = Some (i, rest) -> s = i ++ rest /\ int_text i.
Proof.
  intros [|c r] i rest E; [discriminate|]. unfold read_int in E. destruct (N.eqb_spec c 48) as [->|NC].
  - injection E as <- <-. split; [reflexivity|]. split; [discriminate|]. split; [repeat constructor; discriminate|]. intros r' X. congruence.
  - destruct (some_digits_sound _ _ _ E) as (ES & NE & F). split; [exact ES|]. split; [exact NE|]. split; [exact F|].
    intros r' ->. exfalso. apply NC. cbn [app] in ES. congruence.
Qed.
Lemma frac_sound : forall s f rest, read_frac s = Some (f, rest) -> s = f ++ rest /\ frac_text f.
Proof.
  intros [|c r] f rest E; unfold read_frac in E; [injection E as <- <-; split; [reflexivity|left; reflexivity]|].
  destruct (N.eqb_spec c 46) as [->|NC]; [|injection E as <- <-; split; [reflexivity|left; reflexivity]].
  destruct (some_digits r) as [[d rest0]|] eqn:D; [|discriminate]. cbn [bind] in E. injection E as <- <-.
  destruct (some_digits_sound _ _ _ D) as (-> & NE & F). split; [reflexivity|]. right. exists d. auto.
Qed.
Lemma exp_sound : forall s e rest, read_exp s = Some (e, rest) -> s = e ++ rest /\ exp_text e.
Proof.
  intros [|c r] e rest E; unfold read_exp in E; [injection E as <- <-; split; [reflexivity|left; reflexivity]|].
  destruct ((c =? 101) || (c =? 69)) eqn:C; [|injection E as <- <-; split; [reflexivity|left; reflexivity]].
  rewrite orb_true_iff, !N.eqb_eq in C.
  set (q := match r with x :: r' => if (x =? 43) || (x =? 45) then ([x], r') else ([], r) | [] => ([], []) end) in E.
  assert (Q : r = fst q ++ snd q /\ (fst q = [] \/ fst q = [43] \/ fst q = [45])).
  { unfold q. destruct r as [|x r']; [auto|]. destruct ((x =? 43) || (x =? 45)) eqn:X; [|auto].
    rewrite orb_true_iff, !N.eqb_eq in X. split; [reflexivity|]. destruct X as [->| ->]; auto. }
  clearbody q. destruct q as [sign r1]. cbn [fst snd] in Q. destruct Q as [-> SG].
  destruct (some_digits r1) as [[d rest0]|] eqn:D; [|discriminate]. cbn [bind] in E. injection E as <- <-.
  destruct (some_digits_sound _ _ _ D) as (-> & NE & F). split; [cbn [app]; rewrite <- app_assoc; reflexivity|]. right. exists c, sign, d. auto 6.
Qed.
Lemma number_sound : forall s lit rest, read_number s = Some (lit, rest) -> s = lit ++ rest /\ number_text lit.
Proof.
  intros s lit rest E. unfold read_number in E.
  set (q := match s with c :: r => if c =? 45 then ([c], r) else ([], s) | [] => ([], []) end) in E.
  assert (Q : s = fst q ++ snd q /\ (fst q = [] \/ fst q = [45])).
  { unfold q. destruct s as [|x r']; [auto|]. destruct (N.eqb_spec x 45) as [->|]; auto. }
  clearbody q. destruct q as [sign s1]. cbn [fst snd] in Q. destruct Q as [-> SG].
  destruct (read_int s1) as [[i s2]|] eqn:I; [|discriminate]. cbn [bind] in E. destruct (int_sound _ _ _ I) as [-> HI].
  destruct (read_frac s2) as [[f s3]|] eqn:R; [|discriminate]. cbn [bind] in E. destruct (frac_sound _ _ _ R) as [-> HF].
  destruct (read_exp s3) as [[e s4]|] eqn:X; [|discriminate]. cbn [bind] in E. destruct (exp_sound _ _ _ X) as [-> HE].
  injection E as <- <-. split; [rewrite <- !app_assoc; reflexivity|]. exists sign, i, f, e. auto.
Qed.
Lemma strip_sound : forall w s rest, strip w s = Some rest -> s = w ++ rest.
Proof.
  induction w as [|a w IH]; intros s rest E; cbn [strip app] in *; [congruence|]. destruct s as [|b s]; [discriminate|].
  destruct (N.eqb_spec a b) as [->|]; [|discriminate]. rewrite (IH _ _ E). reflexivity.
Qed.

Lemma bytes_tail : forall a b : str, Forall is_byte (a ++ b) -> Forall is_byte b.
Proof. intros a b F. apply Forall_app in F. apply F. Qed.

Section Sound.
Variable quoted : str -> str -> Prop.
Hypothesis FOUND : forall s out rest, Forall is_byte s -> read_literal s = Some (out, rest) -> exists lit, s = lit ++ rest /\ quoted out lit.
Theorem quoted_sound : forall fuel,
  (forall s v rest, Forall is_byte s -> parse fuel s = Some (v, rest) -> exists w p, s = w ++ p ++ rest /\ blank w /\ text_of quoted v p) /\
  (forall s l rest, Forall is_byte s -> parse_items fuel s = Some (l, rest) -> exists t, s = t ++ 93 :: rest /\ items_of quoted l t) /\
  (forall s l rest, Forall is_byte s -> parse_members fuel s = Some (l, rest) -> exists t, s = t ++ 125 :: rest /\ members_of quoted l t).
Proof.
  induction fuel as [|fuel (IHv & IHi & IHm)]; [repeat split; intros; discriminate|]. split; [|split].
  - intros s v rest B E. cbn [parse] in E. destruct (space_sound s) as (w & ES & BW). destruct (skip_space s) as [|c r] eqn:K; [discriminate|].
    rewrite ES in B. apply bytes_tail in B. exists w. rewrite ES. cut (exists p, c :: r = p ++ rest /\ text_of quoted v p).
    { intros (p & EP & L). exists p. rewrite EP. auto. }
    clear ES BW K s w. pose proof (Forall_inv_tail B) as BR.
    destruct (N.eqb_spec c 34) as [->|N1].
    { destruct (read_literal (34 :: r)) as [[t rest0]|] eqn:R; [|discriminate]. cbn [bind] in E.
      destruct (FOUND _ _ _ B R) as (lit & EL & L). exists lit. assert (rest = rest0) by congruence. subst rest0. split; [exact EL|].
      replace v with (VStr t) by congruence. apply jt_str. exact L. }
    destruct (N.eqb_spec c 91) as [->|N2].
    { destruct (space_sound r) as (w & ES & BW). destruct (skip_space r) as [|d r'] eqn:K; [discriminate|]. destruct (N.eqb_spec d 93) as [->|ND].
      - exists (text "[" ++ w ++ text "]"). replace v with (VArr []) by congruence. replace rest with r' by congruence.
        split; [rewrite ES, <- !app_assoc; reflexivity|]. apply jt_arr0. exact BW.
      - destruct (parse_items fuel r) as [[l rest0]|] eqn:R; [|discriminate]. cbn [bind] in E. destruct (IHi _ _ _ BR R) as (t & ET & L).
        exists (text "[" ++ t ++ text "]"). replace v with (VArr l) by congruence. replace rest with rest0 by congruence.
        split; [rewrite ET, <- !app_assoc; reflexivity|]. apply jt_arr. exact L. }
    destruct (N.eqb_spec c 123) as [->|N3].
    { destruct (space_sound r) as (w & ES & BW). destruct (skip_space r) as [|d r'] eqn:K; [discriminate|]. destruct (N.eqb_spec d 125) as [->|ND].
      - exists (text "{" ++ w ++ text "}"). replace v with (VObj []) by congruence. replace rest with r' by congruence.
        split; [rewrite ES, <- !app_assoc; reflexivity|]. apply jt_obj0. exact BW.
      - destruct (parse_members fuel r) as [[l rest0]|] eqn:R; [|discriminate]. cbn [bind] in E. destruct (IHm _ _ _ BR R) as (t & ET & L).
        exists (text "{" ++ t ++ text "}"). replace v with (VObj l) by congruence. replace rest with rest0 by congruence.
        split; [rewrite ET, <- !app_assoc; reflexivity|]. apply jt_obj. exact L. }
    destruct (c =? 116). { destruct (strip (fmt_t true) (c :: r)) as [rest0|] eqn:R; [|discriminate]. cbn [bind] in E.
      exists (text "true"). apply strip_sound in R. replace v with (VBool true) by congruence. replace rest with rest0 by congruence. split; [exact R|exact jt_true]. }
    destruct (c =? 102). { destruct (strip (fmt_t false) (c :: r)) as [rest0|] eqn:R; [|discriminate]. cbn [bind] in E.
      exists (text "false"). apply strip_sound in R. replace v with (VBool false) by congruence. replace rest with rest0 by congruence. split; [exact R|exact jt_false]. }
    destruct (c =? 110). { destruct (strip t_null (c :: r)) as [rest0|] eqn:R; [|discriminate]. cbn [bind] in E.
      exists (text "null"). apply strip_sound in R. replace v with VNull by congruence. replace rest with rest0 by congruence. split; [exact R|exact jt_null]. }
    destruct (read_number (c :: r)) as [[lit rest0]|] eqn:R; [|discriminate]. cbn [bind] in E. destruct (number_sound _ _ _ R) as [EL NT].
    exists lit. replace v with (VNum lit) by congruence. replace rest with rest0 by congruence. split; [exact EL|apply jt_num; exact NT].
  - intros s l rest B E. cbn [parse_items] in E. destruct (parse fuel s) as [[v s1]|] eqn:P; [|discriminate]. cbn [bind] in E.
    destruct (IHv _ _ _ B P) as (w & p & ES & BW & L). destruct (space_sound s1) as (w' & ES1 & BW'). destruct (skip_space s1) as [|c r] eqn:K; [discriminate|].
    destruct (N.eqb_spec c 44) as [->|N1].
    + destruct (parse_items fuel r) as [[l0 rest0]|] eqn:R; [|discriminate]. cbn [bind] in E.
      assert (BR : Forall is_byte r). { rewrite ES, ES1 in B. apply bytes_tail, bytes_tail, bytes_tail in B. exact (Forall_inv_tail B). }
      destruct (IHi _ _ _ BR R) as (t & ET & LT). exists (w ++ p ++ w' ++ text "," ++ t). replace l with (v :: l0) by congruence. replace rest with rest0 by congruence.
      split; [rewrite ES, ES1, ET, <- !app_assoc; reflexivity|]. apply ji_more; assumption.
    + destruct (N.eqb_spec c 93) as [->|N2]; [|discriminate]. exists (w ++ p ++ w'). replace l with [v] by congruence. replace rest with r by congruence.
      split; [rewrite ES, ES1, <- !app_assoc; reflexivity|]. apply ji_last; assumption.
  - intros s l rest B E. cbn [parse_members] in E. destruct (space_sound s) as (w & ES & BW). destruct (read_literal (skip_space s)) as [[k s1]|] eqn:P; [|discriminate]. cbn [bind] in E.
    assert (B0 : Forall is_byte (skip_space s)) by (rewrite ES in B; exact (bytes_tail _ _ B)).
    destruct (FOUND _ _ _ B0 P) as (lit & EL & L). assert (B1 : Forall is_byte s1) by (rewrite EL in B0; exact (bytes_tail _ _ B0)).
    destruct (space_sound s1) as (w2 & ES1 & BW2). destruct (skip_space s1) as [|c r] eqn:K; [discriminate|]. destruct (N.eqb_spec c 58) as [->|N1]; [|discriminate].
    assert (BR : Forall is_byte r) by (rewrite ES1 in B1; exact (Forall_inv_tail (bytes_tail _ _ B1))).
    destruct (parse fuel r) as [[v s2]|] eqn:Q; [|discriminate]. cbn [bind] in E. destruct (IHv _ _ _ BR Q) as (w3 & p & ER & BW3 & LV).
    destruct (space_sound s2) as (w4 & ES2 & BW4). destruct (skip_space s2) as [|d r2] eqn:K2; [discriminate|].
    destruct (N.eqb_spec d 44) as [->|N2].
    + destruct (parse_members fuel r2) as [[l0 rest0]|] eqn:R; [|discriminate]. cbn [bind] in E.
      assert (BR2 : Forall is_byte r2). { rewrite ER, ES2 in BR. apply bytes_tail, bytes_tail, bytes_tail in BR. exact (Forall_inv_tail BR). }
      destruct (IHm _ _ _ BR2 R) as (t & ET & LT). exists (w ++ lit ++ w2 ++ text ":" ++ w3 ++ p ++ w4 ++ text "," ++ t).
      replace l with ((k, v) :: l0) by congruence. replace rest with rest0 by congruence.
      split; [rewrite ES, EL, ES1, ER, ES2, ET, <- !app_assoc; reflexivity|]. apply jm_more; assumption.
    + destruct (N.eqb_spec d 125) as [->|N3]; [|discriminate]. exists (w ++ lit ++ w2 ++ text ":" ++ w3 ++ p ++ w4).
      replace l with [(k, v)] by congruence. replace rest with r2 by congruence.
      split; [rewrite ES, EL, ES1, ER, ES2, <- !app_assoc; reflexivity|]. apply jm_last; assumption.
Qed.

End Sound.
Definition parse_sound := quoted_sound lax_string literal_sound.

Theorem json_accepted : forall s v rest, Forall is_byte s -> decode_json s = Some (v, rest) ->
  exists w p, s = w ++ p ++ rest /\ blank w /\ lax_text v p.
Proof. intros s v rest B E. exact (proj1 (parse_sound _) s v rest B E). Qed.
