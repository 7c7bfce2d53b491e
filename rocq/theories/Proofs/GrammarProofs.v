(** The JSON reader reads every JSON text, and the writer writes JSON texts. *)
From Verif Require Import Model.Base Model.Utf8 Model.GoFmt Model.JsonText Model.Json
  Spec.Names Spec.ApiSpec Spec.Utf8Spec Spec.JsonSpec Spec.JsonValueSpec Spec.JsonGrammar
  Proofs.StrLemmas Proofs.Utf8Proofs Proofs.JsonProofs Proofs.JsonValueProofs.
Local Open Scope N_scope.

(** Characters. *)
Lemma hexval_ok : forall c v, hex_digit c v -> hexval c = Some v.
Proof.
  intros c v [[L ->]|[[L ->]|[L ->]]]; unfold hexval.
  - rewrite (proj2 (N.leb_le 48 c)), (proj2 (N.leb_le c 57)) by lia. reflexivity.
  - rewrite (proj2 (N.leb_gt c 57)), andb_false_r by lia. rewrite (proj2 (N.leb_gt 97 c)) by lia. cbn [andb].
    rewrite (proj2 (N.leb_le 65 c)), (proj2 (N.leb_le c 70)) by lia. cbn [andb]. f_equal. lia.
  - rewrite (proj2 (N.leb_gt c 57)), andb_false_r by lia. rewrite (proj2 (N.leb_le 97 c)), (proj2 (N.leb_le c 102)) by lia. cbn [andb]. f_equal. lia.
Qed.
Lemma hex4_ok : forall h v rest, four_hex h v -> hex4 (h ++ rest) = Some (v, rest).
Proof.
  intros h v rest (a & b & c & d & x & y & z & w & -> & A & B & C & D & ->). cbn [app hex4].
  rewrite (hexval_ok _ _ A), (hexval_ok _ _ B), (hexval_ok _ _ C), (hexval_ok _ _ D). do 2 f_equal. lia.
Qed.
Lemma four_hex_len : forall h v, four_hex h v -> length h = 4%nat.
Proof. intros h v (a & b & c & d & x & y & z & w & -> & _). reflexivity. Qed.
Lemma not_surrogate : forall r, scalar r -> is_surrogate r = false.
Proof.
  intros r [L|[L _]]; unfold is_surrogate.
  - rewrite (proj2 (N.leb_gt _ _)) by lia. reflexivity.
  - destruct (N.leb_spec 0xD800 r); [|reflexivity]. cbn [andb]. apply N.leb_gt. lia.
Qed.

Lemma char_read : forall t r bs rest pre fuel, json_char t r -> utf8 r bs ->
  read_text (S fuel) (t ++ rest) pre = read_text fuel rest (pre ++ bs).
Proof.
  intros t r bs rest pre fuel C U. destruct C as [r bs' U' L1 L2 L3| | | | | | | | |h r H SC|h h' hi lo H H' B1 B2].
  - rewrite (utf8_fun _ _ _ U' U) in *. clear bs' U'. destruct (N.ltb_spec r 0x80) as [L|L].
    + assert (bs = [r]) as -> by (inversion U; lia || reflexivity).
      cbn [app read_text]. rewrite (proj2 (N.eqb_neq r 34)), (proj2 (N.eqb_neq r 92)) by assumption.
      rewrite (proj2 (N.ltb_ge r 32)) by lia. rewrite (proj2 (N.ltb_lt r 0x80)) by lia. reflexivity.
    + assert (H80 : exists b0 t, bs = b0 :: t /\ 0x80 <= b0).
      { inversion U; subst; try lia; eexists _, _; (split; [reflexivity|lia]). }
      pose proof (decode_utf8 r bs rest U) as D2. destruct H80 as (b0 & t & EB & GE). rewrite EB in *.
      cbn [app read_text] in *. rewrite (proj2 (N.eqb_neq b0 34)), (proj2 (N.eqb_neq b0 92)) by lia.
      rewrite (proj2 (N.ltb_ge b0 32)) by lia. rewrite (proj2 (N.ltb_ge b0 0x80)) by lia.
      rewrite D2. cbn [length skipn]. rewrite skipn_app, Nat.sub_diag, skipn_all. cbn [app skipn].
      rewrite (encode_of_utf8 _ _ U). reflexivity.
  - rewrite <- (encode_of_utf8 _ _ U). reflexivity.
  - rewrite <- (encode_of_utf8 _ _ U). reflexivity.
  - rewrite <- (encode_of_utf8 _ _ U). reflexivity.
  - rewrite <- (encode_of_utf8 _ _ U). reflexivity.
  - rewrite <- (encode_of_utf8 _ _ U). reflexivity.
  - rewrite <- (encode_of_utf8 _ _ U). reflexivity.
  - rewrite <- (encode_of_utf8 _ _ U). reflexivity.
  - rewrite <- (encode_of_utf8 _ _ U). reflexivity.
  - rewrite <- app_assoc. change (text "\u" ++ h ++ rest) with (92 :: 117 :: h ++ rest).
    cbn [read_text]. change (92 =? 34) with false. change (92 =? 92) with true. change (117 =? 117) with true. cbv iota.
    rewrite (hex4_ok _ _ rest H), (not_surrogate _ SC), (encode_of_utf8 _ _ U). reflexivity.
  - rewrite <- !app_assoc. change (text "\u" ++ h ++ text "\u" ++ h' ++ rest) with (92 :: 117 :: h ++ 92 :: 117 :: h' ++ rest).
    cbn [read_text]. change (92 =? 34) with false. change (92 =? 92) with true. change (117 =? 117) with true. cbv iota.
    rewrite (hex4_ok _ _ _ H). assert (S : is_surrogate hi = true).
    { unfold is_surrogate. rewrite (proj2 (N.leb_le _ _)) by lia. apply N.leb_le. lia. }
    rewrite S, (hex4_ok _ _ _ H'). 
    assert (D : decode_pair hi lo = 0x10000 + (hi - 0xD800) * 0x400 + (lo - 0xDC00)).
    { unfold decode_pair. rewrite (proj2 (N.leb_le 0xD800 hi)), (proj2 (N.ltb_lt hi 0xDC00)), (proj2 (N.leb_le 0xDC00 lo)), (proj2 (N.ltb_lt lo 0xE000)) by lia.
      cbn [andb]. lia. }
    rewrite D. rewrite (proj2 (N.eqb_neq _ rune_error)) by (unfold rune_error; lia).
    rewrite (encode_of_utf8 _ _ U). reflexivity.
Qed.

Lemma char_len : forall t r, json_char t r -> (1 <= length t)%nat.
Proof.
  intros t r C. destruct C as [r bs' U' L1 L2 L3| | | | | | | | |h r H SC|h h' hi lo H H' B1 B2]; try (cbn; lia).
  destruct U'; cbn; lia.
Qed.

Lemma chars_read : forall t s, json_chars t s -> forall fuel rest pre, (length t < fuel)%nat ->
  read_text fuel (t ++ 34 :: rest) pre = Some (pre ++ s, rest).
Proof.
  intros t s C. induction C as [|t r bs ts s C U _ IH]; intros fuel rest pre L.
  - destruct fuel; [lia|]. cbn. rewrite app_nil_r. reflexivity.
  - destruct fuel as [|fuel]; [lia|]. rewrite <- app_assoc, (char_read _ _ _ _ _ _ C U). rewrite app_length in L. pose proof (char_len _ _ C).
    rewrite IH by lia. rewrite <- app_assoc. reflexivity.
Qed.
Lemma string_read : forall s lit rest, json_string s lit -> read_literal (lit ++ rest) = Some (s, rest).
Proof.
  intros s lit rest (t & -> & C). change (text """") with [34]. cbn [app read_literal]. rewrite <- app_assoc. cbn [app].
  rewrite (chars_read _ _ C); [reflexivity|]. rewrite app_length. cbn [length]. lia.
Qed.
Lemma string_head : forall s lit, json_string s lit -> exists r, lit = 34 :: r.
Proof. intros s lit (t & -> & _). eexists. reflexivity. Qed.

(** Space. *)
Lemma blank_skip : forall w s, blank w -> skip_space (w ++ s) = skip_space s.
Proof.
  induction w as [|c w IH]; intros s B; [reflexivity|]. cbn [app skip_space].
  assert (E : is_space c = true) by (destruct (Forall_inv B) as [->|[->|[->| ->]]]; reflexivity).
  rewrite E. apply IH. exact (Forall_inv_tail B).
Qed.
Lemma skip_at : forall c r, is_space c = false -> skip_space (c :: r) = c :: r.
Proof. intros c r E. cbn [skip_space]. rewrite E. reflexivity. Qed.

Scheme jtext_ind := Minimality for text_of Sort Prop
  with jitems_ind := Minimality for items_of Sort Prop
  with jmembers_ind := Minimality for members_of Sort Prop.
Combined Scheme json_ind from jtext_ind, jitems_ind, jmembers_ind.

(** For any spelling of strings that is read as it should. *)
Section Read.
Variable quoted : str -> str -> Prop.
Hypothesis READ : forall s lit rest, quoted s lit -> read_literal (lit ++ rest) = Some (s, rest).
Lemma literal_head : forall s lit, quoted s lit -> exists r, lit = 34 :: r.
Proof.
  intros s lit Q. pose proof (READ s lit [] Q) as R. rewrite app_nil_r in R. destruct lit as [|c r]; [discriminate|].
  exists r. unfold read_literal in R. destruct c as [|p]; [discriminate|]. repeat (destruct p as [p|p|]; try discriminate). reflexivity.
Qed.

Lemma quoted_head : forall v s, text_of quoted v s -> exists c r, s = c :: r /\ is_space c = false /\
  c <> 93 /\ c <> 125 /\
  match v with
  | VNull => c = 110 | VBool true => c = 116 | VBool false => c = 102
  | VNum _ => c = 45 \/ 48 <= c <= 57 | VStr _ => c = 34 | VArr _ => c = 91 | VObj _ => c = 123
  end.
Proof.
  intros v s J. destruct J as [| | |lit NT|s lit JS|w B|l t I|w B|l t M]; try (eexists _, _; split; [reflexivity|]; repeat split; try discriminate; fail).
  - destruct (number_head lit NT) as (c & r & -> & C).
    exists c, r. split; [reflexivity|]. split; [|split; [lia|split; [lia|auto]]]. unfold is_space. rewrite !(proj2 (N.eqb_neq c _)) by lia. reflexivity.
  - destruct (literal_head _ _ JS) as (r & ->). exists 34, r. repeat split; discriminate.
Qed.

Definition reads_text (v : jv) (s : str) : Prop := forall w fuel rest, blank w -> (length w + length s <= fuel)%nat ->
  (forall lit, v = VNum lit -> stop rest) -> parse fuel (w ++ s ++ rest) = Some (v, rest).
Definition reads_items (l : list jv) (t : str) : Prop := forall fuel rest, (length t < fuel)%nat ->
  parse_items fuel (t ++ 93 :: rest) = Some (l, rest) /\ exists c r, skip_space (t ++ 93 :: rest) = c :: r /\ c <> 93.
Definition reads_members (l : list (str * jv)) (t : str) : Prop := forall fuel rest, (length t < fuel)%nat ->
  parse_members fuel (t ++ 125 :: rest) = Some (l, rest) /\ exists c r, skip_space (t ++ 125 :: rest) = c :: r /\ c <> 125.

Lemma stop_blank : forall w rest, blank w -> stop rest -> stop (w ++ rest).
Proof. intros [|c w] rest B S; [exact S|]. cbn [app stop]. destruct (Forall_inv B) as [->|[->|[->| ->]]]; repeat split; discriminate. Qed.

Lemma lit_word : forall w word s rest fuel v, blank w -> (1 <= fuel)%nat ->
  (forall f, parse (S f) (word ++ rest) = Some (v, rest)) -> skip_space (word ++ rest) = word ++ rest -> s = word ->
  parse fuel (w ++ s ++ rest) = Some (v, rest).
Proof.
  intros w word s rest fuel v B L P K ->. destruct fuel as [|fuel]; [lia|]. rewrite <- (P fuel). cbn [parse].
  rewrite blank_skip by exact B. reflexivity.
Qed.

Theorem quoted_texts_read : (forall v s, text_of quoted v s -> reads_text v s) /\ (forall l t, items_of quoted l t -> reads_items l t) /\
  (forall l t, members_of quoted l t -> reads_members l t).
Proof.
  apply json_ind.
  - intros w fuel rest B L _. apply (lit_word w (text "null")); try reflexivity; [exact B|cbn in L; lia].
  - intros w fuel rest B L _. apply (lit_word w (text "true")); try reflexivity; [exact B|cbn in L; lia].
  - intros w fuel rest B L _. apply (lit_word w (text "false")); try reflexivity; [exact B|cbn in L; lia].
  - intros lit NT w fuel rest B L ST. specialize (ST lit eq_refl). pose proof (number_read lit rest NT ST) as R.
    destruct (quoted_head _ _ (jt_num lit NT)) as (c & r & -> & SP & _ & _ & C). destruct fuel as [|fuel]; [cbn in L; lia|].
    cbn [parse]. rewrite blank_skip by exact B. cbn [app] in *. rewrite skip_at by exact SP.
    rewrite !(proj2 (N.eqb_neq c _)) by lia. rewrite R. reflexivity.
  - intros s lit JS w fuel rest B L _. destruct fuel as [|fuel]; [destruct (literal_head _ _ JS) as (r & ->); cbn in L; lia|].
    cbn [parse]. rewrite blank_skip by exact B. pose proof (READ s lit rest JS) as R. destruct (literal_head _ _ JS) as (r & ->).
    cbn [app] in *. rewrite skip_at by reflexivity. change (34 =? 34) with true. cbv iota. rewrite R. reflexivity.
  - intros w0 B0 w fuel rest B L _. destruct fuel as [|fuel]; [cbn in L; lia|]. cbn [parse]. rewrite blank_skip by exact B.
    rewrite <- !app_assoc. change (text "[" ++ w0 ++ text "]" ++ rest) with (91 :: w0 ++ 93 :: rest). rewrite skip_at by reflexivity.
    change (91 =? 34) with false. change (91 =? 91) with true. cbv iota. rewrite blank_skip by exact B0. reflexivity.
  - intros l t _ IH w fuel rest B L _. destruct fuel as [|fuel]; [cbn in L; lia|]. cbn [parse]. rewrite blank_skip by exact B.
    rewrite <- !app_assoc. change (text "[" ++ t ++ text "]" ++ rest) with (91 :: t ++ 93 :: rest). rewrite skip_at by reflexivity.
    change (91 =? 34) with false. change (91 =? 91) with true. cbv iota. rewrite !app_length in L. cbn in L.
    destruct (IH fuel rest ltac:(lia)) as (E & c & r & K & NC). rewrite K, (proj2 (N.eqb_neq c 93)) by exact NC. rewrite E. reflexivity.
  - intros w0 B0 w fuel rest B L _. destruct fuel as [|fuel]; [cbn in L; lia|]. cbn [parse]. rewrite blank_skip by exact B.
    rewrite <- !app_assoc. change (text "{" ++ w0 ++ text "}" ++ rest) with (123 :: w0 ++ 125 :: rest). rewrite skip_at by reflexivity.
    change (123 =? 34) with false. change (123 =? 91) with false. change (123 =? 123) with true. cbv iota. rewrite blank_skip by exact B0. reflexivity.
  - intros l t _ IH w fuel rest B L _. destruct fuel as [|fuel]; [cbn in L; lia|]. cbn [parse]. rewrite blank_skip by exact B.
    rewrite <- !app_assoc. change (text "{" ++ t ++ text "}" ++ rest) with (123 :: t ++ 125 :: rest). rewrite skip_at by reflexivity.
    change (123 =? 34) with false. change (123 =? 91) with false. change (123 =? 123) with true. cbv iota. rewrite !app_length in L. cbn in L.
    destruct (IH fuel rest ltac:(lia)) as (E & c & r & K & NC). rewrite K, (proj2 (N.eqb_neq c 125)) by exact NC. rewrite E. reflexivity.
  - intros v s w w' J IH B B' fuel rest L. destruct fuel as [|fuel]; [lia|]. rewrite !app_length in L. split.
    + cbn [parse_items]. rewrite <- !app_assoc. rewrite IH; [|exact B|lia|].
      2:{ intros _ _. apply stop_blank; [exact B'|apply stop_arr]. }
      cbn [bind]. rewrite blank_skip by exact B'. reflexivity.
    + rewrite <- !app_assoc, blank_skip by exact B. destruct (quoted_head _ _ J) as (c & r & -> & SP & N1 & N2 & _).
      cbn [app]. rewrite skip_at by exact SP. eexists _, _. split; [reflexivity|exact N1].
  - intros v s w w' l t J IH B B' _ IHl fuel rest L. destruct fuel as [|fuel]; [lia|]. rewrite !app_length in L. cbn [length] in L. split.
    + cbn [parse_items]. rewrite <- !app_assoc. rewrite IH; [|exact B|lia|].
      2:{ intros _ _. apply stop_blank; [exact B'|apply stop_comma]. }
      cbn [bind]. rewrite blank_skip by exact B'. change (text "," ++ t ++ 93 :: rest) with (44 :: t ++ 93 :: rest).
      rewrite skip_at by reflexivity. change (44 =? 44) with true. cbv iota. change (length (text ",")) with 1%nat in L.
      rewrite (proj1 (IHl fuel rest ltac:(lia))). reflexivity.
    + rewrite <- !app_assoc, blank_skip by exact B. destruct (quoted_head _ _ J) as (c & r & -> & SP & N1 & N2 & _).
      cbn [app]. rewrite skip_at by exact SP. eexists _, _. split; [reflexivity|exact N1].
  - intros k lit v s w w2 w3 w4 JS J IH B B2 B3 B4 fuel rest L. destruct fuel as [|fuel]; [lia|]. rewrite !app_length in L.
    change (length (text ":")) with 1%nat in L. split.
    + cbn [parse_members]. rewrite <- !app_assoc. rewrite blank_skip by exact B.
      pose proof (READ k lit (w2 ++ text ":" ++ w3 ++ s ++ w4 ++ 125 :: rest) JS) as R. destruct (literal_head _ _ JS) as (r & ->).
      cbn [app] in *. rewrite skip_at by reflexivity. rewrite R. cbn [bind]. rewrite blank_skip by exact B2.
      change (text ":" ++ w3 ++ s ++ w4 ++ 125 :: rest) with (58 :: w3 ++ s ++ w4 ++ 125 :: rest). rewrite skip_at by reflexivity.
      change (58 =? 58) with true. cbv iota. rewrite IH; [|exact B3|lia|].
      2:{ intros _ _. apply stop_blank; [exact B4|apply stop_obj]. }
      cbn [bind]. rewrite blank_skip by exact B4. reflexivity.
    + rewrite <- !app_assoc, blank_skip by exact B. destruct (literal_head _ _ JS) as (r & ->).
      cbn [app]. rewrite skip_at by reflexivity. eexists _, _. split; [reflexivity|discriminate].
  - intros k lit v s w w2 w3 w4 l t JS J IH B B2 B3 B4 _ IHl fuel rest L. destruct fuel as [|fuel]; [lia|]. rewrite !app_length in L.
    change (length (text ":")) with 1%nat in L. change (length (text ",")) with 1%nat in L. split.
    + cbn [parse_members]. rewrite <- !app_assoc. rewrite blank_skip by exact B.
      pose proof (READ k lit (w2 ++ text ":" ++ w3 ++ s ++ w4 ++ text "," ++ t ++ 125 :: rest) JS) as R. destruct (literal_head _ _ JS) as (r & ->).
      cbn [app] in *. rewrite skip_at by reflexivity. rewrite R. cbn [bind]. rewrite blank_skip by exact B2.
      change (text ":" ++ w3 ++ s ++ w4 ++ text "," ++ t ++ 125 :: rest) with (58 :: w3 ++ s ++ w4 ++ 44 :: t ++ 125 :: rest). rewrite skip_at by reflexivity.
      change (58 =? 58) with true. cbv iota. rewrite IH; [|exact B3|lia|].
      2:{ intros _ _. apply stop_blank; [exact B4|apply stop_comma]. }
      cbn [bind]. rewrite blank_skip by exact B4. rewrite skip_at by reflexivity. change (44 =? 44) with true. cbv iota.
      rewrite (proj1 (IHl fuel rest ltac:(lia))). reflexivity.
    + rewrite <- !app_assoc, blank_skip by exact B. destruct (literal_head _ _ JS) as (r & ->).
      cbn [app]. rewrite skip_at by reflexivity. eexists _, _. split; [reflexivity|discriminate].
Qed.

End Read.
Definition text_head := quoted_head json_string string_read.
Definition grammar_read := quoted_texts_read json_string string_read.

Theorem json_read : forall v s w rest, json_text v s -> blank w -> (forall lit, v = VNum lit -> number_ends rest) ->
  decode_json (w ++ s ++ rest) = Some (v, rest).
Proof.
  intros v s w rest J B ST. unfold decode_json. apply (proj1 grammar_read v s J); [exact B|rewrite !app_length; lia|].
  intros lit E. specialize (ST lit E). destruct rest as [|c r]; [exact I|]. destruct (ST c r eq_refl) as (A & P).
  split; [|exact P]. unfold is_digit. destruct (N.leb_spec 48 c); [|reflexivity]. apply N.leb_gt. lia.
Qed.

(** The writer. *)
Lemma lowerhex_digit : forall x, x < 16 -> hex_digit (lowerhex x) x.
Proof. intros x L. unfold lowerhex, hex_digit. destruct (N.ltb_spec x 10); [left|right; right]; lia. Qed.
Lemma escape_ascii_char : forall short b, b < 128 -> json_char (escape_ascii short b) b.
Proof.
  intros short b L. unfold escape_ascii. destruct (html_safe b) eqn:E.
  - unfold html_safe in E. apply andb_true_iff in E. destruct E as [E1 E]. apply negb_true_iff in E. apply N.leb_le in E1.
    rewrite !orb_false_iff in E. destruct E as ((((E2 & _) & _) & _) & E6). apply N.eqb_neq in E2, E6.
    apply jc_plain; [constructor; exact L|exact E1|exact E2|exact E6].
  - destruct ((b =? 92) || (b =? 34)) eqn:E1.
    { apply orb_true_iff in E1. destruct E1 as [E1|E1]; apply N.eqb_eq in E1; subst b; [exact jc_backslash|exact jc_quote]. }
    destruct ((b =? 8) && short) eqn:E2; [apply andb_true_iff in E2; destruct E2 as [E2 _]; apply N.eqb_eq in E2; subst b; exact jc_b|].
    destruct ((b =? 12) && short) eqn:E3; [apply andb_true_iff in E3; destruct E3 as [E3 _]; apply N.eqb_eq in E3; subst b; exact jc_f|].
    destruct (b =? 10) eqn:E4; [apply N.eqb_eq in E4; subst b; exact jc_n|].
    destruct (b =? 13) eqn:E5; [apply N.eqb_eq in E5; subst b; exact jc_r|].
    destruct (b =? 9) eqn:E6; [apply N.eqb_eq in E6; subst b; exact jc_t|].
    apply (jc_u [48; 48; lowerhex (b / 16); lowerhex (b mod 16)]); [|left; lia].
    exists 48, 48, (lowerhex (b / 16)), (lowerhex (b mod 16)), 0, 0, (b / 16), (b mod 16).
    split; [reflexivity|]. split; [left; lia|]. split; [left; lia|].
    split; [apply lowerhex_digit, N.div_lt_upper_bound; lia|]. split; [apply lowerhex_digit, N.mod_lt; discriminate|].
    pose proof (N.div_mod b 16 ltac:(discriminate)) as D. rewrite D at 1. lia.
Qed.

Lemma escape_chars : forall short n s, (length s <= n)%nat -> Forall is_byte s ->
  exists s', replaced s s' /\ json_chars (escape_text short n s) s'.
Proof.
  intros short. induction n as [|n IH]; intros s L B.
  - destruct s; [|cbn in L; lia]. exists []. split; constructor.
  - destruct s as [|b r]; [exists []; split; constructor|]. cbn [escape_text]. cbn [length] in L. destruct (N.ltb_spec b 0x80) as [A|A].
    + destruct (IH r ltac:(lia) (Forall_inv_tail B)) as (s' & R & C). exists ([b] ++ s').
      split; [apply (rep_char b [b]); [constructor; exact A|exact R]|].
      apply (jcs_cons _ b); [apply escape_ascii_char; exact A|constructor; exact A|exact C].
    + destruct (decode_rune (b :: r)) as [c size] eqn:D. destruct (Nat.eqb_spec size 1) as [S1|S1].
      * subst size. pose proof (decode_one _ _ _ A D) as ->. rewrite N.eqb_refl. cbn [andb].
        destruct (IH r ltac:(lia) (Forall_inv_tail B)) as (s' & R & C). exists ([0xEF; 0xBF; 0xBD] ++ s'). split.
        { apply rep_bad; [|exact R]. intros q bs x U E. rewrite E, (decode_utf8 _ _ _ U) in D.
          destruct bs as [|b0 [|b1 bs]]; [discriminate| |discriminate].
          assert (X : b = b0) by (cbn in E; congruence). inversion U as [q' Q| | |]. lia. }
        apply (jcs_cons esc_bad 0xFFFD); [| |exact C].
        { apply (jc_u [102; 102; 102; 100]); [|right; split; discriminate].
          exists 102, 102, 102, 100, 15, 15, 15, 13. repeat split; right; right; repeat split; discriminate. }
        { apply (utf8_3 0xFFFD 0xEF 0xBF 0xBD 15 63 61); try reflexivity; [discriminate|]. right. split; discriminate. }
      * rewrite andb_false_r. destruct (decode_accepts b r c size D (or_intror S1) B) as (rest0 & E & U & SZ).
        set (bs := firstn size (b :: r)) in *.
        assert (ER : rest0 = skipn size (b :: r)).
        { pose proof (firstn_skipn size (b :: r)) as X. fold bs in X. rewrite E in X at 2. apply app_inv_head in X. congruence. }
        assert (LB : (length bs + length rest0 = S (length r))%nat) by (rewrite <- app_length, <- E; reflexivity).
        assert (LN : (0 < length bs)%nat) by (pose proof (utf8_nonempty _ _ U); destruct bs; [congruence|cbn; lia]).
        rewrite <- ER. assert (BR : Forall is_byte rest0) by (rewrite E in B; apply Forall_app in B; apply B).
        destruct (IH rest0 ltac:(lia) BR) as (s' & R & C). exists (bs ++ s'). split; [rewrite E; apply (rep_char c bs); assumption|].
        destruct ((c =? 0x2028) || (c =? 0x2029)) eqn:LS.
        -- apply (jcs_cons _ c bs); [|exact U|exact C].
           assert (H : c = 0x2028 \/ c = 0x2029) by (apply orb_true_iff in LS; destruct LS as [LS|LS]; apply N.eqb_eq in LS; auto).
           apply (jc_u [50; 48; 50; lowerhex (c mod 16)]).
           ++ exists 50, 48, 50, (lowerhex (c mod 16)), 2, 0, 2, (c mod 16). split; [reflexivity|]. split; [left; lia|]. split; [left; lia|]. split; [left; lia|].
              split; [apply lowerhex_digit, N.mod_lt; discriminate|]. destruct H as [->| ->]; reflexivity.
           ++ left. lia.
        -- apply (jcs_cons bs c bs); [|exact U|exact C]. apply jc_plain; [exact U| | |];
             (assert (128 <= c); [|lia]); destruct bs as [|b0 t] eqn:EB; try (cbn in LN; lia);
             (assert (b = b0) by (cbn [app] in E; congruence)); subst b0; inversion U; subst; lia.
Qed.

Lemma literal_string : forall short s, Forall is_byte s -> exists s', replaced s s' /\ json_string s' (json_literal short s).
Proof.
  intros short s B. destruct (escape_chars short (length s) s (le_n _) B) as (s' & R & C).
  exists s'. split; [exact R|]. exists (escape_text short (length s) s). split; [reflexivity|exact C].
Qed.

Lemma blank_nil : blank []. Proof. constructor. Qed.

Theorem json_written : forall short v, writable v -> exists v', vreplaced v v' /\ json_text v' (print short v).
Proof.
  intros short. apply (jv_induction (fun v => writable v -> exists v', vreplaced v v' /\ json_text v' (print short v))).
  - intros _. exists VNull. split; [constructor|exact jt_null].
  - intros b _. exists (VBool b). split; [constructor|]. destruct b; [exact jt_true|exact jt_false].
  - intros lit W. exists (VNum lit). split; [constructor|]. apply jt_num. inversion W. assumption.
  - intros s W. assert (B : Forall is_byte s) by (inversion W; assumption). destruct (literal_string short s B) as (s' & R & J).
    exists (VStr s'). split; [constructor; exact R|apply jt_str; exact J].
  - intros l IH W. assert (W' : Forall writable l) by (inversion W; assumption). clear W. destruct l as [|v l].
    { exists (VArr []). split; [constructor; constructor|]. apply (jt_arr0 []). exact blank_nil. }
    assert (G : exists l', Forall2 vreplaced (v :: l) l' /\ json_items l' (commas (map (print short) (v :: l)))).
    { revert v IH W'. induction l as [|y l IHl]; intros v IH W'.
      - destruct (Forall_inv IH (Forall_inv W')) as (v' & R & J). exists [v']. split; [constructor; [exact R|constructor]|].
        pose proof (ji_last v' _ [] [] J blank_nil blank_nil) as K. cbn [app] in K. rewrite app_nil_r in K. exact K.
      - destruct (Forall_inv IH (Forall_inv W')) as (v' & R & J).
        destruct (IHl y (Forall_inv_tail IH) (Forall_inv_tail W')) as (l' & R' & J'). exists (v' :: l'). split; [constructor; assumption|].
        cbn [map]. rewrite commas_cons. exact (ji_more v' _ [] [] l' _ J blank_nil blank_nil J'). }
    destruct G as (l' & R & J). exists (VArr l'). split; [constructor; exact R|]. exact (jt_arr l' _ J).
  - intros l IH W. assert (W' : Forall (fun p => Forall is_byte (fst p) /\ writable (snd p)) l) by (inversion W; assumption). clear W. destruct l as [|v l].
    { exists (VObj []). split; [constructor; constructor|]. apply (jt_obj0 []). exact blank_nil. }
    assert (G : exists l', Forall2 (fun p p' => replaced (fst p) (fst p') /\ vreplaced (snd p) (snd p')) (v :: l) l' /\
      json_members l' (commas (map (fun p => json_literal short (fst p) ++ 58 :: print short (snd p)) (v :: l)))).
    { revert v IH W'. induction l as [|y l IHl]; intros v IH W'.
      - destruct (Forall_inv W') as [W1 W2]. destruct (Forall_inv IH W2) as (v' & R & J). destruct (literal_string short _ W1) as (k' & R2 & J2).
        exists [(k', v')]. split; [constructor; [split; assumption|constructor]|].
        pose proof (jm_last k' _ v' _ [] [] [] [] J2 J blank_nil blank_nil blank_nil blank_nil) as K. cbn [app] in K. rewrite app_nil_r in K. exact K.
      - destruct (Forall_inv W') as [W1 W2]. destruct (Forall_inv IH W2) as (v' & R & J). destruct (literal_string short _ W1) as (k' & R2 & J2).
        destruct (IHl y (Forall_inv_tail IH) (Forall_inv_tail W')) as (l' & R' & J'). exists ((k', v') :: l'). split; [constructor; [split; assumption|exact R']|].
        cbn [map]. rewrite commas_cons. rewrite <- app_assoc. cbn [app].
        exact (jm_more k' _ v' _ [] [] [] [] l' _ J2 J blank_nil blank_nil blank_nil blank_nil J'). }
    destruct G as (l' & R & J). exists (VObj l'). split; [constructor; exact R|]. exact (jt_obj l' _ J).
Qed.
