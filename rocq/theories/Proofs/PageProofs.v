From Verif Require Import Model.Base Model.Utf8 Model.GoStr Model.JsonText Model.Json Model.Config Model.Offer Model.Pages
  Spec.Names Spec.ApiSpec Spec.Utf8Spec Spec.JsonSpec Spec.JsonGrammar Spec.JsonValueSpec Spec.OfferSpec Spec.HtmlReader Spec.PageSpec
  Proofs.StrLemmas Proofs.GoStrProofs Proofs.Utf8Proofs Proofs.JsonProofs Proofs.JsonValueProofs Proofs.GrammarProofs Proofs.OfferProofs Proofs.MarkupProofs.
Local Open Scope N_scope.

(** * The reader on what is put into a page *)
Definition holds (p : place) : Prop := match p with InTitle _ | InValue _ _ _ _ => True | _ => False end.
Definition put_in (p : place) (s : str) : place :=
  match p with
  | InTitle acc => InTitle (rev s ++ acc)
  | InValue n l k acc => InValue n l k (rev s ++ acc)
  | _ => p
  end.
Lemma put_in_app : forall p a b, put_in (put_in p a) b = put_in p (a ++ b).
Proof. intros [] a b; cbn [put_in]; try reflexivity; rewrite rev_app_distr, app_assoc; reflexivity. Qed.
Lemma put_in_holds : forall p s, holds p -> holds (put_in p s).
Proof. intros [] s H; try destruct H; exact I. Qed.

(** A character as it is written in a text or an attribute. *)
Definition plain_here (c : N) : Prop := c <> 0 /\ c <> 34 /\ c <> 38 /\ c <> 60.
Lemma read_plain : forall s html p done rest, holds p -> Forall plain_here s ->
  read html p done (s ++ rest) = read html (put_in p s) done rest.
Proof.
  induction s as [|c s IH]; intros html p done rest H F.
  - destruct p; try destruct H; reflexivity.
  - inversion F as [|? ? (N0 & N1 & N2 & N3) F']; subst. apply N.eqb_neq in N0, N1, N2, N3.
    cbn [app read]. assert (NX : next html p c (s ++ rest) = Some (put_in p [c], [])).
    { unfold next. rewrite N0. destruct p; try destruct H; rewrite ?N1, ?N2, ?N3, ?andb_false_r; reflexivity. }
    rewrite NX, app_nil_r, IH; [|apply put_in_holds; exact H|exact F']. rewrite put_in_app. reflexivity.
Qed.
Lemma read_on : forall html p p' done c r, next html p c r = Some (p', []) -> read html p done (c :: r) = read html p' done r.
Proof. intros html p p' done c r E. cbn [read]. rewrite E, app_nil_r. reflexivity. Qed.
Lemma read_ref : forall html p done rest c, holds p -> replacement c <> [] -> c <> 0 ->
  read html p done (replacement c ++ rest) = read html (put_in p [c]) done rest.
Proof.
  intros html p done rest c H R N. unfold replacement in *. apply N.eqb_neq in N. rewrite N in *.
  destruct (c =? 34) eqn:E1; [apply N.eqb_eq in E1; subst c|
  destruct (c =? 38) eqn:E2; [apply N.eqb_eq in E2; subst c|
  destruct (c =? 39) eqn:E3; [apply N.eqb_eq in E3; subst c|
  destruct (c =? 43) eqn:E4; [apply N.eqb_eq in E4; subst c|
  destruct (c =? 60) eqn:E5; [apply N.eqb_eq in E5; subst c|
  destruct (c =? 62) eqn:E6; [apply N.eqb_eq in E6; subst c|congruence]]]]]].
  all: destruct p; try destruct H; cbn [text app N.eqb Pos.eqb].
  all: repeat (erewrite read_on; [|reflexivity]); reflexivity.
Qed.
Lemma shown_app : forall a b, shown (a ++ b) = shown a ++ shown b.
Proof. intros. unfold shown. apply flat_map_app. Qed.
Lemma shown_high : forall s, Forall (fun c => 128 <= c) s -> shown s = s.
Proof.
  induction 1 as [|c s L F IH]; [reflexivity|]. unfold shown in *. cbn [flat_map].
  replace (c =? 0) with false by (symmetry; apply N.eqb_neq; lia). rewrite IH. reflexivity.
Qed.
Lemma high_plain_here : forall s, Forall (fun c => 128 <= c) s -> Forall plain_here s.
Proof. intros s F. eapply Forall_impl; [|exact F]. intros c L. unfold plain_here. cbv beta in L. lia. Qed.
Lemma replacement_high : forall r, 128 <= r -> replacement r = [].
Proof.
  intros r L. unfold replacement.
  repeat match goal with |- context[r =? ?k] => replace (r =? k) with false by (symmetry; apply N.eqb_neq; lia) end. reflexivity.
Qed.
Lemma utf8_bytes_high : forall r bs, utf8 r bs -> 128 <= hd 0 bs -> 128 <= r /\ Forall (fun c => 128 <= c) bs.
Proof.
  intros r bs U H. destruct U; cbn [hd] in H; (split; [lia|]); repeat (apply Forall_cons; [lia|]); constructor.
Qed.
Lemma read_replaced : forall fuel s html p done rest, holds p -> Forall is_byte s -> (length s <= fuel)%nat ->
  read html p done (htmlReplacer fuel s ++ rest) = read html (put_in p (shown s)) done rest.
Proof.
  induction fuel as [|fuel IH]; intros s html p done rest H B L.
  { destruct s; [|cbn in L; lia]. destruct p; try destruct H; reflexivity. }
  destruct s as [|b s]; [destruct p; try destruct H; reflexivity|]. cbn [length] in L. cbn [htmlReplacer].
  destruct (N.ltb_spec b 0x80) as [A|A].
  - assert (D : decode_rune (b :: s) = (b, 1%nat)) by (unfold decode_rune; rewrite (proj2 (N.ltb_lt _ _) A); reflexivity).
    rewrite D. cbn [firstn skipn].
    change (b :: s) with ([b] ++ s). rewrite shown_app, <- put_in_app.
    assert (REST : forall p', holds p' -> read html p' done (htmlReplacer fuel s ++ rest) = read html (put_in p' (shown s)) done rest).
    { intros p' H'. apply IH; [exact H'|exact (Forall_inv_tail B)|lia]. }
    destruct (N.eq_dec b 0) as [-> |N0].
    + change (replacement 0) with [0xEF; 0xBF; 0xBD]. cbv iota. rewrite <- app_assoc, read_plain; [|exact H|].
      * apply REST. apply put_in_holds. exact H.
      * repeat constructor; discriminate.
    + assert (S1 : shown [b] = [b]). { unfold shown. cbn [flat_map]. apply N.eqb_neq in N0. rewrite N0. reflexivity. }
      rewrite S1. destruct (replacement b) as [|x y] eqn:R.
      * rewrite <- app_assoc, read_plain; [apply REST; apply put_in_holds; exact H|exact H|].
        apply Forall_cons; [|constructor]. unfold replacement in R.
        repeat split; try exact N0; intros ->; discriminate R.
      * rewrite <- R, <- app_assoc, read_ref; [apply REST; apply put_in_holds; exact H|exact H|congruence|exact N0].
  - destruct (decode_rune (b :: s)) as [r w] eqn:D.
    assert (W : (1 <= w)%nat /\ 128 <= r /\ Forall (fun c => 128 <= c) (firstn w (b :: s))).
    { destruct (Nat.eqb_spec w 1) as [->|W1].
      - rewrite (decode_one _ _ _ A D). split; [lia|]. split; [unfold rune_error; lia|]. cbn [firstn]. repeat constructor. exact A.
      - destruct (decode_accepts b s r w D (or_intror W1) B) as (x & E & U & SZ). split; [exact SZ|].
        apply (utf8_bytes_high _ _ U). destruct w; [lia|]. exact A. }
    destruct W as (W1 & R & F). rewrite (replacement_high r R).
    rewrite <- app_assoc, read_plain; [|exact H|apply high_plain_here; exact F].
    rewrite IH; [|apply put_in_holds; exact H| |].
    + rewrite put_in_app. rewrite <- (shown_high _ F) at 1. rewrite <- shown_app, firstn_skipn. reflexivity.
    + rewrite <- (firstn_skipn w (b :: s)) in B. apply Forall_app in B. apply B.
    + rewrite skipn_length. cbn [length]. lia.
Qed.
Lemma read_escape : forall s html p done rest, holds p -> Forall is_byte s ->
  read html p done (escape s ++ rest) = read html (put_in p (shown s)) done rest.
Proof. intros. apply read_replaced; [assumption|assumption|apply le_n]. Qed.

(** * URLs *)
Lemma norm_chars : forall s, Forall is_byte s -> Forall url_char (urlNormalizer s).
Proof.
  assert (HX : forall x, x < 16 -> url_char (lowerhex x)).
  { intros x L. unfold lowerhex, url_char. destruct (N.ltb_spec x 10); [right; right; left; lia|right; left; lia]. }
  assert (PC : url_char 37) by (right; right; right; vm_compute; tauto).
  induction s as [|c s IH]; intros B; [constructor|]. specialize (IH (Forall_inv_tail B)). assert (BC := Forall_inv B).
  cbn [urlNormalizer]. cbv zeta.
  assert (KEPT : (if c =? 37 then match s with a :: b :: _ => isHex a && isHex b | _ => false end else url_kept c) = true -> url_char c).
  { destruct (c =? 37) eqn:E; [apply N.eqb_eq in E; subst c; intros _; exact PC|]. unfold url_kept. intros K.
    rewrite !orb_true_iff, !andb_true_iff, !N.leb_le in K. unfold url_char. destruct K as [[[K|K]|K]|K]; [|lia|lia|lia].
    apply existsb_exists in K. destruct K as (x & I & X). apply N.eqb_eq in X. subst x. right. right. right.
    clear - I. vm_compute in I. vm_compute. tauto. }
  destruct (if c =? 37 then _ else _).
  - constructor; [apply KEPT; reflexivity|exact IH].
  - unfold is_byte in BC. constructor; [exact PC|]. constructor; [apply HX, N.div_lt_upper_bound; lia|].
    constructor; [apply HX, N.mod_lt; discriminate|exact IH].
Qed.
Lemma hex_kept : forall c, isHex c = true -> url_kept c = true /\ c <> 37.
Proof.
  intros c H. unfold isHex in H. rewrite !orb_true_iff, !andb_true_iff, !N.leb_le in H. unfold url_kept. split; [|lia].
  rewrite !orb_true_iff, !andb_true_iff, !N.leb_le. lia.
Qed.
Lemma hex_hex : forall c, isHex c = true <-> exists v, hex_value c = Some v.
Proof.
  intros c. unfold isHex, hex_value. split.
  - intros H. destruct ((48 <=? c) && (c <=? 57)); [eexists; reflexivity|]. cbn [orb] in H.
    destruct ((97 <=? c) && (c <=? 102)); [destruct ((65 <=? c) && (c <=? 70)); eexists; reflexivity|]. cbn [orb] in H. rewrite H. eexists. reflexivity.
  - intros (v & E). destruct ((48 <=? c) && (c <=? 57)); [reflexivity|].
    destruct ((65 <=? c) && (c <=? 70)); [rewrite orb_true_r; reflexivity|].
    destruct ((97 <=? c) && (c <=? 102)); [reflexivity|discriminate E].
Qed.
Lemma lowerhex_value : forall x, x < 16 -> hex_value (lowerhex x) = Some x.
Proof.
  intros x L. unfold hex_value, lowerhex. destruct (N.ltb_spec x 10) as [T|T].
  - replace (48 <=? 48 + x) with true by (symmetry; apply N.leb_le; lia).
    replace (48 + x <=? 57) with true by (symmetry; apply N.leb_le; lia). cbn [andb]. f_equal. lia.
  - replace (87 + x <=? 57) with false by (symmetry; apply N.leb_gt; lia). rewrite andb_false_r.
    replace (87 + x <=? 70) with false by (symmetry; apply N.leb_gt; lia). rewrite andb_false_r.
    replace (97 <=? 87 + x) with true by (symmetry; apply N.leb_le; lia).
    replace (87 + x <=? 102) with true by (symmetry; apply N.leb_le; lia). cbn [andb]. f_equal. lia.
Qed.
(** A character that begins no escape is itself. *)
Lemma octets_one : forall c s, c <> 37 -> octets (c :: s) = c :: octets s.
Proof. intros c s N. apply N.eqb_neq in N. destruct s as [|a [|b r]]; cbn [octets]; try reflexivity. rewrite N. reflexivity. Qed.
Lemma octets_escape : forall a b x y s, hex_value a = Some x -> hex_value b = Some y ->
  octets (37 :: a :: b :: s) = x * 16 + y :: octets s.
Proof. intros a b x y s A B. cbn [octets]. rewrite A, B. reflexivity. Qed.
Lemma norm_octets : forall n s, (length s <= n)%nat -> Forall is_byte s -> octets (urlNormalizer s) = octets s.
Proof.
  induction n as [|n IH]; intros s L B; [destruct s; [reflexivity|cbn in L; lia]|].
  destruct s as [|c s]; [reflexivity|]. cbn [length] in L. assert (BC := Forall_inv B). assert (BT := Forall_inv_tail B).
  assert (ESC : forall s', octets (37 :: lowerhex (c / 16) :: lowerhex (c mod 16) :: s') = c :: octets s').
  { intros s'. unfold is_byte in BC. rewrite (octets_escape _ _ (c / 16) (c mod 16)).
    - f_equal. rewrite N.mul_comm. symmetry. apply N.div_mod. discriminate.
    - apply lowerhex_value, N.div_lt_upper_bound; lia.
    - apply lowerhex_value, N.mod_lt. discriminate. }
  cbn [urlNormalizer]. cbv zeta. destruct (N.eq_dec c 37) as [-> |NP].
  - rewrite N.eqb_refl. destruct s as [|a [|b s]].
    + reflexivity.
    + rewrite ESC, IH by (assumption || (cbn [length] in *; lia)). reflexivity.
    + destruct (isHex a && isHex b) eqn:HX.
      * apply andb_true_iff in HX. destruct HX as [HA HB]. assert (KA := hex_kept a HA). assert (KB := hex_kept b HB).
        apply hex_hex in HA, HB. destruct HA as [x HA]. destruct HB as [y HB].
        destruct KA as [KA NA]. destruct KB as [KB NB]. apply N.eqb_neq in NA, NB.
        cbn [urlNormalizer]. rewrite NA, KA. cbn [urlNormalizer]. rewrite NB, KB.
        rewrite !(octets_escape a b x y) by assumption. f_equal. apply IH; [cbn [length] in L; lia|].
        exact (Forall_inv_tail (Forall_inv_tail BT)).
      * rewrite ESC, IH by (assumption || (cbn [length] in *; lia)).
        cbn [octets]. rewrite N.eqb_refl.
        destruct (hex_value a) as [x|] eqn:HA; [|reflexivity]. destruct (hex_value b) as [y|] eqn:HB; [|reflexivity].
        rewrite (proj2 (hex_hex a)), (proj2 (hex_hex b)) in HX by (eexists; eassumption). discriminate HX.
  - apply N.eqb_neq in NP. rewrite NP. apply N.eqb_neq in NP. destruct (url_kept c).
    + rewrite !octets_one by exact NP. f_equal. apply IH; [lia|exact BT].
    + rewrite ESC, octets_one by exact NP. f_equal. apply IH; [lia|exact BT].
Qed.
Lemma normalized : forall host, Forall is_byte host -> same_address host (urlNormalizer host).
Proof. intros host B. split; [apply norm_chars; exact B|]. apply (norm_octets (length host)); [apply le_n|exact B]. Qed.
Lemma norm_bytes : forall s, Forall is_byte s -> Forall is_byte (urlNormalizer s).
Proof.
  intros s B. eapply Forall_impl; [|apply norm_chars; exact B]. unfold url_char, is_byte. intros c [C|[C|[C|C]]]; [lia|lia|lia|].
  vm_compute in C. repeat destruct C as [C|C]; try contradiction; subst c; reflexivity.
Qed.
Lemma norm_shown : forall s, Forall is_byte s -> shown (urlNormalizer s) = urlNormalizer s.
Proof.
  intros s B. assert (U := norm_chars s B). induction U as [|c t C U IH]; [reflexivity|]. unfold shown in *. cbn [flat_map].
  rewrite IH. destruct (N.eqb_spec c 0) as [-> |]; [|reflexivity]. unfold url_char in C. vm_compute in C.
  repeat destruct C as [C|C]; try contradiction; try discriminate; destruct C as [C1 C2]; exfalso; apply C1; reflexivity.
Qed.

(** * Scripts *)
Lemma begins_cut : forall p b rest, ~ In 60 p -> begins p (b ++ 60 :: rest) = begins p b.
Proof.
  unfold begins. induction p as [|x p IH]; intros b rest N; [destruct b; reflexivity|].
  destruct b as [|y b]; cbn [app map has_prefix].
  - cbn [N.leb andb]. change ((65 <=? 60) && (60 <=? 90)) with false. cbv iota.
    destruct (N.eqb_spec x 60) as [-> |NE]; [destruct N; left; reflexivity|reflexivity].
  - match goal with |- ?a && _ = ?a' && _ => destruct a; [|reflexivity] end. cbn [andb]. apply IH. intros I. apply N. right. exact I.
Qed.

Lemma read_script : forall js acc done rest, whole_script js ->
  read true (InScript acc) done (js ++ 60 :: rest) = read true (InScript (rev js ++ acc)) done (60 :: rest).
Proof.
  induction js as [|c js IH]; intros acc done rest W; [reflexivity|].
  assert (W' : whole_script js).
  { destruct W as [W0 W]. split; [intros I; apply W0; right; exact I|]. intros a b E. apply (W (c :: a) b). rewrite E. reflexivity. }
  cbn [app]. erewrite read_on.
  - rewrite IH by exact W'. cbn [rev]. rewrite <- app_assoc. reflexivity.
  - unfold next. replace (c =? 0) with false. 2:{ symmetry. apply N.eqb_neq. intros ->. apply (proj1 W). left. reflexivity. }
    destruct (N.eqb_spec c 60) as [-> |N]; [|reflexivity].
    destruct (proj2 W [] js eq_refl) as [E1 E2].
    rewrite !begins_cut, E1, E2; [reflexivity|vm_compute; intuition discriminate|vm_compute; intuition discriminate].
Qed.
(** * Literals *)
Lemma one_line_nil : one_line []. Proof. exists []. split; [reflexivity|constructor]. Qed.
Lemma one_line_app : forall a b, one_line a -> one_line b -> one_line (a ++ b).
Proof.
  intros a b (x & -> & X) (y & -> & Y). exists (x ++ y). split; [symmetry; apply concat_app|]. apply Forall_app. split; assumption.
Qed.
Lemma one_line_char : forall r bs, utf8 r bs -> 0x20 <= r -> r <> 0x2028 -> r <> 0x2029 -> one_line bs.
Proof.
  intros r bs U A B C. exists [bs]. split; [cbn [concat]; rewrite app_nil_r; reflexivity|]. constructor; [|constructor].
  exists r. repeat split; assumption.
Qed.
Lemma one_line_ascii : forall s, Forall (fun c => 0x20 <= c /\ c < 0x80) s -> one_line s.
Proof.
  induction 1 as [|c s [A B] F IH]; [exact one_line_nil|]. change (c :: s) with ([c] ++ s). apply one_line_app; [|exact IH].
  apply (one_line_char c); [constructor; exact B|exact A|lia|lia].
Qed.
Lemma one_line_valid : forall s, one_line s -> valid_utf8 s.
Proof.
  intros s (x & E & F). exists x. split; [exact E|]. eapply Forall_impl; [|exact F]. intros bs (r & U & _). exists r. exact U.
Qed.
Lemma escape_one_line : forall short n s, Forall is_byte s -> one_line (escape_text short n s).
Proof.
  intros short. induction n as [|n IH]; intros s B; [destruct s; exact one_line_nil|]. destruct s as [|b r]; [exact one_line_nil|].
  assert (LH : forall x, x < 16 -> 0x20 <= lowerhex x /\ lowerhex x < 0x80) by (intros x L; unfold lowerhex; destruct (N.ltb_spec x 10); lia).
  cbn [escape_text]. destruct (N.ltb_spec b 0x80) as [A|A].
  - apply one_line_app; [|apply IH; exact (Forall_inv_tail B)]. apply one_line_ascii. unfold escape_ascii.
    destruct (html_safe b) eqn:HS.
    { constructor; [|constructor]. unfold html_safe in HS. apply andb_true_iff in HS. destruct HS as [HS _]. apply N.leb_le in HS. lia. }
    destruct ((b =? 92) || (b =? 34)) eqn:E1.
    { apply orb_true_iff in E1. destruct E1 as [E1|E1]; apply N.eqb_eq in E1; subst b; repeat constructor; discriminate. }
    destruct ((b =? 8) && short); [repeat constructor; discriminate|]. destruct ((b =? 12) && short); [repeat constructor; discriminate|].
    destruct (b =? 10); [repeat constructor; discriminate|]. destruct (b =? 13); [repeat constructor; discriminate|].
    destruct (b =? 9); [repeat constructor; discriminate|].
    do 4 (apply Forall_cons; [split; [discriminate|reflexivity]|]).
    apply Forall_cons; [apply LH, N.div_lt_upper_bound; lia|]. apply Forall_cons; [apply LH, N.mod_lt; discriminate|constructor].
  - destruct (decode_rune (b :: r)) as [c size] eqn:D. destruct (Nat.eqb_spec size 1) as [S1|S1].
    + subst size. pose proof (decode_one _ _ _ A D) as ->. rewrite N.eqb_refl. cbn [andb].
      apply one_line_app; [|apply IH; exact (Forall_inv_tail B)]. apply one_line_ascii. repeat constructor; discriminate.
    + rewrite andb_false_r. destruct (decode_accepts b r c size D (or_intror S1) B) as (rest0 & E & U & SZ).
      assert (BS : Forall is_byte (skipn size (b :: r))).
      { rewrite <- (firstn_skipn size (b :: r)) in B. apply Forall_app in B. apply B. }
      destruct ((c =? 0x2028) || (c =? 0x2029)) eqn:LS; apply one_line_app; try (apply IH; exact BS).
      * apply one_line_ascii. unfold esc_line_sep. do 5 (apply Forall_cons; [split; [discriminate|reflexivity]|]).
        apply Forall_cons; [apply LH, N.mod_lt; discriminate|constructor].
      * apply orb_false_iff in LS. destruct LS as [L1 L2]. apply N.eqb_neq in L1, L2.
        apply (one_line_char c _ U); [|exact L1|exact L2].
        destruct (utf8_bytes_high _ _ U) as [HC _]; [destruct size; [lia|exact A]|lia].
Qed.
Lemma literal_one_line : forall short s, Forall is_byte s -> one_line (json_literal short s).
Proof.
  intros short s B. unfold json_literal. change (34 :: ?x) with ([34] ++ x).
  apply one_line_app; [apply one_line_ascii; repeat constructor; discriminate|].
  apply one_line_app; [apply escape_one_line; exact B|apply one_line_ascii; repeat constructor; discriminate].
Qed.
Lemma number_one_line : forall s, number_text s -> one_line s.
Proof.
  intros s H. apply one_line_ascii.
  assert (P : forall d, Forall ApiSpec.digit d -> Forall (fun c => 0x20 <= c /\ c < 0x80) d).
  { intros d D. eapply Forall_impl; [|exact D]. intros c C. unfold ApiSpec.digit in C. lia. }
  assert (O : forall c, 0x20 <= c /\ c < 0x80 -> forall d, Forall (fun c => 0x20 <= c /\ c < 0x80) d -> Forall (fun c => 0x20 <= c /\ c < 0x80) (c :: d)) by (intros; constructor; assumption).
  destruct H as (sign & i & f & e & -> & SG & (_ & DI & _) & F & E). apply Forall_app. split; [|apply Forall_app; split; [apply P; exact DI|apply Forall_app; split]].
  - destruct SG as [->| ->]; [constructor|apply O; [lia|constructor]].
  - destruct F as [->|(d & -> & _ & D)]; [constructor|apply O; [lia|apply P; exact D]].
  - destruct E as [->|(c & s & d & -> & C & S & _ & D)]; [constructor|]. apply O; [destruct C as [->| ->]; lia|].
    destruct S as [->|[->| ->]]; cbn [app]; [apply P; exact D|apply O; [lia|apply P; exact D]..].
Qed.
Lemma commas_one_line : forall l, Forall one_line l -> one_line (commas l).
Proof.
  induction l as [|x [|y l] IH]; intros F; [exact one_line_nil|exact (Forall_inv F)|]. rewrite commas_cons.
  apply one_line_app; [exact (Forall_inv F)|]. change (44 :: ?x) with ([44] ++ x).
  apply one_line_app; [apply one_line_ascii; repeat constructor; discriminate|exact (IH (Forall_inv_tail F))].
Qed.
Lemma print_one_line : forall short v, writable v -> one_line (print short v).
Proof.
  assert (WR : forall a b s, 0x20 <= a /\ a < 0x80 -> 0x20 <= b /\ b < 0x80 -> one_line s -> one_line (a :: s ++ [b])).
  { intros a b s A B F. change (a :: s ++ [b]) with ([a] ++ s ++ [b]).
    apply one_line_app; [apply one_line_ascii; constructor; [exact A|constructor]|].
    apply one_line_app; [exact F|apply one_line_ascii; constructor; [exact B|constructor]]. }
  intros short. apply (jv_induction (fun v => writable v -> one_line (print short v))).
  - intros _. apply one_line_ascii. repeat constructor; discriminate.
  - intros [] _; apply one_line_ascii; repeat constructor; discriminate.
  - intros lit W. apply number_one_line. inversion W. assumption.
  - intros s W. apply literal_one_line. inversion W. assumption.
  - intros l IH W. cbn [print]. apply WR; [lia|lia|]. apply commas_one_line.
    assert (W' : Forall writable l) by (inversion W; assumption). clear W. apply Forall_map.
    induction IH as [|v l Hv _ IHl]; constructor; [apply Hv; exact (Forall_inv W')|apply IHl; exact (Forall_inv_tail W')].
  - intros l IH W. cbn [print]. apply WR; [lia|lia|]. apply commas_one_line.
    assert (W' : Forall (fun p => Forall is_byte (fst p) /\ writable (snd p)) l) by (inversion W; assumption). clear W. apply Forall_map.
    induction IH as [|v l Hv _ IHl]; constructor; [|apply IHl; exact (Forall_inv_tail W')].
    destruct (Forall_inv W') as [W1 W2]. apply one_line_app; [apply literal_one_line; exact W1|].
    change (58 :: ?x) with ([58] ++ x). apply one_line_app; [apply one_line_ascii; repeat constructor; discriminate|]. apply Hv. exact W2.
Qed.
Definition repos_bytes (repos : list (str * option repo)) : Prop :=
  Forall (fun p : str * option repo => Forall is_byte (fst p) /\ forall r, snd p = Some r -> repo_bytes r) repos.
Lemma page_repos_line : forall short repos, repos_bytes repos -> one_line (page_repos short repos).
Proof.
  intros short repos F. unfold page_repos. rewrite repos_json_print. apply print_one_line. constructor. apply Forall_map.
  eapply Permutation.Permutation_Forall; [apply Permutation.Permutation_sym, by_key_perm|].
  eapply Forall_impl; [|exact F]. intros [k o] [B R]. cbn [fst snd] in *. split; [exact B|].
  apply enc_opt_writable. intros r ->. apply repo_writable. apply R. reflexivity.
Qed.

(** * The pages *)
Lemma read_shift : forall s html p done, read html p done s = option_map (app done) (read html p [] s).
Proof.
  induction s as [|c s IH]; intros html p done; cbn [read].
  - destruct p; try reflexivity. destruct (forallb space acc); cbn [option_map app]; [rewrite app_nil_r|]; reflexivity.
  - destruct (next html p c s) as [[p' l]|]; [|reflexivity]. rewrite IH, (IH html p' ([] ++ l)).
    destruct (read html p' [] s); [|reflexivity]. cbn [option_map app]. rewrite app_assoc. reflexivity.
Qed.
Lemma read_part : forall html p p' l s, (forall r, read html p [] (s ++ r) = read html p' l r) ->
  forall d r, read html p d (s ++ r) = read html p' (d ++ l) r.
Proof.
  intros html p p' l s E d r. rewrite read_shift, E, read_shift, (read_shift _ _ _ (d ++ l)).
  destruct (read html p' [] r); [|reflexivity]. cbn [option_map]. rewrite app_assoc. reflexivity.
Qed.

(** From one insertion to the next; [x]: what was inserted. *)
Definition tokens0 : list token := start_tokens [] [] [] [].
Definition part (s : str) (p p' : place) (l : list token) : Prop := forall d r, read true p d (s ++ r) = read true p' (d ++ l) r.
Ltac is_part := intros d r; apply read_part; reflexivity.
Lemma part1 : part (text "<!DOCTYPE html>
<html lang=""en"">
    <head>
        <meta charset=""utf-8"">
        <meta http-equiv=""X-UA-Compatible"" content=""IE=Edge"" />
        <title>") (InText []) (InTitle []) (firstn 6 tokens0).
Proof. is_part. Qed.
Lemma part2 : forall x, part (text "</title>
        <link rel=""stylesheet"" href=""css/octicons/octicons.css"">
        <link rel=""stylesheet"" href=""css/hound.css"">
        <link rel=""search"" href=""//") (InTitle x) (InValue (text "link") [(text "rel", text "search")] (text "href") (rev (text "//")))
  (Title (rev x) :: firstn 3 (skipn 7 tokens0)).
Proof. intros x. is_part. Qed.
Lemma part3 : forall x, part (text "/open_search.xml""
              type=""application/opensearchdescription+xml""
              title=""") (InValue (text "link") [(text "rel", text "search")] (text "href") x)
  (InValue (text "link") [(text "rel", text "search"); (text "href", rev (rev (text "/open_search.xml") ++ x));
    (text "type", text "application/opensearchdescription+xml")] (text "title") []) [].
Proof. intros x. is_part. Qed.
Lemma part4 : forall l x, part (text """ />
    </head>
    <body>
        <div id=""root"">
            <div id=""result"">
            </div>
        </div>

        <script>
        var ModelData = ") (InValue (text "link") l (text "title") x) (InScript (rev (nl ++ text "        var ModelData = ")))
  (Start (text "link") (l ++ [(text "title", rev x)]) :: firstn 7 (skipn 11 tokens0)).
Proof. intros l x. is_part. Qed.
Lemma part5 : forall x, part (text ";
        </script>
        <script src=""js/react-") (InScript x) (InValue (text "script") [] (text "src") (rev (text "js/react-")))
  [Script (rev (rev (text ";" ++ nl ++ text "        ") ++ x)); End (text "script")].
Proof. intros x. is_part. Qed.
Lemma part6 : part (text "0.12.2.min.js""></script>
        <script>") (InValue (text "script") [] (text "src") (rev (text "js/react-"))) (InScript [])
  (firstn 4 (skipn 20 tokens0)).
Proof. is_part. Qed.
Lemma part7 : forall d x, read true (InScript x) d (text "</script>
    </body>
</html>
") = Some (d ++ Script (rev x) :: skipn 25 tokens0).
Proof. intros d x. rewrite read_shift. reflexivity. Qed.

Lemma read_free : forall s acc d rest, Forall (fun c => c <> 60 /\ c <> 0) s ->
  read true (InScript acc) d (s ++ rest) = read true (InScript (rev s ++ acc)) d rest.
Proof.
  induction s as [|c s IH]; intros acc d rest F; [reflexivity|]. inversion F as [|? ? [N1 N2] F']; subst.
  apply N.eqb_neq in N1, N2. cbn [app]. erewrite read_on; [|unfold next; rewrite N1, N2; reflexivity].
  rewrite IH by exact F'. cbn [rev]. rewrite <- app_assoc. reflexivity.
Qed.
Lemma literal_free : forall short s, Forall is_byte s -> Forall (fun c => c <> 60 /\ c <> 0) (json_literal short s).
Proof.
  intros short s B. destruct (literal_one_line short s B) as (chars & E & F). assert (P := literal_plain short s B).
  assert (Z : Forall (fun c => c <> 0) (json_literal short s)).
  { rewrite E. apply Forall_concat. eapply Forall_impl; [|exact F]. intros bs (r & U & L & _).
    destruct U; repeat (apply Forall_cons; [lia|]); constructor. }
  apply Forall_forall. intros c I. rewrite Forall_forall in P, Z. split; [|exact (Z c I)]. destruct (P c I) as (_ & X & _). exact X.
Qed.
Lemma start_read : forall short title host json js, Forall is_byte title -> Forall is_byte host -> Forall is_byte json ->
  whole_script js ->
  read_html (index_page short title host json js) =
  Some (start_tokens (shown title) (urlNormalizer host) (jsValEscaper short json) js).
Proof.
  intros short title host json js BT BH BJ W. unfold read_html, index_page, source.
  change (escape (urlNormalizer ReactVersion)) with (text "0.12.2").
  rewrite <- !app_assoc. rewrite part1.
  rewrite (read_escape title) by (exact I || exact BT). cbn [put_in]. rewrite part2.
  rewrite read_escape by (exact I || (apply norm_bytes; exact BH)). rewrite norm_shown by exact BH. cbn [put_in]. rewrite part3.
  rewrite (read_escape title) by (exact I || exact BT). cbn [put_in]. rewrite part4.
  unfold jsValEscaper. rewrite read_free by (apply literal_free; exact BJ). rewrite part5.
  match goal with |- read _ _ ?d (?a ++ ?b ++ ?c ++ ?f) = _ =>
    change (a ++ b ++ c ++ f) with (text "0.12.2.min.js""></script>
        <script>" ++ f) end.
  rewrite part6. change (text "</script>" ++ ?x) with (60 :: tl (text "</script>") ++ x).
  rewrite read_script by exact W.
  match goal with |- read _ _ ?d ?s = _ => change s with (text "</script>
    </body>
</html>
") end.
  rewrite part7. unfold start_tokens. rewrite !app_nil_r, !rev_app_distr, !rev_involutive, <- !app_assoc. reflexivity.
Qed.
Lemma excluded_read : forall js, whole_script js -> read_html (excluded_page js) = Some (excluded_tokens js).
Proof.
  intros js W. unfold read_html, excluded_page, source. change (escape (urlNormalizer ReactVersion)) with (text "0.12.2").
  rewrite <- !app_assoc.
  match goal with |- read _ _ ?d (?a ++ ?b ++ ?c ++ ?e ++ ?f) = _ =>
    set (rest := f); change (read true (InText []) [] (a ++ b ++ c ++ e ++ rest)) with (read true (InScript []) (firstn 17 (excluded_tokens [])) rest) end.
  subst rest. change (text "</script>" ++ ?x) with (60 :: tl (text "</script>") ++ x).
  rewrite read_script by exact W.
  match goal with |- read _ _ ?d ?s = _ => change s with (text "</script>
    </body>
</html>
") end.
  rewrite part7. rewrite app_nil_r, rev_involutive. reflexivity.
Qed.
Lemma search_read : forall host, Forall host_byte host -> ~ In 38 host -> read_xml (open_search_page host) = Some (search_tokens host).
Proof.
  intros host F N. unfold read_xml, open_search_page.
  match goal with |- read _ _ _ (?a ++ host ++ ?c) = _ => set (rest := host ++ c);
    change (read false (InText []) [] (a ++ rest)) with (read false (InValue (text "Url") [(text "type", text "text/html"); (text "method", text "get")] (text "template") (rev (text "http://"))) (firstn 11 (search_tokens [])) rest) end.
  subst rest. rewrite read_plain.
  - cbn [put_in]. rewrite read_shift.
    match goal with |- option_map _ (read _ (InValue _ _ _ ?x) _ _) = _ => set (acc := x) end.
    assert (R : forall acc, read false (InValue (text "Url") [(text "type", text "text/html"); (text "method", text "get")] (text "template") acc) []
      (text "/?q={searchTerms}"" />
</OpenSearchDescription>
") = Some [Start (text "Url") [(text "type", text "text/html"); (text "method", text "get"); (text "template", rev (rev (text "/?q={searchTerms}") ++ acc))];
           End (text "OpenSearchDescription")]) by reflexivity.
    rewrite R. unfold acc. rewrite !rev_app_distr, !rev_involutive, <- !app_assoc. reflexivity.
  - exact I.
  - apply Forall_forall. intros c J. rewrite Forall_forall in F. specialize (F c J).
    assert (c <> 38) by (intros ->; exact (N J)). unfold plain_here. unfold host_byte in F. destruct F as [F|[F|[F|F]]]; [lia|lia|lia|].
    vm_compute in F. repeat destruct F as [F|F]; try contradiction; subst c; repeat split; try discriminate; congruence.
Qed.

Theorem start_shown : forall short title host repos js, Forall is_byte title -> Forall is_byte host -> repos_bytes repos ->
  whole_script js -> exists address model,
    read_html (start_page short title host repos js) = Some (start_tokens (shown title) address model js) /\
    same_address host address /\ one_line model /\ json_string (page_repos short repos) model.
Proof.
  intros short title host repos js BT BH BR W. assert (L := page_repos_line short repos BR). assert (V := one_line_valid _ L).
  assert (BJ : Forall is_byte (page_repos short repos)).
  { destruct V as (chars & E & F). rewrite E. apply Forall_concat. eapply Forall_impl; [|exact F]. intros bs [r U].
    exact (utf8_byte _ _ U). }
  exists (urlNormalizer host), (json_literal short (page_repos short repos)).
  split; [apply start_read; assumption|]. split; [apply normalized; exact BH|]. split; [apply literal_one_line; exact BJ|].
  destruct (literal_string short _ BJ) as (s' & R & J). rewrite (replaced_exact _ _ R V) in J. exact J.
Qed.
