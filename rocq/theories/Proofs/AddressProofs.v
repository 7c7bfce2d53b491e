(** The address of a search. *)
From Verif Require Import Model.Base Model.GoStr Model.Utf8 Model.PageState Model.PageAddress Spec.Utf8Spec Spec.AddressSpec Spec.Names
  Model.Api Proofs.StrLemmas Proofs.Utf8Proofs Proofs.ApiProofs.
From Coq Require Import Lia.
Local Open Scope N_scope.

(** ** Decoding *)
Lemma hex_value_ok : forall c x, hex c x -> hex_value c = Some x /\ x < 16 /\ c <> 43 /\ c <> 38 /\ c <> 61 /\ c <> 37.
Proof.
  intros c x H. assert (L : x < 16) by (destruct H; lia). split; [|split; [exact L|destruct H as [(A & ->)|(A & [->| ->])]; lia]].
  unfold hex_value. destruct H as [(A & ->)|(A & [->| ->])].
  - replace (48 <=? 48 + x) with true by (symmetry; apply N.leb_le; lia). replace (48 + x <=? 57) with true by (symmetry; apply N.leb_le; lia).
    cbn [andb]. f_equal. lia.
  - replace (55 + x <=? 57) with false by (symmetry; apply N.leb_gt; lia). rewrite Bool.andb_false_r.
    replace (97 <=? 55 + x) with false by (symmetry; apply N.leb_gt; lia). cbn [andb].
    replace (65 <=? 55 + x) with true by (symmetry; apply N.leb_le; lia). replace (55 + x <=? 70) with true by (symmetry; apply N.leb_le; lia).
    cbn [andb]. f_equal. lia.
  - replace (87 + x <=? 57) with false by (symmetry; apply N.leb_gt; lia). rewrite Bool.andb_false_r.
    replace (97 <=? 87 + x) with true by (symmetry; apply N.leb_le; lia). replace (87 + x <=? 102) with true by (symmetry; apply N.leb_le; lia).
    cbn [andb]. f_equal. lia.
Qed.
Lemma octet_ok : forall c d x y s, hex c x -> hex d y -> octet (37 :: c :: d :: s) = Some (16 * x + y, s).
Proof. intros c d x y s A B. unfold octet. rewrite (proj1 (hex_value_ok _ _ A)). cbn [bind]. rewrite (proj1 (hex_value_ok _ _ B)). reflexivity. Qed.
Lemma octets_ok : forall bs e s, escapes bs e -> octets (length bs) (e ++ s) = Some (bs, s).
Proof.
  intros bs e s H. induction H as [|b x y c d bs e A B -> _ IH]; [reflexivity|]. cbn [length octets app]. rewrite (octet_ok _ _ _ _ _ A B). cbn [bind].
  rewrite IH. reflexivity.
Qed.
Lemma escapes_chars : forall bs e, escapes bs e -> Forall (fun c => c <> 43 /\ c <> 38 /\ c <> 61) e.
Proof.
  intros bs e H. induction H as [|b x y c d bs e A B _ _ IH]; [constructor|]. apply hex_value_ok in A, B.
  constructor; [lia|]. constructor; [tauto|]. constructor; [tauto|exact IH].
Qed.
Lemma units_ok : forall r u, utf16 r u -> units r = u.
Proof.
  intros r u [r' S L|r' x y X Y ->]; unfold units.
  - replace (r' <? 65536) with true by (symmetry; apply N.ltb_lt; lia). reflexivity.
  - replace (65536 + x * 1024 + y <? 65536) with false by (symmetry; apply N.ltb_ge; lia).
    replace (65536 + x * 1024 + y - 65536) with (x * 1024 + y) by lia.
    replace ((x * 1024 + y) / 1024) with x by (apply N.div_unique with y; lia).
    replace ((x * 1024 + y) mod 1024) with y by (apply N.mod_unique with x; lia). reflexivity.
Qed.
Definition unplus (plus : bool) (s : str) : str := if plus then spaces s else s.
Lemma unplus_app : forall plus a b, unplus plus (a ++ b) = unplus plus a ++ unplus plus b.
Proof. intros [] a b; [apply map_app|reflexivity]. Qed.
Lemma unplus_escapes : forall plus bs e, escapes bs e -> unplus plus e = e.
Proof.
  intros [] bs e H; [|reflexivity]. apply escapes_chars in H. cbn [unplus]. unfold spaces. induction H as [|c e (A & _) _ IH]; [reflexivity|].
  cbn [map]. rewrite (proj2 (N.eqb_neq c 43) A). rewrite IH. reflexivity.
Qed.

Lemma decode_char : forall fuel r bs e u s, utf8 r bs -> escapes bs e -> utf16 r u ->
  decode_loop (S fuel) (e ++ s) = option_map (app u) (decode_loop fuel s).
Proof.
  intros fuel r bs e u s U E U16. pose proof (units_ok _ _ U16) as UN. subst u.
  pose proof (decode_utf8 r bs [] U) as DE. rewrite app_nil_r in DE.
  assert (NE : exists b bs', bs = b :: bs') by (inversion U; subst; eauto). destruct NE as (b & bs' & ->).
  inversion E as [|b' x y c d bs0 e' A B EB E']; subst b' bs0 e. cbn [app decode_loop]. rewrite N.eqb_refl. rewrite (octet_ok _ _ _ _ _ A B). cbn [bind].
  rewrite <- EB. destruct (N.ltb_spec b 128) as [L|L].
  - assert (bs' = [] /\ r = b) as (-> & ->).
    { clear - U L. inversion U; subst; try lia. auto. }
    inversion E'; subst. unfold units. replace (_ <? 65536) with true by (symmetry; apply N.ltb_lt; lia). reflexivity.
  - assert (X : (if b <? 0xC0 then None else if b <? 0xE0 then Some 2%nat else if b <? 0xF0 then Some 3%nat
                    else if b <? 0xF8 then Some 4%nat else None) = Some (length (b :: bs'))).
    { clear - U L. inversion U as [r1|r1 b0 b1 x y E0 E1 LY ER L1 L2|r1 b0 b1 b2 x y z E0 E1 E2 LY LZ ER L1 L2 SC|r1 b0 b1 b2 b3 w x y z E0 E1 E2 E3 LX LY LZ ER L1 L2].
      - subst. lia.
      - replace (b <? 192) with false by (symmetry; apply N.ltb_ge; lia). replace (b <? 224) with true by (symmetry; apply N.ltb_lt; lia). reflexivity.
      - replace (b <? 192) with false by (symmetry; apply N.ltb_ge; lia). replace (b <? 224) with false by (symmetry; apply N.ltb_ge; lia).
        replace (b <? 240) with true by (symmetry; apply N.ltb_lt; lia). reflexivity.
      - replace (b <? 192) with false by (symmetry; apply N.ltb_ge; lia). replace (b <? 224) with false by (symmetry; apply N.ltb_ge; lia).
        replace (b <? 240) with false by (symmetry; apply N.ltb_ge; lia). replace (b <? 248) with true by (symmetry; apply N.ltb_lt; lia). reflexivity. }
    rewrite X. cbn [bind]. replace (length (b :: bs') - 1)%nat with (length bs') by (cbn [length]; lia).
    rewrite (octets_ok bs' e' s E'). cbn [bind]. rewrite DE. rewrite Nat.eqb_refl. reflexivity.
Qed.
Lemma decode_written : forall plus s t, written plus s t -> forall fuel, (length s < fuel)%nat -> decode_loop fuel (unplus plus s) = Some t.
Proof.
  intros plus s t W. induction W as [|c s t A B C D W IH|s t P W IH|r bs e u s t U E U16 W IH]; intros fuel L.
  - destruct fuel; [lia|]. destruct plus; reflexivity.
  - destruct fuel as [|fuel]; [cbn [length] in L; lia|]. change (c :: s) with ([c] ++ s). rewrite unplus_app.
    assert (X : unplus plus [c] = [c]).
    { destruct plus; [|reflexivity]. cbn [unplus spaces map]. destruct D as [D|D]; [|discriminate]. rewrite (proj2 (N.eqb_neq c 43) D). reflexivity. }
    rewrite X. cbn [app decode_loop]. rewrite (proj2 (N.eqb_neq c 37) A). rewrite IH by (cbn [length] in L; lia). reflexivity.
  - destruct fuel as [|fuel]; [cbn [length] in L; lia|]. subst plus. cbn [unplus spaces map decode_loop]. change (43 =? 43) with true. cbv iota. change (32 =? 37) with false. cbv iota.
    specialize (IH fuel). cbn [unplus] in IH. fold (spaces s). rewrite IH by (cbn [length] in L; lia). reflexivity.
  - destruct fuel as [|fuel]; [lia|]. rewrite unplus_app, (unplus_escapes _ _ _ E). rewrite (decode_char fuel r bs e u _ U E U16).
    rewrite IH; [reflexivity|]. rewrite app_length in L.
    assert (NE : (0 < length e)%nat) by (inversion E; subst; [inversion U|cbn [length]; lia]). lia.
Qed.
Lemma unplus_length : forall plus s, length (unplus plus s) = length s.
Proof. intros [] s; [apply map_length|reflexivity]. Qed.
Lemma component_ok : forall plus s t, written plus s t -> decodeURIComponent (unplus plus s) = Some t.
Proof. intros plus s t W. unfold decodeURIComponent. apply (decode_written plus s t W). rewrite unplus_length. apply Nat.lt_succ_diag_r. Qed.
Lemma written_chars : forall plus s t, written plus s t -> Forall (fun c => c <> 38 /\ c <> 61) s.
Proof.
  intros plus s t W. induction W as [|c s t A B C D W IH|s t P W IH|r bs e u s t U E U16 W IH]; [constructor|constructor; auto|constructor; [lia|exact IH]|].
  apply Forall_app. split; [|exact IH]. eapply Forall_impl; [|exact (escapes_chars _ _ E)]. cbv beta. tauto.
Qed.

(** ** Names and values *)
Lemma split_none : forall c a, Forall (fun x => x <> c) a -> split_at c a = [a].
Proof.
  intros c a F. induction F as [|x a N1 _ IH]; [reflexivity|]. cbn [split_at]. rewrite (proj2 (N.eqb_neq x c) N1), IH. reflexivity.
Qed.
Lemma split_first : forall c a b, Forall (fun x => x <> c) a -> split_at c (a ++ c :: b) = a :: split_at c b.
Proof.
  intros c a b F. induction F as [|x a N1 _ IH]; cbn [app split_at]; [rewrite N.eqb_refl; reflexivity|].
  rewrite (proj2 (N.eqb_neq x c) N1), IH. reflexivity.
Qed.
Lemma pair_read : forall a b k v r p, written false a k -> written true b v ->
  read_pairs ((a ++ 61 :: b) :: r) p = read_pairs r ((k, v) :: p).
Proof.
  intros a b k v r p A B. cbn [read_pairs]. pose proof (written_chars _ _ _ A) as FA. pose proof (written_chars _ _ _ B) as FB.
  rewrite (split_first 61 a b) by (eapply Forall_impl; [|exact FA]; cbv beta; tauto).
  rewrite (split_none 61 b) by (eapply Forall_impl; [|exact FB]; cbv beta; tauto).
  pose proof (component_ok _ _ _ A) as DA. pose proof (component_ok _ _ _ B) as DB. cbn [unplus] in DA, DB. rewrite DA, DB. reflexivity.
Qed.
Lemma pair_chars : forall a b k v, written false a k -> written true b v -> Forall (fun x => x <> 38) (a ++ 61 :: b).
Proof.
  intros a b k v A B. apply Forall_app. split; [eapply Forall_impl; [|exact (written_chars _ _ _ A)]; cbv beta; tauto|].
  constructor; [lia|]. eapply Forall_impl; [|exact (written_chars _ _ _ B)]; cbv beta; tauto.
Qed.
Theorem query_read : forall s l, query s l -> forall p, ParamsFromQueryString (63 :: s) p = Some (rev l ++ p).
Proof.
  intros s l Q. cbn [ParamsFromQueryString]. induction Q as [a b k v A B|a b k v s l A B Q IH]; intros p.
  - rewrite split_none by (eapply pair_chars; eassumption). rewrite (pair_read a b k v [] p A B). reflexivity.
  - replace (a ++ 61 :: b ++ 38 :: s) with ((a ++ 61 :: b) ++ 38 :: s) by (rewrite <- app_assoc; reflexivity).
    rewrite split_first by (eapply pair_chars; eassumption). rewrite (pair_read a b k v _ p A B). rewrite IH. cbn [rev]. rewrite <- app_assoc. reflexivity.
Qed.

(** ** Encoding *)
Lemma hex_digit_ok : forall x, x < 16 -> hex (hex_digit x) x.
Proof. intros x L. unfold hex, hex_digit. destruct (N.ltb_spec x 10); [left|right]; split; auto; lia. Qed.
Lemma percent_escapes : forall b, b < 256 -> escapes [b] (percent b).
Proof.
  intros b L. unfold percent. apply es_byte with (b / 16) (b mod 16); [| | |constructor].
  - apply hex_digit_ok. apply N.div_lt_upper_bound; lia.
  - apply hex_digit_ok. apply N.mod_lt. lia.
  - apply N.div_mod. lia.
Qed.
Lemma escapes_app : forall a e b f, escapes a e -> escapes b f -> escapes (a ++ b) (e ++ f).
Proof. intros a e b f A B. induction A; [exact B|]. cbn [app]. econstructor; eassumption. Qed.
Lemma percents : forall bs, Forall (fun b => b < 256) bs -> escapes bs (flat_map percent bs).
Proof.
  intros bs F. induction F as [|b bs L _ IH]; [constructor|]. change (b :: bs) with ([b] ++ bs). cbn [flat_map].
  apply escapes_app; [apply percent_escapes, L|exact IH].
Qed.
Lemma utf8_bytes : forall r bs, utf8 r bs -> Forall (fun b => b < 256) bs.
Proof. intros r bs U. inversion U; subst; repeat (constructor; [lia|]); constructor. Qed.
Lemma utf16_scalar : forall r u, utf16 r u -> scalar r.
Proof. intros r u [r' S L|r' x y X Y ->]; [exact S|]. right. lia. Qed.
Lemma char_escaped : forall r u, utf16 r u -> exists bs, utf8 r bs /\ escapes bs (flat_map percent (encode_rune r)).
Proof.
  intros r u U. pose proof (encode_rune_utf8 r (utf16_scalar _ _ U)) as E. exists (encode_rune r). split; [exact E|]. apply percents, (utf8_bytes _ _ E).
Qed.

(** The code points of well-formed text. *)
Lemma high_iff : forall c, high c = true <-> 0xD800 <= c <= 0xDBFF.
Proof. intros c. unfold high. rewrite Bool.andb_true_iff, !N.leb_le. reflexivity. Qed.
Lemma low_iff : forall c, low c = true <-> 0xDC00 <= c <= 0xDFFF.
Proof. intros c. unfold low. rewrite Bool.andb_true_iff, !N.leb_le. reflexivity. Qed.
Lemma points_char : forall r u s, utf16 r u -> code_points (u ++ s) = option_map (cons r) (code_points s) /\ scalar_values (u ++ s) = r :: scalar_values s.
Proof.
  intros r u s [r' S L|r' x y X Y ->]; cbn [app code_points scalar_values].
  - replace (high r') with false by (symmetry; apply Bool.not_true_is_false; rewrite high_iff; destruct S; lia).
    replace (low r') with false by (symmetry; apply Bool.not_true_is_false; rewrite low_iff; destruct S; lia). auto.
  - replace (high (55296 + x)) with true by (symmetry; apply high_iff; lia). replace (low (56320 + y)) with true by (symmetry; apply low_iff; lia).
    unfold join_pair. replace (65536 + (55296 + x - 55296) * 1024 + (56320 + y - 56320)) with (65536 + x * 1024 + y) by lia. auto.
Qed.
(** What the browser makes of a query. *)
Definition escaped_char (r : N) : str := if query_escaped r then flat_map percent (encode_rune r) else [r].
Definition as_shown (s : str) : str := flat_map escaped_char (scalar_values s).
Lemma as_shown_app : forall a b, well_formed a -> as_shown (a ++ b) = as_shown a ++ as_shown b.
Proof.
  intros a b W. unfold as_shown. induction W as [|r u s U W IH]; [reflexivity|]. rewrite <- app_assoc.
  rewrite (proj2 (points_char r u (s ++ b) U)), (proj2 (points_char r u s U)). cbn [flat_map]. rewrite IH, app_assoc. reflexivity.
Qed.
(** Characters that stay. *)
Definition stays (c : N) : Prop := 32 < c <= 126 /\ ~ In c [34; 39; 60; 62].
Lemma stays_ok : forall c, stays c -> query_escaped c = false /\ utf16 c [c].
Proof.
  intros c ((A & B) & C). split.
  - unfold query_escaped. replace (c <=? 32) with false by (symmetry; apply N.leb_gt; lia). replace (126 <? c) with false by (symmetry; apply N.ltb_ge; lia).
    cbn [orb]. apply Bool.not_true_is_false. intros X. apply existsb_exists in X. destruct X as (y & I & E). apply N.eqb_eq in E. subst y. contradiction.
  - apply utf16_1; [left; lia|lia].
Qed.
Lemma ascii_formed : forall s, Forall (fun c => c <= 126) s -> well_formed s.
Proof.
  intros s F. induction F as [|c s L _ IH]; [constructor|]. change (c :: s) with ([c] ++ s). apply wf_char with c; [|exact IH]. apply utf16_1; [left; lia|lia].
Qed.
Lemma as_shown_stays : forall s b, Forall stays s -> as_shown (s ++ b) = s ++ as_shown b.
Proof.
  intros s b F. induction F as [|c s S _ IH]; [reflexivity|]. destruct (stays_ok c S) as (Q & U). cbn [app].
  change (c :: s ++ b) with ([c] ++ (s ++ b)). rewrite as_shown_app by (change [c] with ([c] ++ []); apply (wf_char c); [exact U|constructor]).
  rewrite IH. unfold as_shown at 1. change [c] with ([c] ++ []). rewrite (proj2 (points_char c [c] [] U)). cbn [scalar_values flat_map].
  unfold escaped_char. rewrite Q. reflexivity.
Qed.
Lemma hex_stays : forall c x, hex c x -> stays c.
Proof. intros c x H. split; [destruct H as [(A & ->)|(A & [->| ->])]; lia|]. intros I. cbn [In] in I. destruct H as [(A & ->)|(A & [->| ->])]; lia. Qed.
Lemma escapes_stays : forall bs e, escapes bs e -> Forall stays e.
Proof.
  intros bs e H. induction H as [|b x y c d bs e A B _ _ IH]; [constructor|].
  constructor; [split; [lia|cbn [In]; lia]|]. constructor; [eapply hex_stays; exact A|]. constructor; [eapply hex_stays; exact B|exact IH].
Qed.

(** Which characters encodeURIComponent leaves alone. *)
Lemma alone_cases : forall c, left_alone c = true -> c = 39 \/ (stays c /\ c <> 37 /\ c <> 38 /\ c <> 61 /\ c <> 43 /\ c <> 35 /\ c <> 63).
Proof.
  intros c H. unfold left_alone in H. rewrite !Bool.orb_true_iff, !Bool.andb_true_iff, !N.leb_le in H.
  assert (X : (65 <= c <= 90 \/ 97 <= c <= 122 \/ 48 <= c <= 57) \/ In c [45; 95; 46; 33; 126; 42; 39; 40; 41]).
  { destruct H as [[[H|H]|H]|H]; [left; lia|left; lia|left; lia|right]. apply existsb_exists in H. destruct H as (y & I & E). apply N.eqb_eq in E. subst y. exact I. }
  unfold stays. cbn [In] in *. lia.
Qed.
(** Text that is encoded, as the browser has it. *)
Definition coded (c : N) : Prop := 32 < c <= 126 /\ c <> 35 /\ c <> 63 /\ c <> 38.
Lemma encode_written : forall s, well_formed s -> exists e, encodeURIComponent s = Some e /\ Forall coded e /\ written true (as_shown e) s.
Proof.
  intros s W. unfold encodeURIComponent.
  assert (X : exists rs, code_points s = Some rs /\
    let e := flat_map (fun r => if left_alone r then [r] else flat_map percent (encode_rune r)) rs in Forall coded e /\ written true (as_shown e) s).
  { induction W as [|r u s U W (rs & E & F & WR)]; [exists []; split; [reflexivity|]; split; [constructor|apply wr_nil]|].
    exists (r :: rs). split; [rewrite (proj1 (points_char r u s U)), E; reflexivity|]. cbv zeta. cbn [flat_map].
    destruct (char_escaped r u U) as (bs & U8 & ES). destruct (left_alone r) eqn:A.
    - assert (RL : r <= 126) by (destruct (alone_cases r A) as [->|(((_ & L) & _) & _)]; lia).
      assert (u = [r]) by (inversion U; subst; [reflexivity|lia]). subst u. split.
      + constructor; [|exact F]. destruct (alone_cases r A) as [->|((L & _) & N1)]; unfold coded; lia.
      + cbn [app]. change (r :: flat_map (fun r => if left_alone r then [r] else flat_map percent (encode_rune r)) rs) with ([r] ++ flat_map (fun r => if left_alone r then [r] else flat_map percent (encode_rune r)) rs).
        rewrite as_shown_app by (apply ascii_formed; constructor; [exact RL|constructor]).
        unfold as_shown at 1. change [r] with ([r] ++ []). rewrite (proj2 (points_char r [r] [] U)). cbn [scalar_values flat_map]. rewrite app_nil_r.
        unfold escaped_char. destruct (alone_cases r A) as [->|(ST & N1 & N2 & N3 & N4 & _)].
        * change (query_escaped 39) with true. cbv iota. exact (wr_char _ _ _ _ _ _ _ U8 ES U WR).
        * rewrite (proj1 (stays_ok r ST)). cbn [app]. apply wr_plain; auto.
    - split.
      + apply Forall_app. split; [|exact F]. pose proof (escapes_stays _ _ ES) as F1. pose proof (escapes_chars _ _ ES) as F2.
        clear - ES. induction ES as [|b x y c d bs e A B _ _ IH]; [constructor|].
        assert (H : forall c x, hex c x -> coded c) by (intros c0 x0 [(Q & ->)|(Q & [->| ->])]; unfold coded; lia).
        constructor; [unfold coded; lia|]. constructor; [eapply H; exact A|]. constructor; [eapply H; exact B|exact IH].
      + rewrite as_shown_stays by (eapply escapes_stays; exact ES). exact (wr_char _ _ _ _ _ _ _ U8 ES U WR). }
  destruct X as (rs & E & F & WR). rewrite E. cbn [bind]. eexists. split; [reflexivity|]. split; [exact F|exact WR].
Qed.
(** Text that is not. *)
Lemma harmless_written : forall s, well_formed s -> Forall (fun c => ~ In c [37; 38; 61; 43; 35; 9; 10; 13]) s -> written true (as_shown s) s.
Proof.
  intros s W. induction W as [|r u s U W IH]; intros F; [apply wr_nil|]. apply Forall_app in F. destruct F as (FU & F). specialize (IH F).
  unfold as_shown. rewrite (proj2 (points_char r u s U)). cbn [flat_map]. unfold escaped_char at 1. destruct (query_escaped r) eqn:Q.
  - destruct (char_escaped r u U) as (bs & U8 & ES). exact (wr_char _ _ _ _ _ _ _ U8 ES U IH).
  - assert (RL : r <= 126).
    { unfold query_escaped in Q. apply Bool.orb_false_iff in Q. destruct Q as (Q & _). apply Bool.orb_false_iff in Q. destruct Q as (_ & Q). apply N.ltb_ge in Q. exact Q. }
    assert (u = [r]) by (inversion U; subst; [reflexivity|lia]). subst u. apply Forall_inv in FU. cbn [In] in FU. cbn [app].
    apply wr_plain; [lia|lia|lia|left; lia|exact IH].
Qed.

(** ** The address *)
Definition in_path (c : N) : Prop := 32 < c <= 126 /\ c <> 35 /\ c <> 63.
Lemma strip_some : forall c s, 32 < c -> strip (c :: s) = c :: s.
Proof. intros c s L. cbn [strip]. rewrite (proj2 (N.leb_gt c 32) L). reflexivity. Qed.
Lemma strip_both_ok : forall c s d s', c :: s = s' ++ [d] -> 32 < c -> 32 < d -> strip_both (c :: s) = c :: s.
Proof.
  intros c s d s' E A B. unfold strip_both. rewrite strip_some by exact A. rewrite E, rev_app_distr. cbn [rev app]. rewrite strip_some by exact B.
  cbn [rev]. rewrite rev_involutive. reflexivity.
Qed.
Lemma no_newlines_ok : forall s, Forall (fun c => ~ In c [9; 10; 13]) s -> no_newlines s = s.
Proof.
  intros s F. unfold no_newlines. induction F as [|c s N1 _ IH]; [reflexivity|]. cbn [filter].
  assert (X : existsb (N.eqb c) [9; 10; 13] = false).
  { apply Bool.not_true_is_false. intros X. apply existsb_exists in X. destruct X as (y & I & E). apply N.eqb_eq in E. subst y. contradiction. }
  rewrite X. cbn [negb]. rewrite IH. reflexivity.
Qed.
Lemma upto_none : forall c s, Forall (fun x => x <> c) s -> upto c s = s.
Proof. intros c s F. induction F as [|x s N1 _ IH]; [reflexivity|]. cbn [upto]. rewrite (proj2 (N.eqb_neq x c) N1), IH. reflexivity. Qed.
Lemma after_ok : forall c a b, Forall (fun x => x <> c) a -> after_first c (a ++ c :: b) = b.
Proof.
  intros c a b F. induction F as [|x s N1 _ IH]; cbn [app after_first]; [rewrite N.eqb_refl; reflexivity|]. rewrite (proj2 (N.eqb_neq x c) N1). exact IH.
Qed.
Lemma field_shown : forall name e rest, Forall stays name -> Forall coded e ->
  as_shown (name ++ 61 :: e ++ 38 :: rest) = name ++ 61 :: as_shown e ++ 38 :: as_shown rest.
Proof.
  intros name e rest F C. rewrite as_shown_stays by exact F. f_equal.
  assert (S61 : Forall stays [61]) by (constructor; [split; [lia|cbn [In]; lia]|constructor]).
  assert (S38 : Forall stays [38]) by (constructor; [split; [lia|cbn [In]; lia]|constructor]).
  change (61 :: e ++ 38 :: rest) with ([61] ++ (e ++ 38 :: rest)). rewrite as_shown_stays by exact S61. cbn [app]. f_equal.
  rewrite as_shown_app by (apply ascii_formed; eapply Forall_impl; [|exact C]; unfold coded; intros; lia).
  change (38 :: rest) with ([38] ++ rest). rewrite (as_shown_stays [38]) by exact S38. reflexivity.
Qed.
Lemma name_written : forall s, Forall (fun c => 62 < c <= 122) s -> written false s s.
Proof. intros s F. induction F as [|c s L _ IH]; [apply wr_nil|]. apply wr_plain; [lia|lia|lia|right; reflexivity|exact IH]. Qed.
Lemma box_formed : forall b, well_formed (box b).
Proof. intros []; apply ascii_formed; repeat (constructor; [lia|]); constructor. Qed.

Theorem reopened : forall c path f, Forall in_path (c :: path) ->
  well_formed (sf_q f) -> well_formed (sf_files f) -> well_formed (sf_exclude f) -> harmless (sf_repos f) ->
  exists u p, address (c :: path) f = Some u /\ ParamsFromUrl (location_search u) = Some p /\ forall k, get_param p k = get_param (form_params f) k.
Proof.
  intros c path f FP WQ WF WE (WR & FR & LR). unfold address.
  destruct (encode_written _ WQ) as (eq & E1 & C1 & W1). destruct (encode_written _ (box_formed (sf_i f))) as (ei & E2 & C2 & W2).
  destruct (encode_written _ (box_formed (sf_literal f))) as (el & E3 & C3 & W3). destruct (encode_written _ WF) as (ef & E4 & C4 & W4).
  destruct (encode_written _ WE) as (ex & E5 & C5 & W5). rewrite E1, E2, E3, E4, E5. cbn [bind]. clear E1 E2 E3 E4 E5.
  pose proof (harmless_written _ WR FR) as W6.
  set (Q := n_q ++ 61 :: eq ++ 38 :: n_i ++ 61 :: ei ++ 38 :: n_literal ++ 61 :: el ++ 38 :: n_files ++ 61 :: ef ++ 38 :: n_exclude ++ 61 :: ex ++ 38 :: n_repos ++ 61 :: sf_repos f).
  assert (NAMES : Forall (Forall (fun c => 62 < c <= 122)) [n_q; n_i; n_literal; n_files; n_exclude; n_repos])
    by (repeat (constructor; [repeat (constructor; [lia|]); constructor|]); constructor).
  pose proof (Forall_inv NAMES) as Mq. pose proof (Forall_inv (Forall_inv_tail NAMES)) as Mi.
  pose proof (Forall_inv (Forall_inv_tail (Forall_inv_tail NAMES))) as Ml. pose proof (Forall_inv (Forall_inv_tail (Forall_inv_tail (Forall_inv_tail NAMES)))) as Mf.
  pose proof (Forall_inv (Forall_inv_tail (Forall_inv_tail (Forall_inv_tail (Forall_inv_tail NAMES))))) as Me.
  pose proof (Forall_inv (Forall_inv_tail (Forall_inv_tail (Forall_inv_tail (Forall_inv_tail (Forall_inv_tail NAMES)))))) as Mr. clear NAMES.
  assert (ST : forall n, Forall (fun c => 62 < c <= 122) n -> Forall stays n).
  { intros n A. eapply Forall_impl; [|exact A]. intros x L. cbv beta in L. split; [lia|cbn [In]; lia]. }
  assert (SQ : as_shown Q = n_q ++ 61 :: as_shown eq ++ 38 :: n_i ++ 61 :: as_shown ei ++ 38 :: n_literal ++ 61 :: as_shown el ++
     38 :: n_files ++ 61 :: as_shown ef ++ 38 :: n_exclude ++ 61 :: as_shown ex ++ 38 :: n_repos ++ 61 :: as_shown (sf_repos f)).
  { unfold Q. rewrite (field_shown n_q), (field_shown n_i), (field_shown n_literal), (field_shown n_files), (field_shown n_exclude) by (try assumption; apply ST; assumption).
    rewrite (as_shown_stays n_repos) by (apply ST; assumption).
    change (61 :: sf_repos f) with ([61] ++ sf_repos f). rewrite (as_shown_stays [61]) by (constructor; [split; [lia|cbn [In]; lia]|constructor]). reflexivity. }
  assert (QU : query (as_shown Q) [(n_q, sf_q f); (n_i, box (sf_i f)); (n_literal, box (sf_literal f)); (n_files, sf_files f); (n_exclude, sf_exclude f); (n_repos, sf_repos f)]).
  { rewrite SQ. repeat (apply qu_more; [apply name_written; assumption|assumption|]). apply qu_one; [apply name_written; assumption|exact W6]. }
  assert (FQ : Forall (fun c => ~ In c [9; 10; 13] /\ c <> 35) Q).
  { assert (CO : forall e, Forall coded e -> Forall (fun c => ~ In c [9; 10; 13] /\ c <> 35) e)
      by (intros e H; eapply Forall_impl; [|exact H]; unfold coded; cbn [In]; intros; lia).
    assert (NA : forall n, Forall (fun c => 62 < c <= 122) n -> Forall (fun c => ~ In c [9; 10; 13] /\ c <> 35) n)
      by (intros n H; eapply Forall_impl; [|exact H]; cbn [In]; intros; lia).
    assert (RE : Forall (fun c => ~ In c [9; 10; 13] /\ c <> 35) (sf_repos f)) by (eapply Forall_impl; [|exact FR]; cbn [In]; intros; lia).
    unfold Q. repeat (apply Forall_app; split; [first [solve [apply CO; assumption]|solve [apply NA; assumption]]|]; constructor; [cbn [In]; lia|]). exact RE. }
  eexists. exists (rev [(n_q, sf_q f); (n_i, box (sf_i f)); (n_literal, box (sf_literal f)); (n_files, sf_files f); (n_exclude, sf_exclude f); (n_repos, sf_repos f)] ++ default_params).
  split; [reflexivity|]. fold Q.
  assert (LS : location_search ((c :: path) ++ 63 :: Q) = 63 :: as_shown Q).
  { unfold location_search. pose proof (Forall_inv FP) as FC.
    assert (LAST : exists s' d, (c :: path) ++ 63 :: Q = s' ++ [d] /\ 32 < d).
    { destruct LR as [R0|(s' & d & R0 & LD)].
      - unfold Q. rewrite R0. exists ((c :: path) ++ 63 :: n_q ++ 61 :: eq ++ 38 :: n_i ++ 61 :: ei ++ 38 :: n_literal ++ 61 :: el ++ 38 :: n_files ++ 61 :: ef ++ 38 :: n_exclude ++ 61 :: ex ++ 38 :: n_repos), 61.
        split; [|lia]. rewrite <- !app_assoc. cbn [app]. repeat (rewrite <- ?app_assoc; cbn [app]). reflexivity.
      - unfold Q. rewrite R0. exists ((c :: path) ++ 63 :: n_q ++ 61 :: eq ++ 38 :: n_i ++ 61 :: ei ++ 38 :: n_literal ++ 61 :: el ++ 38 :: n_files ++ 61 :: ef ++ 38 :: n_exclude ++ 61 :: ex ++ 38 :: n_repos ++ 61 :: s'), d.
        split; [|exact LD]. repeat (rewrite <- ?app_assoc; cbn [app]). reflexivity. }
    destruct LAST as (s' & d & EL & LD). cbn [app] in EL |- *. rewrite (strip_both_ok _ _ _ _ EL) by (exact LD || apply FC).
    change (c :: path ++ 63 :: Q) with ((c :: path) ++ 63 :: Q).
    assert (FA : Forall (fun c => ~ In c [9; 10; 13] /\ c <> 35) ((c :: path) ++ 63 :: Q)).
    { apply Forall_app. split; [eapply Forall_impl; [|exact FP]; unfold in_path; cbn [In]; intros; lia|]. constructor; [cbn [In]; lia|exact FQ]. }
    rewrite no_newlines_ok by (eapply Forall_impl; [|exact FA]; cbv beta; tauto).
    rewrite upto_none by (eapply Forall_impl; [|exact FA]; cbv beta; tauto).
    rewrite after_ok by (eapply Forall_impl; [|exact FP]; unfold in_path; intros; lia).
    assert (QN : exists x r, Q = x :: r) by (unfold Q, n_q; cbn [app]; eauto). destruct QN as (x & r & QN). rewrite QN. reflexivity. }
  split; [rewrite LS; apply (query_read _ _ QU)|].
  intros k. unfold form_params, default_params. cbn [rev app get_param].
  destruct (str_eqb n_repos k) eqn:K1; destruct (str_eqb n_exclude k) eqn:K2; try (apply str_eqb_eq in K1; apply str_eqb_eq in K2; subst; discriminate);
  destruct (str_eqb n_files k) eqn:K3; try (apply str_eqb_eq in K1; apply str_eqb_eq in K3; subst; discriminate); try (apply str_eqb_eq in K2; apply str_eqb_eq in K3; subst; discriminate);
  destruct (str_eqb n_literal k) eqn:K4; try (apply str_eqb_eq in K4; subst k; discriminate);
  destruct (str_eqb n_i k) eqn:K5; try (apply str_eqb_eq in K5; subst k; discriminate);
  destruct (str_eqb n_q k) eqn:K6; try (apply str_eqb_eq in K6; subst k; discriminate); reflexivity.
Qed.
(** The boxes. *)
Lemma yes_box : forall v, ParamValueToBool v = true <-> yes v.
Proof.
  intros v. rewrite <- yes_ok. unfold ParamValueToBool, parseAsBool. cbv zeta. change fosho with [102; 111; 115; 104; 111].
  rewrite !Bool.orb_true_iff. tauto.
Qed.
