(** From the search bar to the handler. *)
From Verif Require Import Model.Base Model.GoStr Model.Utf8 Model.PageState Model.PageAddress Model.Request Model.Api Model.PageForm
  Spec.Utf8Spec Spec.AddressSpec Spec.ApiSpec Spec.FormSpec Spec.Names Proofs.StrLemmas Proofs.Utf8Proofs Proofs.ApiProofs Proofs.RequestProofs
  Proofs.AddressProofs.
From Coq Require Import Lia.
Local Open Scope N_scope.

(** ** Texts *)
Lemma same_formed : forall s b, same_text s b -> well_formed s.
Proof. intros s b T. induction T as [|r u bs s b U _ _ IH]; [constructor|]. exact (wf_char r u s U IH). Qed.
Definition bytes_of (rs : list N) : str := flat_map encode_rune rs.
Lemma same_points : forall s b, same_text s b -> exists rs, code_points s = Some rs /\ b = bytes_of rs /\ Forall scalar rs.
Proof.
  intros s b T. induction T as [|r u bs s b U U8 _ (rs & E & -> & F)]; [exists []; repeat split; constructor|].
  exists (r :: rs). rewrite (proj1 (points_char r u s U)), E. split; [reflexivity|]. split; [|constructor; [exact (utf16_scalar _ _ U)|exact F]].
  unfold bytes_of. cbn [flat_map]. f_equal. exact (utf8_fun _ _ _ U8 (encode_rune_utf8 _ (utf16_scalar _ _ U))).
Qed.

Lemma formed_same : forall s, well_formed s -> exists b, same_text s b.
Proof.
  intros s W. induction W as [|r u s U _ (b & T)]; [exists []; constructor|]. exists (encode_rune r ++ b).
  exact (st_char r u _ s b U (encode_rune_utf8 _ (utf16_scalar _ _ U)) T).
Qed.
Lemma same_fun : forall s b b', same_text s b -> same_text s b' -> b = b'.
Proof.
  intros s b b' A B. destruct (same_points _ _ A) as (rs & E & -> & _). destruct (same_points _ _ B) as (rs' & E' & -> & _). congruence.
Qed.
Lemma bytes_inj : forall a b, Forall scalar a -> Forall scalar b -> bytes_of a = bytes_of b -> a = b.
Proof.
  induction a as [|r a IH]; intros b FA FB E.
  - destruct b as [|r b]; [reflexivity|]. exfalso. pose proof (Forall_inv FB) as S1. apply encode_rune_utf8, utf8_nonempty in S1.
    unfold bytes_of in E. cbn [flat_map] in E. destruct (encode_rune r); [congruence|discriminate].
  - destruct b as [|r' b].
    + exfalso. pose proof (Forall_inv FA) as S1. apply encode_rune_utf8, utf8_nonempty in S1.
      unfold bytes_of in E. cbn [flat_map] in E. destruct (encode_rune r); [congruence|discriminate].
    + pose proof (encode_rune_utf8 _ (Forall_inv FA)) as U. pose proof (encode_rune_utf8 _ (Forall_inv FB)) as U'.
      change (encode_rune r ++ bytes_of a = encode_rune r' ++ bytes_of b) in E.
      pose proof (decode_utf8 _ _ (bytes_of a) U) as D. pose proof (decode_utf8 _ _ (bytes_of b) U') as D'. rewrite E in D.
      assert (r = r') by congruence. subst r'. f_equal. apply (IH b (Forall_inv_tail FA) (Forall_inv_tail FB)).
      exact (app_inv_head _ _ _ E).
Qed.
Lemma points_inj : forall s b s' b', same_text s b -> same_text s' b' -> code_points s = code_points s' -> s = s'.
Proof.
  intros s b s' b' A. revert s' b'. induction A as [|r u bs s b U U8 T IH]; intros s' b' B E.
  - destruct B as [|r' u' bs' s' b' U' _ _]; [reflexivity|]. rewrite (proj1 (points_char r' u' s' U')) in E. destruct (code_points s'); discriminate.
  - destruct B as [|r' u' bs' s' b' U' U8' T'].
    + rewrite (proj1 (points_char r u s U)) in E. destruct (code_points s); discriminate.
    + rewrite (proj1 (points_char r u s U)), (proj1 (points_char r' u' s' U')) in E.
      destruct (same_points _ _ T) as (rs & E1 & _). destruct (same_points _ _ T') as (rs' & E1' & _). rewrite E1, E1' in E. cbn [option_map] in E.
      assert (r = r') by congruence. subst r'. rewrite <- (units_ok _ _ U), <- (units_ok _ _ U'). f_equal. apply (IH s' b' T'). congruence.
Qed.
Lemma same_inj : forall s s' b, same_text s b -> same_text s' b -> s = s'.
Proof.
  intros s s' b A B. destruct (same_points _ _ A) as (rs & E & E1 & F). destruct (same_points _ _ B) as (rs' & E' & E1' & F').
  apply (points_inj s b s' b A B). rewrite E, E'. f_equal. apply bytes_inj; congruence.
Qed.
Lemma same_ascii : forall s, Forall (fun c => c < 128) s -> same_text s s.
Proof.
  intros s F. induction F as [|c s L _ IH]; [constructor|]. apply (st_char c [c] [c] s s); [apply utf16_1; [left|]; lia|apply utf8_1; exact L|exact IH].
Qed.

(** ** Escaping *)
Definition token (b : N) : str := if b =? 32 then [43] else percent b.
Definition sent_char (r : N) : str := if left_alone r then [r] else flat_map token (encode_rune r).
Definition sent_text (rs : list N) : str := flat_map sent_char rs.
Lemma plus_other : forall c s, c <> 37 -> plus_for_20 (c :: s) = c :: plus_for_20 s.
Proof. intros c s NE. cbn [plus_for_20]. rewrite (proj2 (N.eqb_neq c 37) NE). destruct s as [|x [|y r]]; reflexivity. Qed.
Lemma hex_digit_range : forall x, x < 16 -> hex_digit x <> 37 /\ (hex_digit x = 50 -> x = 2) /\ (hex_digit x = 48 -> x = 0).
Proof. intros x L. unfold hex_digit. destruct (N.ltb_spec x 10); lia. Qed.
Lemma plus_percent : forall b s, b < 256 -> plus_for_20 (percent b ++ s) = token b ++ plus_for_20 s.
Proof.
  intros b s L. unfold token. destruct (N.eqb_spec b 32) as [->|NE]; [reflexivity|]. unfold percent. cbn [app].
  assert (L1 : b / 16 < 16) by (apply N.div_lt_upper_bound; lia). assert (L2 : b mod 16 < 16) by (apply N.mod_lt; lia).
  destruct (hex_digit_range _ L1) as (A1 & A2 & _). destruct (hex_digit_range _ L2) as (B1 & _ & B2).
  assert (X : (hex_digit (b / 16) =? 50) && (hex_digit (b mod 16) =? 48) = false).
  { apply Bool.andb_false_iff. destruct (N.eqb_spec (hex_digit (b / 16)) 50) as [E1|]; [right|left; reflexivity]. apply N.eqb_neq. intros E2.
    apply A2 in E1. apply B2 in E2. apply NE. pose proof (N.div_mod b 16). lia. }
  change (plus_for_20 (37 :: hex_digit (b / 16) :: hex_digit (b mod 16) :: s)) with
    (if (hex_digit (b / 16) =? 50) && (hex_digit (b mod 16) =? 48) then 43 :: plus_for_20 s else 37 :: plus_for_20 (hex_digit (b / 16) :: hex_digit (b mod 16) :: s)).
  rewrite X, (plus_other _ _ A1), (plus_other _ _ B1). reflexivity.
Qed.
Lemma plus_percents : forall bs s, Forall (fun b => b < 256) bs -> plus_for_20 (flat_map percent bs ++ s) = flat_map token bs ++ plus_for_20 s.
Proof.
  intros bs s F. induction F as [|b bs L _ IH]; [reflexivity|]. cbn [flat_map]. rewrite <- !app_assoc. rewrite (plus_percent _ _ L), IH. reflexivity.
Qed.
Lemma plus_text : forall rs s, Forall scalar rs ->
  plus_for_20 (flat_map (fun r => if left_alone r then [r] else flat_map percent (encode_rune r)) rs ++ s) = sent_text rs ++ plus_for_20 s.
Proof.
  intros rs s F. unfold sent_text. induction F as [|r rs S1 _ IH]; [reflexivity|]. cbn [flat_map]. rewrite <- !app_assoc. unfold sent_char at 1.
  destruct (left_alone r) eqn:LA.
  - cbn [app]. rewrite plus_other, IH; [reflexivity|]. destruct (alone_cases r LA) as [->|(_ & NE & _)]; [lia|exact NE].
  - rewrite plus_percents, IH; [reflexivity|]. exact (utf8_bytes _ _ (encode_rune_utf8 _ S1)).
Qed.

(** What the server makes of it. *)
Inductive reads : str -> str -> Prop :=
  | re_nil : reads [] []
  | re_plain c s b : ~ In c [37; 38; 43; 59; 61] -> reads s b -> reads (c :: s) (c :: b)
  | re_plus s b : reads s b -> reads (43 :: s) (32 :: b)
  | re_byte x s b : x < 256 -> reads s b -> reads (percent x ++ s) (x :: b).
Lemma unhex_digit : forall x, x < 16 -> unhex (hex_digit x) = Some x.
Proof. exact unhex_upper. Qed.
Lemma reads_ok : forall s b, reads s b -> QueryUnescape s = Some b /\ Forall (fun c => c <> 38 /\ c <> 59 /\ c <> 61) s.
Proof.
  intros s b R. induction R as [|c s b NI _ (IH & F)|s b _ (IH & F)|x s b L _ (IH & F)].
  - split; [reflexivity|constructor].
  - cbn [In] in NI. split; [|constructor; [lia|exact F]]. cbn [QueryUnescape]. rewrite (proj2 (N.eqb_neq c 37)), (proj2 (N.eqb_neq c 43)), IH by lia. reflexivity.
  - split; [|constructor; [lia|exact F]]. cbn [QueryUnescape]. rewrite IH. reflexivity.
  - assert (L1 : x / 16 < 16) by (apply N.div_lt_upper_bound; lia). assert (L2 : x mod 16 < 16) by (apply N.mod_lt; lia). unfold percent. cbn [app]. split.
    + cbn [QueryUnescape]. change (37 =? 37) with true. cbv iota. rewrite (unhex_digit _ L1), (unhex_digit _ L2), IH. cbn [option_map]. do 2 f_equal.
      pose proof (N.div_mod x 16). lia.
    + assert (D : forall y, y < 16 -> hex_digit y <> 38 /\ hex_digit y <> 59 /\ hex_digit y <> 61) by (intros y Y; unfold hex_digit; destruct (N.ltb_spec y 10); lia).
      constructor; [lia|]. constructor; [apply D, L1|]. constructor; [apply D, L2|exact F].
Qed.
Lemma reads_app : forall a b s t, reads a b -> reads s t -> reads (a ++ s) (b ++ t).
Proof.
  intros a b s t A B. induction A as [|c a b NI _ IH|a b _ IH|x a b L _ IH]; [exact B|apply re_plain; assumption|apply re_plus; assumption|].
  rewrite <- app_assoc. apply re_byte; assumption.
Qed.
(** The browser. *)
Definition ascii (s : str) : Prop := Forall (fun c => 32 < c <= 126 /\ c <> 35 /\ c <> 63) s.
Lemma shown_ascii : forall s t, ascii s -> as_shown (s ++ t) = as_shown s ++ as_shown t.
Proof. intros s t F. apply as_shown_app, ascii_formed. eapply Forall_impl; [|exact F]. cbv beta. intros c C. lia. Qed.
Lemma token_ascii : forall b, b < 256 -> ascii (token b).
Proof.
  intros b L. unfold token. destruct (b =? 32); [constructor; [lia|constructor]|].
  assert (L1 : b / 16 < 16) by (apply N.div_lt_upper_bound; lia). assert (L2 : b mod 16 < 16) by (apply N.mod_lt; lia).
  assert (D : forall y, y < 16 -> 32 < hex_digit y <= 126 /\ hex_digit y <> 35 /\ hex_digit y <> 63) by (intros y Y; unfold hex_digit; destruct (N.ltb_spec y 10); lia).
  constructor; [lia|]. constructor; [apply D, L1|]. constructor; [apply D, L2|constructor].
Qed.
Lemma token_shown : forall b, b < 256 -> as_shown (token b) = token b.
Proof.
  intros b L. rewrite <- (app_nil_r (token b)) at 1. rewrite as_shown_stays; [apply app_nil_r|]. unfold token. destruct (b =? 32).
  - constructor; [split; [lia|cbn [In]; lia]|constructor].
  - exact (escapes_stays _ _ (percent_escapes b L)).
Qed.
Lemma token_reads : forall b, b < 256 -> reads (token b) [b].
Proof.
  intros b L. unfold token. destruct (N.eqb_spec b 32) as [->|NE]; [apply re_plus; constructor|].
  rewrite <- (app_nil_r (percent b)). apply re_byte; [exact L|constructor].
Qed.
Lemma tokens_ok : forall bs, Forall (fun b => b < 256) bs -> ascii (flat_map token bs) /\ reads (as_shown (flat_map token bs)) bs.
Proof.
  intros bs F. induction F as [|b bs L _ (IA & IH)]; [split; constructor|]. cbn [flat_map]. split; [apply Forall_app; split; [apply token_ascii, L|exact IA]|].
  rewrite shown_ascii by (apply token_ascii, L). rewrite token_shown by exact L. exact (reads_app _ _ _ _ (token_reads b L) IH).
Qed.
Lemma char_ok : forall r, scalar r -> ascii (sent_char r) /\ reads (as_shown (sent_char r)) (encode_rune r).
Proof.
  intros r S1. unfold sent_char. destruct (left_alone r) eqn:LA.
  - assert (E : encode_rune r = [r]).
    { destruct (alone_cases r LA) as [->|(((A & B) & _) & _)]; [reflexivity|]. apply (utf8_fun r); [apply encode_rune_utf8, S1|apply utf8_1; lia]. }
    rewrite E. destruct (alone_cases r LA) as [->|(ST & A & B & C & D & H1 & H2)].
    + split; [constructor; [lia|constructor]|]. change (as_shown [39]) with (percent 39 ++ []). apply re_byte; [lia|constructor].
    + split; [constructor; [destruct ST; lia|constructor]|]. change [r] with ([r] ++ []) at 1. rewrite as_shown_stays by (constructor; [exact ST|constructor]).
      apply re_plain; [|constructor]. cbn [In]. intros [X|[X|[X|[X|[X|[]]]]]]; subst r; try congruence. discriminate.
  - apply tokens_ok. exact (utf8_bytes _ _ (encode_rune_utf8 _ S1)).
Qed.
Lemma text_ok : forall rs, Forall scalar rs -> ascii (sent_text rs) /\ reads (as_shown (sent_text rs)) (bytes_of rs).
Proof.
  intros rs F. unfold sent_text, bytes_of. induction F as [|r rs S1 _ (IA & IH)]; [split; constructor|]. cbn [flat_map]. destruct (char_ok r S1) as (CA & CR).
  split; [apply Forall_app; split; assumption|]. rewrite shown_ascii by exact CA. exact (reads_app _ _ _ _ CR IH).
Qed.

(** ** Pairs *)
Definition same_pair (kv kb : str * str) : Prop := same_text (fst kv) (fst kb) /\ same_text (snd kv) (snd kb).
Definition runes_of (kv : str * str) (kr : list N * list N) : Prop :=
  code_points (fst kv) = Some (fst kr) /\ code_points (snd kv) = Some (snd kr) /\ Forall scalar (fst kr) /\ Forall scalar (snd kr).
Definition coded_text (rs : list N) : str := flat_map (fun r => if left_alone r then [r] else flat_map percent (encode_rune r)) rs.
Definition coded_pair (kr : list N * list N) : str := coded_text (fst kr) ++ 61 :: coded_text (snd kr).
Definition sent_pair (kr : list N * list N) : str := sent_text (fst kr) ++ 61 :: sent_text (snd kr).
Definition seen_pair (kr : list N * list N) : str := as_shown (sent_text (fst kr)) ++ 61 :: as_shown (sent_text (snd kr)).
Lemma pairs_ok : forall o krs, Forall2 runes_of o krs -> pairs_of o = Some (map coded_pair krs).
Proof.
  intros o krs F. induction F as [|[k v] [a b] o krs (A & B & _) _ IH]; [reflexivity|]. cbn [fst snd] in *. cbn [pairs_of]. unfold encodeURIComponent.
  rewrite A, B. cbn [bind]. rewrite IH. reflexivity.
Qed.
Definition runes_ok (kr : list N * list N) : Prop := Forall scalar (fst kr) /\ Forall scalar (snd kr).
Lemma join_more : forall p q r, join_amp (p :: q :: r) = p ++ 38 :: join_amp (q :: r).
Proof. reflexivity. Qed.
Lemma plus_pair : forall kr s, runes_ok kr -> plus_for_20 (coded_pair kr ++ s) = sent_pair kr ++ plus_for_20 s.
Proof.
  intros [a b] s (A & B). unfold coded_pair, sent_pair. cbn [fst snd] in *. rewrite <- !app_assoc. cbn [app]. unfold coded_text.
  rewrite plus_text by exact A. rewrite plus_other by lia. rewrite plus_text by exact B. reflexivity.
Qed.
Lemma plus_join : forall krs, Forall runes_ok krs -> plus_for_20 (join_amp (map coded_pair krs)) = join_amp (map sent_pair krs).
Proof.
  intros krs F. induction F as [|kr krs A F IH]; [reflexivity|]. destruct krs as [|k2 krs].
  - cbn [map join_amp]. rewrite <- (app_nil_r (coded_pair kr)), plus_pair by exact A. apply app_nil_r.
  - cbn [map] in *. rewrite !join_more. rewrite plus_pair by exact A. rewrite plus_other by lia. rewrite IH. reflexivity.
Qed.
Lemma pair_ascii : forall kr, runes_ok kr -> ascii (sent_pair kr).
Proof.
  intros [a b] (A & B). apply Forall_app. split; [apply text_ok, A|]. constructor; [lia|]. apply text_ok, B.
Qed.
Lemma join_ascii : forall krs, Forall runes_ok krs -> ascii (join_amp (map sent_pair krs)).
Proof.
  intros krs F. induction F as [|kr krs A F IH]; [constructor|]. destruct krs as [|k2 krs]; [apply pair_ascii, A|].
  cbn [map] in *. rewrite join_more. apply Forall_app. split; [apply pair_ascii, A|]. constructor; [lia|exact IH].
Qed.
Lemma shown_mark : forall c s, c = 38 \/ c = 61 -> as_shown (c :: s) = c :: as_shown s.
Proof. intros c s H. apply (as_shown_stays [c] s). constructor; [|constructor]. split; [lia|cbn [In]; lia]. Qed.
Lemma shown_pair : forall kr, runes_ok kr -> as_shown (sent_pair kr) = seen_pair kr.
Proof.
  intros [a b] (A & B). unfold sent_pair, seen_pair. cbn [fst snd] in *. rewrite shown_ascii by (apply text_ok, A). rewrite shown_mark by auto. reflexivity.
Qed.
Lemma shown_join : forall krs, Forall runes_ok krs -> as_shown (join_amp (map sent_pair krs)) = join_amp (map seen_pair krs).
Proof.
  intros krs F. induction F as [|kr krs A F IH]; [reflexivity|]. destruct krs as [|k2 krs]; [apply shown_pair, A|].
  cbn [map] in *. rewrite !join_more. rewrite shown_ascii by (apply pair_ascii, A). rewrite shown_mark by auto. rewrite shown_pair by exact A. rewrite IH. reflexivity.
Qed.
Lemma not_in_of : forall (P : N -> Prop) s x, Forall P s -> ~ P x -> ~ In x s.
Proof. intros P s x F N1 I. rewrite Forall_forall in F. exact (N1 (F x I)). Qed.
Definition bytes_pair (kr : list N * list N) : str * str := (bytes_of (fst kr), bytes_of (snd kr)).
Lemma parse_join : forall krs fuel, Forall runes_ok krs -> (length (join_amp (map seen_pair krs)) < fuel)%nat ->
  parse_query fuel (join_amp (map seen_pair krs)) = map bytes_pair krs.
Proof.
  induction krs as [|kr krs IH]; intros fuel F L; [destruct fuel; reflexivity|]. destruct fuel as [|fuel]; [lia|].
  destruct (Forall_inv F) as (A & B). destruct (text_ok _ A) as (_ & RA). destruct (text_ok _ B) as (_ & RB).
  destruct (reads_ok _ _ RA) as (UA & FA). destruct (reads_ok _ _ RB) as (UB & FB).
  assert (N38 : ~ In 38 (seen_pair kr)).
  { unfold seen_pair. intros I. apply in_app_or in I. destruct I as [I|[I|I]]; [|discriminate|]; revert I; eapply not_in_of; try eassumption; cbv beta; lia. }
  assert (N59 : ~ In 59 (seen_pair kr)).
  { unfold seen_pair. intros I. apply in_app_or in I. destruct I as [I|[I|I]]; [|discriminate|]; revert I; eapply not_in_of; try eassumption; cbv beta; lia. }
  assert (C61 : cut (seen_pair kr) 61 = (as_shown (sent_text (fst kr)), as_shown (sent_text (snd kr)))).
  { unfold seen_pair. apply cut_app. eapply not_in_of; [exact FA|]. cbv beta. lia. }
  assert (X59 : existsb (N.eqb 59) (seen_pair kr) = false).
  { apply Bool.not_true_is_false. intros X. apply existsb_exists in X. destruct X as (y & I & E). apply N.eqb_eq in E. subst y. contradiction. }
  assert (NE : exists c r, seen_pair kr = c :: r) by (unfold seen_pair; destruct (as_shown (sent_text (fst kr))); cbn [app]; eauto).
  destruct NE as (c & r & EC).
  set (rest := match krs with [] => [] | _ => join_amp (map seen_pair krs) end).
  assert (CUT : cut (join_amp (map seen_pair (kr :: krs))) 38 = (seen_pair kr, rest)).
  { unfold rest. destruct krs as [|k2 krs]; [apply cut_none, N38|]. cbn [map]. rewrite join_more. apply cut_app, N38. }
  assert (ER : rest = join_amp (map seen_pair krs)) by (unfold rest; destruct krs; reflexivity).
  assert (LR : (length rest < fuel)%nat).
  { unfold rest. destruct krs as [|k2 krs]; [cbn [map join_amp] in L; rewrite EC in L; cbn [length] in *; lia|].
    cbn [map] in L |- *. rewrite join_more, app_length in L. cbn [length] in L. lia. }
  assert (NJ : exists x y, join_amp (map seen_pair (kr :: krs)) = x :: y).
  { destruct krs as [|k2 krs]; cbn [map]; [cbn [join_amp]; eauto|]. rewrite join_more, EC. cbn [app]. eauto. }
  destruct NJ as (x & y & EJ). cbn [parse_query]. rewrite CUT. rewrite EJ. rewrite X59. rewrite EC, <- EC, C61, UA, UB.
  rewrite ER in LR |- *. rewrite (IH fuel (Forall_inv_tail F) LR). destruct (seen_pair kr); [discriminate|reflexivity].
Qed.

(** ** The request *)
Lemma location_ok : forall s, ascii s -> s <> [] -> location_search (search_api ++ 63 :: s) = 63 :: as_shown s.
Proof.
  intros s F NE. unfold location_search.
  assert (FU : Forall (fun c => 32 < c <= 126 /\ c <> 35) (search_api ++ 63 :: s)).
  { apply Forall_app. split; [repeat (constructor; [lia|]); constructor|]. constructor; [lia|]. eapply Forall_impl; [|exact F]. cbv beta. tauto. }
  assert (SB : strip_both (search_api ++ 63 :: s) = search_api ++ 63 :: s).
  { destruct (exists_last NE) as (s' & d & ES). apply (strip_both_ok 97 (tl (search_api ++ 63 :: s)) d (search_api ++ 63 :: s')).
    - rewrite ES. cbn [search_api app tl]. reflexivity.
    - lia.
    - rewrite ES in F. apply Forall_app in F. destruct F as (_ & F). pose proof (Forall_inv F) as X. cbv beta in X. lia. }
  rewrite SB. rewrite no_newlines_ok by (eapply Forall_impl; [|exact FU]; cbv beta; cbn [In]; intros c C X; lia).
  rewrite upto_none by (eapply Forall_impl; [|exact FU]; cbv beta; tauto). rewrite after_ok by (repeat (constructor; [lia|]); constructor).
  unfold as_shown, escaped_char. destruct s; [congruence|reflexivity].
Qed.
Lemma seen_ok : forall o krs, Forall2 runes_of o krs -> exists raw, sent_query o = Some raw /\ parse_query (S (length raw)) raw = map bytes_pair krs.
Proof.
  intros o krs F. assert (OK : Forall runes_ok krs).
  { clear -F. induction F as [|kv kr o krs (_ & _ & A & B) _ IH]; constructor; [split; assumption|exact IH]. }
  exists (join_amp (map seen_pair krs)). split; [|apply parse_join; [exact OK|apply Nat.lt_succ_diag_r]].
  unfold sent_query, request_url, toQueryString. rewrite (pairs_ok _ _ F). cbn [bind]. rewrite (plus_join _ OK).
  destruct krs as [|kr krs]; [reflexivity|].
  assert (NE : join_amp (map sent_pair (kr :: krs)) <> []).
  { unfold sent_pair. destruct krs; cbn [map]; [cbn [join_amp]|rewrite join_more]; destruct (sent_text (fst kr)); discriminate. }
  pose proof (location_ok _ (join_ascii _ OK) NE) as LO. rewrite (shown_join _ OK) in LO.
  destruct (join_amp (map sent_pair (kr :: krs))); [congruence|]. rewrite LO. reflexivity.
Qed.
Theorem arrives : forall o bs, Forall2 same_pair o bs -> exists raw, sent_query o = Some raw /\ parse_query (S (length raw)) raw = bs.
Proof.
  intros o bs F. assert (X : exists krs, Forall2 runes_of o krs /\ bs = map bytes_pair krs).
  { induction F as [|[k v] [kb vb] o bs (A & B) _ (krs & FK & ->)]; [exists []; split; [constructor|reflexivity]|]. cbn [fst snd] in *.
    destruct (same_points _ _ A) as (ka & EA & -> & SA). destruct (same_points _ _ B) as (va & EB & -> & SB).
    exists ((ka, va) :: krs). split; [constructor; [repeat split; assumption|exact FK]|reflexivity]. }
  destruct X as (krs & FK & ->). exact (seen_ok o krs FK).
Qed.
Lemma form_value_get : forall bs k, Request.form_value bs k = match get_param bs k with Some v => v | None => [] end.
Proof.
  induction bs as [|[k' v] bs IH]; intros k; [reflexivity|]. cbn [Request.form_value get_param]. rewrite IH.
  destruct (str_eqb k k') eqn:A, (str_eqb k' k) eqn:B; try reflexivity.
  - apply str_eqb_eq in A. subst k'. rewrite str_eqb_refl in B. discriminate.
  - apply str_eqb_eq in B. subst k'. rewrite str_eqb_refl in A. discriminate.
Qed.
Lemma get_same : forall o bs k kb, Forall2 same_pair o bs -> same_text k kb ->
  match get_param o k, get_param bs kb with Some v, Some vb => same_text v vb | None, None => True | _, _ => False end.
Proof.
  intros o bs k kb F T. induction F as [|[k1 v1] [kb1 vb1] o bs (A & B) _ IH]; [exact I|]. cbn [fst snd] in *. cbn [get_param].
  destruct (str_eqb k1 k) eqn:E.
  - apply str_eqb_eq in E. subst k1. rewrite (same_fun _ _ _ A T). rewrite str_eqb_refl. exact B.
  - destruct (str_eqb kb1 kb) eqn:E'; [|exact IH]. apply str_eqb_eq in E'. subst kb1. rewrite (same_inj _ _ _ A T), str_eqb_refl in E. discriminate.
Qed.
Definition pair_formed (kv : str * str) : Prop := well_formed (fst kv) /\ well_formed (snd kv).
Lemma pairs_same : forall o, Forall pair_formed o -> exists bs, Forall2 same_pair o bs.
Proof.
  intros o F. induction F as [|[k v] o (A & B) _ (bs & FB)]; [exists []; constructor|]. destruct (formed_same _ A) as (kb & TA). destruct (formed_same _ B) as (vb & TB).
  exists ((kb, vb) :: bs). constructor; [split; assumption|exact FB].
Qed.
Theorem seen_values : forall o, Forall pair_formed o -> exists form, seen_by_server o = Some form /\
  forall k kb, same_text k kb -> match get_param o k with Some v => same_text v (form kb) | None => form kb = [] end.
Proof.
  intros o F. destruct (pairs_same o F) as (bs & FB). destruct (arrives o bs FB) as (raw & E & P). unfold seen_by_server. rewrite E. cbn [bind].
  exists (Request.form_value (parse_query (S (length raw)) raw)). split; [reflexivity|]. intros k kb T. rewrite P, form_value_get.
  pose proof (get_same o bs k kb FB T) as G. destruct (get_param o k), (get_param bs kb); auto; contradiction.
Qed.

(** ** Trimming *)
Lemma white_blank : forall c, FormSpec.white c <-> blank c = true.
Proof.
  intros c. unfold FormSpec.white, blank. rewrite !Bool.orb_true_iff, !Bool.andb_true_iff, !N.leb_le, !N.eqb_eq. cbn [In]. lia.
Qed.
Lemma not_white : forall c, ~ FormSpec.white c -> blank c = false.
Proof. intros c N1. apply Bool.not_true_is_false. rewrite <- white_blank. exact N1. Qed.
Lemma left_white : forall a s, Forall FormSpec.white a -> trim_left (a ++ s) = trim_left s.
Proof. intros a s F. induction F as [|c a W _ IH]; [reflexivity|]. cbn [app trim_left]. rewrite (proj1 (white_blank c) W). exact IH. Qed.
Lemma left_text : forall c s, ~ FormSpec.white c -> trim_left (c :: s) = c :: s.
Proof. intros c s N1. cbn [trim_left]. rewrite (not_white c N1). reflexivity. Qed.
Lemma trim_within : forall s t, within s t -> trim s = t.
Proof.
  intros s t (a & b & -> & WA & WB & HD & TL). unfold trim. rewrite (left_white a _ WA). destruct t as [|c r].
  - cbn [app]. rewrite <- (app_nil_r b), (left_white b [] WB). reflexivity.
  - cbn [app]. rewrite left_text by exact (HD c r eq_refl). change (c :: r ++ b) with ((c :: r) ++ b). rewrite rev_app_distr.
    rewrite left_white by (apply Forall_rev; exact WB). destruct (exists_last (l := c :: r) ltac:(discriminate)) as (r' & d & E). rewrite E, rev_app_distr. cbn [rev app].
    rewrite left_text by exact (TL d r' E). cbn [rev]. rewrite rev_involutive. reflexivity.
Qed.
Lemma left_split : forall s, exists a, s = a ++ trim_left s /\ Forall FormSpec.white a /\ forall c r, trim_left s = c :: r -> ~ FormSpec.white c.
Proof.
  induction s as [|c s (a & E & W & H)]; [exists []; repeat split; [constructor|discriminate]|]. cbn [trim_left]. destruct (blank c) eqn:B.
  - exists (c :: a). cbn [app]. rewrite <- E. split; [reflexivity|]. split; [constructor; [apply white_blank, B|exact W]|exact H].
  - exists []. split; [reflexivity|]. split; [constructor|]. intros c' r X. assert (c = c') by congruence. subst c'. rewrite white_blank. congruence.
Qed.
Lemma trim_ok : forall s, within s (trim s).
Proof.
  intros s. destruct (left_split s) as (a & E & WA & HD). destruct (left_split (rev (trim_left s))) as (b & E2 & WB & TL).
  assert (E3 : trim_left s = trim s ++ rev b).
  { apply (f_equal (@rev N)) in E2. rewrite rev_involutive, rev_app_distr in E2. exact E2. }
  exists a, (rev b). split; [rewrite <- E3; exact E|]. split; [exact WA|]. split; [apply Forall_rev, WB|]. split.
  - intros c r X. rewrite X in E3. exact (HD c _ E3).
  - intros c r X. apply (TL c (rev r)). unfold trim in X. apply (f_equal (@rev N)) in X. rewrite rev_involutive, rev_app_distr in X. exact X.
Qed.
Lemma white_unit : forall c, FormSpec.white c -> c < 0xD800 \/ 0xE000 <= c.
Proof. intros c W. unfold FormSpec.white in W. cbn [In] in W. lia. Qed.
Lemma formed_front : forall a s, Forall FormSpec.white a -> well_formed (a ++ s) -> well_formed s.
Proof.
  intros a s F. induction F as [|c a W _ IH]; intros WF; [exact WF|]. apply IH. apply white_unit in W. cbn [app] in WF.
  inversion WF as [|r u s' U WF' E]. destruct U as [r S1 L|r x y X Y ER]; cbn [app] in E.
  - assert (s' = a ++ s) by congruence. subst s'. exact WF'.
  - exfalso. assert (c = 0xD800 + x) by congruence. lia.
Qed.
Lemma formed_back : forall t b, Forall FormSpec.white b -> well_formed (t ++ b) -> well_formed t.
Proof.
  intros t b F W. remember (t ++ b) as s eqn:ES. revert t ES. induction W as [|r u s U W IH]; intros t ES.
  - destruct t; [constructor|discriminate].
  - destruct t as [|c t]; [constructor|]. destruct U as [r S1 L|r x y X Y ER]; cbn [app] in ES.
    + assert (c = r) by congruence. subst c. change (r :: t) with ([r] ++ t). apply wf_char with r; [apply utf16_1; assumption|]. apply IH. congruence.
    + destruct t as [|d t].
      * exfalso. cbn [app] in ES. destruct b as [|d b]; [discriminate|]. assert (d = 0xDC00 + y) by congruence. pose proof (white_unit d (Forall_inv F)). lia.
      * cbn [app] in ES. assert (E1 : c = 0xD800 + x /\ d = 0xDC00 + y /\ s = t ++ b) by (repeat split; congruence). destruct E1 as (-> & -> & E1).
        change (0xD800 + x :: 0xDC00 + y :: t) with ([0xD800 + x; 0xDC00 + y] ++ t). apply wf_char with r; [apply utf16_2; assumption|]. apply IH, E1.
Qed.
Lemma trim_formed : forall s, well_formed s -> well_formed (trim s).
Proof.
  intros s W. destruct (trim_ok s) as (a & b & E & WA & WB & _). rewrite E in W. exact (formed_back _ _ WB (formed_front _ _ WA W)).
Qed.

(** ** The search of the form *)
Lemma member_get : forall o k v, NoDup (map fst o) -> In (k, v) o -> get_param o k = Some v.
Proof.
  induction o as [|[k' v'] o IH]; intros k v ND I; [destruct I|]. cbn [map] in ND. apply NoDup_cons_iff in ND. destruct ND as (NI & ND). cbn [get_param].
  destruct I as [I|I].
  - replace k' with k by congruence. rewrite str_eqb_refl. congruence.
  - destruct (str_eqb k' k) eqn:E; [|exact (IH k v ND I)]. exfalso. apply str_eqb_eq in E. subst k'. apply NI. exact (in_map fst _ _ I).
Qed.
Lemma get_member : forall p k v, get_param p k = Some v -> In (k, v) p.
Proof.
  induction p as [|[k' v'] p IH]; intros k v E; [discriminate|]. cbn [get_param] in E. destruct (str_eqb k' k) eqn:S1; [|right; exact (IH _ _ E)].
  apply str_eqb_eq in S1. left. congruence.
Qed.
Lemma object_formed : forall p o, Forall pair_formed p -> object_of p o -> Forall pair_formed o.
Proof.
  intros p o F (ND & G). apply Forall_forall. intros [k v] I. apply (member_get o k v ND) in I. rewrite G in I. apply get_member in I. rewrite Forall_forall in F. exact (F _ I).
Qed.
Theorem object_seen : forall p o, Forall pair_formed p -> object_of p o -> exists form, seen_by_server o = Some form /\
  forall k kb, same_text k kb -> match get_param p k with Some v => same_text v (form kb) | None => form kb = [] end.
Proof.
  intros p o F O1. destruct (seen_values o (object_formed p o F O1)) as (form & E & V). exists form. split; [exact E|]. intros k kb T. rewrite <- (proj2 O1). exact (V k kb T).
Qed.
Lemma search_get : forall p k, get_param (search_params p) k =
  if str_eqb n_repos k then match get_param p n_repos with Some (c :: r) => Some (c :: r) | _ => Some star end
  else match get_param p k with
       | Some v => Some v
       | None => if str_eqb n_stats k then Some fosho else if str_eqb n_rng k then Some first_page else None
       end.
Proof.
  intros p k. assert (GA : forall a b k, get_param (a ++ b) k = match get_param a k with Some v => Some v | None => get_param b k end).
  { induction a as [|[x y] a IH]; intros b k0; [reflexivity|]. cbn [app get_param]. destruct (str_eqb x k0); [reflexivity|apply IH]. }
  unfold search_params, merge. rewrite !GA. cbn [get_param]. change (str_eqb n_stats n_repos) with false. change (str_eqb n_repos n_repos) with true. cbv iota.
  destruct (str_eqb n_repos k) eqn:E.
  - apply str_eqb_eq in E. subst k. destruct (get_param p n_repos) as [[|c r]|] eqn:G; cbn [app get_param star]; rewrite ?GA, ?G; cbn [get_param];
      change (str_eqb n_stats n_repos) with false; change (str_eqb n_repos n_repos) with true; reflexivity.
  - destruct (get_param p n_repos) as [[|c r]|] eqn:G; cbn [app get_param star]; rewrite ?E, ?GA; cbn [get_param]; rewrite E; reflexivity.
Qed.
Lemma names_ascii : forall s, forallb (fun c => c <? 128) s = true -> same_text s s.
Proof. intros s F. apply same_ascii. apply Forall_forall. intros c I. rewrite forallb_forall in F. apply N.ltb_lt, F, I. Qed.
Lemma box_ascii : forall b, same_text (box b) (box b).
Proof. intros []; apply names_ascii; reflexivity. Qed.
Lemma search_formed : forall p, Forall pair_formed p -> Forall pair_formed (search_params p).
Proof.
  intros p F. assert (A : forall a b, forallb (fun c => c <? 128) (a ++ b) = true -> pair_formed (a, b)).
  { intros a b H. rewrite forallb_app in H. apply Bool.andb_true_iff in H. destruct H as (HA & HB). split; eapply same_formed; apply names_ascii; assumption. }
  assert (M : Forall pair_formed (p ++ [(n_stats, fosho); (n_repos, star); (n_rng, first_page)])).
  { apply Forall_app. split; [exact F|]. repeat (constructor; [apply A; reflexivity|]). constructor. }
  unfold search_params, merge. cbv zeta. destruct (get_param _ n_repos) as [[|]|]; try exact M. constructor; [apply A; reflexivity|exact M].
Qed.
Lemma form_formed : forall f, well_formed (sf_q f) -> well_formed (sf_files f) -> well_formed (sf_exclude f) -> well_formed (sf_repos f) ->
  Forall pair_formed (getParams f).
Proof.
  intros f Q F X R. assert (A : forall a b, forallb (fun c => c <? 128) a = true -> well_formed b -> pair_formed (a, b)).
  { intros a b HA HB. split; [eapply same_formed; apply names_ascii, HA|exact HB]. }
  unfold getParams, form_params. cbn [sf_q sf_i sf_literal sf_files sf_exclude sf_repos].
  repeat (constructor; [apply A; [reflexivity|]; try apply trim_formed; try assumption; eapply same_formed, box_ascii|]). constructor.
Qed.
Theorem form_search : forall f o, well_formed (sf_q f) -> well_formed (sf_files f) -> well_formed (sf_exclude f) -> well_formed (sf_repos f) ->
  object_of (search_params (getParams f)) o ->
  exists form, seen_by_server o = Some form /\
  forall idx def, let q := read_search form idx def in
    (forall t b, within (sf_q f) t -> same_text t b -> q_query q = b) /\
    (forall t b, within (sf_files f) t -> same_text t b -> q_files q = b) /\
    (forall t b, within (sf_exclude f) t -> same_text t b -> q_exclude q = b) /\
    q_icase q = sf_i f /\ q_literal q = sf_literal f /\ q_stats q = true /\
    q_offset q = 0%Z /\ q_limit q = 20%Z /\ q_max q = def /\ q_ctx q = 2 /\
    (sf_repos f = [] -> forall name, In name (q_repos q) <-> In name (map fst idx)) /\
    (forall b w name, sf_repos f <> [] -> same_text (sf_repos f) b -> trimmed b w ->
       (In name (q_repos q) <-> In name (map fst idx) /\ (w = [42] \/ element w name))).
Proof.
  intros f o Q F X R O1. destruct (object_seen _ o (search_formed _ (form_formed f Q F X R)) O1) as (form & E & V). exists form. split; [exact E|].
  intros idx def q.
  assert (G : forall k, forallb (fun c => c <? 128) k = true -> match get_param (search_params (getParams f)) k with Some v => same_text v (form k) | None => form k = [] end)
    by (intros k H; apply V, names_ascii, H).
  assert (GQ : same_text (trim (sf_q f)) (form f_q)) by (pose proof (G f_q eq_refl) as H; rewrite search_get in H; exact H).
  assert (GF : same_text (trim (sf_files f)) (form f_files)) by (pose proof (G f_files eq_refl) as H; rewrite search_get in H; exact H).
  assert (GX : same_text (trim (sf_exclude f)) (form f_exclude)) by (pose proof (G f_exclude eq_refl) as H; rewrite search_get in H; exact H).
  assert (GI : same_text (box (sf_i f)) (form f_i)) by (pose proof (G f_i eq_refl) as H; rewrite search_get in H; exact H).
  assert (GL : same_text (box (sf_literal f)) (form f_literal)) by (pose proof (G f_literal eq_refl) as H; rewrite search_get in H; exact H).
  assert (GS : same_text fosho (form f_stats)) by (pose proof (G f_stats eq_refl) as H; rewrite search_get in H; exact H).
  assert (GR : same_text first_page (form f_rng)) by (pose proof (G f_rng eq_refl) as H; rewrite search_get in H; exact H).
  assert (GM : form f_limit = []) by (pose proof (G f_limit eq_refl) as H; rewrite search_get in H; exact H).
  assert (GC : form f_ctx = []) by (pose proof (G f_ctx eq_refl) as H; rewrite search_get in H; exact H).
  assert (GP : same_text (match sf_repos f with [] => star | _ => sf_repos f end) (form f_repos)).
  { pose proof (G f_repos eq_refl) as H. rewrite search_get in H. change (str_eqb n_repos f_repos) with true in H. cbv iota in H.
    change (get_param (getParams f) n_repos) with (Some (sf_repos f)) in H. cbv iota in H. destruct (sf_repos f); exact H. }
  pose proof (same_fun _ _ _ (box_ascii (sf_i f)) GI) as EI. pose proof (same_fun _ _ _ (box_ascii (sf_literal f)) GL) as EL.
  pose proof (same_fun _ _ _ (names_ascii fosho eq_refl) GS) as ES. pose proof (same_fun _ _ _ (names_ascii first_page eq_refl) GR) as ER.
  destruct (read_fields form idx def) as (A1 & A2 & A3 & _ & _ & _ & A4). cbv zeta in A4.
  unfold q in *. clear q.
  split; [intros t b W T; rewrite A1; rewrite <- (trim_within _ _ W) in T; exact (same_fun _ _ _ GQ T)|].
  split; [intros t b W T; rewrite A2; rewrite <- (trim_within _ _ W) in T; exact (same_fun _ _ _ GF T)|].
  split; [intros t b W T; rewrite A3; rewrite <- (trim_within _ _ W) in T; exact (same_fun _ _ _ GX T)|].
  assert (FL : q_icase (read_search form idx def) = sf_i f /\ q_literal (read_search form idx def) = sf_literal f /\ q_stats (read_search form idx def) = true /\
    q_offset (read_search form idx def) = 0%Z /\ q_limit (read_search form idx def) = 20%Z /\ q_max (read_search form idx def) = def /\ q_ctx (read_search form idx def) = 2).
  { unfold read_search. rewrite <- EL, <- ES, <- ER, GM, GC. change (parseRangeValue first_page) with (0%Z, 20%Z).
    cbn [q_icase q_literal q_stats q_offset q_limit q_max q_ctx]. split; [destruct (sf_i f); rewrite <- EI; reflexivity|]. split; [destruct (sf_literal f); reflexivity|].
    repeat split. }
  destruct FL as (F1 & F2 & F3 & F4 & F5 & F6 & F7). do 7 (split; [assumption|]). split.
  - intros NR name. rewrite NR in GP. pose proof (same_fun _ _ _ (names_ascii star eq_refl) GP) as EP.
    assert (T : trimmed (form (text "repos")) [42]).
    { change (text "repos") with f_repos. rewrite <- EP. split; [exists [], []; split; [reflexivity|]; split; exists []; split; constructor|].
      intros r x I. unfold space_runes in I. cbn [In] in I. repeat (destruct I as [<-|I]; [split; [discriminate|destruct x as [|x0 [|x1 x]]; discriminate]|]). destruct I. }
    rewrite (A4 _ name T). tauto.
  - intros b w name NR TB T. apply A4. change (text "repos") with f_repos. destruct (sf_repos f) as [|c r]; [congruence|]. rewrite (same_fun _ _ _ GP TB). exact T.
Qed.
