(** Members with the texts of their values. *)
From Verif Require Import Model.Base Model.Utf8 Model.GoFmt Model.JsonText Model.Json Model.Config Model.ConfigFile
  Spec.Names Spec.ApiSpec Spec.Utf8Spec Spec.JsonSpec Spec.JsonValueSpec Spec.JsonGrammar Spec.FileSpec
  Proofs.StrLemmas Proofs.Utf8Proofs Proofs.JsonProofs Proofs.JsonValueProofs Proofs.GrammarProofs Proofs.GrammarSound.
Local Open Scope N_scope.

(** A literal is read the same whatever follows it. *)
Lemma hex4_before : forall t rest v r, hex4 (t ++ 34 :: rest) = Some (v, r) ->
  exists t', r = t' ++ 34 :: rest /\ (length t' <= length t)%nat /\ forall rest', hex4 (t ++ 34 :: rest') = Some (v, t' ++ 34 :: rest').
Proof.
  intros t rest v r E. destruct t as [|a [|b [|c [|d t]]]]; cbn [app hex4] in E.
  - destruct rest as [|? [|? [|? ?]]]; discriminate.
  - destruct rest as [|? [|? ?]]; try discriminate. destruct (hexval a); discriminate.
  - destruct rest as [|? ?]; try discriminate. destruct (hexval a), (hexval b); discriminate.
  - destruct (hexval a), (hexval b), (hexval c); discriminate.
  - exists t. cbn [length app hex4]. destruct (hexval a), (hexval b), (hexval c), (hexval d); try discriminate.
    split; [congruence|]. split; [lia|]. intros rest'. congruence.
Qed.
Lemma hex4_none : forall t rest rest', hex4 (t ++ 34 :: rest) = None -> hex4 (t ++ 34 :: rest') = None.
Proof.
  intros t rest rest' E. destruct (hex4 (t ++ 34 :: rest')) as [[v r]|] eqn:E'; [|reflexivity].
  destruct (hex4_before _ _ _ _ E') as (t' & _ & _ & H). rewrite H in E. discriminate.
Qed.
Lemma lead_low : forall p sz lo hi, lead_info p = Some (sz, lo, hi) -> 0x80 <= lo /\ (2 <= sz <= 4)%nat.
Proof.
  intros p sz lo hi. unfold lead_info. repeat match goal with |- context [if ?c then _ else _] => destruct c end;
    intros E; try discriminate; injection E as <- <- <-; split; lia.
Qed.
Lemma decode_before : forall t rest, t <> [] -> exists r n, decode_rune (t ++ 34 :: rest) = (r, n) /\ (1 <= n <= length t)%nat /\
  forall rest', decode_rune (t ++ 34 :: rest') = (r, n).
Proof.
  intros t rest NE. destruct t as [|p0 t]; [congruence|]. cbn [app length decode_rune].
  destruct (p0 <? 0x80); [eexists _, _; split; [reflexivity|]; split; [lia|reflexivity]|].
  destruct (lead_info p0) as [[[sz lo] hi]|] eqn:LI; [|eexists _, _; split; [reflexivity|]; split; [lia|reflexivity]].
  destruct (lead_low _ _ _ _ LI) as [LO SZ].
  assert (Q : forall lo, 0x80 <= lo -> (34 <? lo) = true) by (intros; apply N.ltb_lt; lia).
  assert (QC : is_cont 34 = false) by reflexivity.
  destruct t as [|b1 [|b2 [|b3 t]]]; cbn [app length].
  - exists rune_error, 1%nat. rewrite (Q lo LO). cbn [orb]. split; [destruct (Nat.ltb _ _); reflexivity|]. split; [lia|].
    intros rest'. destruct (Nat.ltb _ _); reflexivity.
  - destruct (Nat.eq_dec sz 2) as [->|N2].
    + exists (fst (if (b1 <? lo) || (hi <? b1) then (rune_error, 1%nat) else (p0 mod 2 ^ 5 * 2 ^ 6 + b1 mod 2 ^ 6, 2%nat))),
        (snd (if (b1 <? lo) || (hi <? b1) then (rune_error, 1%nat) else (p0 mod 2 ^ 5 * 2 ^ 6 + b1 mod 2 ^ 6, 2%nat))).
      change (Nat.leb 2 2) with true. cbv iota.
      split; [destruct ((b1 <? lo) || (hi <? b1)); reflexivity|]. split; [destruct ((b1 <? lo) || (hi <? b1)); cbn [snd]; lia|].
      intros rest'. destruct ((b1 <? lo) || (hi <? b1)); reflexivity.
    + exists rune_error, 1%nat. rewrite (proj2 (Nat.leb_gt sz 2)) by lia. rewrite QC. cbn [negb].
      split; [destruct (Nat.ltb _ _), ((b1 <? lo) || (hi <? b1)); reflexivity|]. split; [lia|].
      intros rest'. destruct (Nat.ltb _ _), ((b1 <? lo) || (hi <? b1)); reflexivity.
  - destruct (Nat.leb_spec sz 2) as [L2|L2].
    + exists (fst (if (b1 <? lo) || (hi <? b1) then (rune_error, 1%nat) else (p0 mod 2 ^ 5 * 2 ^ 6 + b1 mod 2 ^ 6, 2%nat))),
        (snd (if (b1 <? lo) || (hi <? b1) then (rune_error, 1%nat) else (p0 mod 2 ^ 5 * 2 ^ 6 + b1 mod 2 ^ 6, 2%nat))).
      rewrite (proj2 (Nat.ltb_ge _ sz)) by lia.
      split; [destruct ((b1 <? lo) || (hi <? b1)); reflexivity|]. split; [destruct ((b1 <? lo) || (hi <? b1)); cbn [snd]; lia|].
      intros rest'. rewrite (proj2 (Nat.ltb_ge _ sz)) by lia. destruct ((b1 <? lo) || (hi <? b1)); reflexivity.
    + destruct (Nat.leb_spec sz 3) as [L3|L3].
      * set (x := if (b1 <? lo) || (hi <? b1) then (rune_error, 1%nat) else if negb (is_cont b2) then (rune_error, 1%nat) else
                   (p0 mod 2 ^ 4 * 2 ^ 12 + b1 mod 2 ^ 6 * 2 ^ 6 + b2 mod 2 ^ 6, 3%nat)).
        exists (fst x), (snd x). rewrite (proj2 (Nat.ltb_ge _ sz)) by lia.
        split; [unfold x; destruct ((b1 <? lo) || (hi <? b1)); [reflexivity|]; destruct (negb (is_cont b2)); reflexivity|].
        split; [unfold x; destruct ((b1 <? lo) || (hi <? b1)); [cbn [snd]; lia|]; destruct (negb (is_cont b2)); cbn [snd]; lia|].
        intros rest'. rewrite (proj2 (Nat.ltb_ge _ sz)) by lia. unfold x. destruct ((b1 <? lo) || (hi <? b1)); [reflexivity|]; destruct (negb (is_cont b2)); reflexivity.
      * exists rune_error, 1%nat. rewrite QC. cbn [negb].
        split; [destruct (Nat.ltb _ _); [reflexivity|]; destruct ((b1 <? lo) || (hi <? b1)), (negb (is_cont b2)); reflexivity|]. split; [lia|].
        intros rest'. destruct (Nat.ltb _ _); [reflexivity|]; destruct ((b1 <? lo) || (hi <? b1)), (negb (is_cont b2)); reflexivity.
  - set (x := if (b1 <? lo) || (hi <? b1) then (rune_error, 1%nat) else
              if Nat.leb sz 2 then (p0 mod 2 ^ 5 * 2 ^ 6 + b1 mod 2 ^ 6, 2%nat) else
              if negb (is_cont b2) then (rune_error, 1%nat) else
              if Nat.leb sz 3 then (p0 mod 2 ^ 4 * 2 ^ 12 + b1 mod 2 ^ 6 * 2 ^ 6 + b2 mod 2 ^ 6, 3%nat) else
              if negb (is_cont b3) then (rune_error, 1%nat) else
              (p0 mod 2 ^ 3 * 2 ^ 18 + b1 mod 2 ^ 6 * 2 ^ 12 + b2 mod 2 ^ 6 * 2 ^ 6 + b3 mod 2 ^ 6, 4%nat)).
    exists (fst x), (snd x). split; [|split].
    + rewrite (proj2 (Nat.ltb_ge _ sz)) by lia. fold x. destruct x; reflexivity.
    + unfold x. repeat match goal with |- context [if ?c then _ else _] => destruct c end; cbn [snd]; lia.
    + intros rest'. rewrite (proj2 (Nat.ltb_ge _ sz)) by lia. fold x. destruct x; reflexivity.
Qed.

Lemma match_second : forall {A} (s : str) (f : str -> A) (y : A),
  (exists r, s = 92 :: 117 :: r /\ (match s with 92 :: 117 :: r3 => f r3 | _ => y end) = f r) \/
  ((forall r, s <> 92 :: 117 :: r) /\ (match s with 92 :: 117 :: r3 => f r3 | _ => y end) = y).
Proof.
  intros A s f y. destruct s as [|a s]; [right; split; [discriminate|reflexivity]|]. destruct (N.eq_dec a 92) as [->|NA].
  - destruct s as [|b s]; [right; split; [discriminate|reflexivity]|]. destruct (N.eq_dec b 117) as [->|NB].
    + left. exists s. split; reflexivity.
    + right. split; [congruence|]. destruct b as [|p]; [reflexivity|]. repeat (destruct p as [p|p|]; try reflexivity). congruence.
  - right. split; [congruence|]. destruct a as [|p]; [reflexivity|]. repeat (destruct p as [p|p|]; try reflexivity). congruence.
Qed.

Lemma read_before : forall fuel s pre out rest, read_text fuel s pre = Some (out, rest) ->
  exists t, s = t ++ 34 :: rest /\ forall fuel' rest', (length t < fuel')%nat -> read_text fuel' (t ++ 34 :: rest') pre = Some (out, rest').
Proof.
  induction fuel as [|fuel IH]; intros s pre out rest E; [destruct s; discriminate|].
  destruct s as [|c r]; [discriminate|]. cbn [read_text] in E.
  destruct (N.eqb_spec c 34) as [->|N1].
  { exists []. assert (r = rest /\ pre = out) as [-> ->] by (split; congruence). split; [reflexivity|].
    intros fuel' rest' L. destruct fuel'; [lia|]. reflexivity. }
  destruct (N.eqb_spec c 92) as [->|N2].
  - destruct r as [|e r']; [discriminate|]. destruct (N.eqb_spec e 117) as [->|N3].
    + destruct (hex4 r') as [[rr r2]|] eqn:H4; [|discriminate]. destruct (hex4_inv _ _ _ H4) as (h & -> & FH).
      pose proof (four_hex_len _ _ FH) as LH.
      assert (STEP : forall t', r2 = t' ++ 34 :: rest -> (is_surrogate rr = false ->
        forall fuel' rest', (length t' < fuel')%nat -> read_text fuel' (t' ++ 34 :: rest') (pre ++ encode_rune rr) = Some (out, rest')) ->
        (is_surrogate rr = true -> forall fuel' rest', (length t' < fuel')%nat ->
           match t' ++ 34 :: rest' with
           | 92 :: 117 :: r3 =>
               match hex4 r3 with
               | Some (rr1, r4) =>
                   if decode_pair rr rr1 =? rune_error
                   then read_text fuel' (t' ++ 34 :: rest') (pre ++ encode_rune rune_error)
                   else read_text fuel' r4 (pre ++ encode_rune (decode_pair rr rr1))
               | None => read_text fuel' (t' ++ 34 :: rest') (pre ++ encode_rune rune_error)
               end
           | _ => read_text fuel' (t' ++ 34 :: rest') (pre ++ encode_rune rune_error)
           end = Some (out, rest')) ->
        exists t, 92 :: 117 :: h ++ r2 = t ++ 34 :: rest /\ forall fuel' rest', (length t < fuel')%nat ->
          read_text fuel' (t ++ 34 :: rest') pre = Some (out, rest')).
      { intros t' -> P1 P2. exists (92 :: 117 :: h ++ t'). split; [cbn [app]; rewrite <- app_assoc; reflexivity|].
        intros fuel' rest' L. cbn [length] in L. rewrite app_length in L. destruct fuel' as [|fuel']; [lia|]. cbn [app read_text].
        change (92 =? 34) with false. change (92 =? 92) with true. change (117 =? 117) with true. cbv iota.
        rewrite <- app_assoc, (hex4_ok _ _ _ FH). destruct (is_surrogate rr); [apply P2; [reflexivity|lia]|apply P1; [reflexivity|lia]]. }
      destruct (is_surrogate rr) eqn:SU.
      * destruct (match_second r2 (fun r3 => match hex4 r3 with
                        | Some (rr1, r4) =>
                            if decode_pair rr rr1 =? rune_error
                            then read_text fuel r2 (pre ++ encode_rune rune_error)
                            else read_text fuel r4 (pre ++ encode_rune (decode_pair rr rr1))
                        | None => read_text fuel r2 (pre ++ encode_rune rune_error)
                        end) (read_text fuel r2 (pre ++ encode_rune rune_error))) as [(r3 & E2 & M)|(NS & M)]; rewrite M in E; clear M.
        -- destruct (hex4 r3) as [[rr1 r4]|] eqn:H5; [destruct (decode_pair rr rr1 =? rune_error) eqn:DP|].
           ++ destruct (IH _ _ _ _ E) as (t' & ET & P). apply (STEP t' ET); [congruence|]. intros _ fuel' rest' L.
              rewrite ET in E2. destruct t' as [|a [|b t'']]; [discriminate|cbn in E2; congruence|]. cbn [app] in E2.
              assert (a = 92 /\ b = 117 /\ t'' ++ 34 :: rest = r3) as (-> & -> & <-) by (repeat split; congruence).
              destruct (hex4_before _ _ _ _ H5) as (t4 & _ & _ & HB). cbn [app]. rewrite HB, DP. exact (P fuel' rest' L).
           ++ destruct (IH _ _ _ _ E) as (t4 & E4 & P). subst r4. destruct (hex4_inv _ _ _ H5) as (h2 & E3 & FH2).
              apply (STEP (92 :: 117 :: h2 ++ t4)); [rewrite E2, E3; cbn [app]; rewrite <- app_assoc; reflexivity|congruence|].
              intros _ fuel' rest' L. cbn [app]. rewrite <- app_assoc, (hex4_ok _ _ _ FH2), DP. apply P. cbn [length] in L. rewrite app_length in L. lia.
           ++ destruct (IH _ _ _ _ E) as (t' & ET & P). apply (STEP t' ET); [congruence|]. intros _ fuel' rest' L.
              rewrite ET in E2. destruct t' as [|a [|b t'']]; [discriminate|cbn in E2; congruence|]. cbn [app] in E2.
              assert (a = 92 /\ b = 117 /\ t'' ++ 34 :: rest = r3) as (-> & -> & <-) by (repeat split; congruence).
              cbn [app]. rewrite (hex4_none _ _ _ H5). exact (P fuel' rest' L).
        -- destruct (IH _ _ _ _ E) as (t' & ET & P). apply (STEP t' ET); [congruence|]. intros _ fuel' rest' L.
           destruct (match_second (t' ++ 34 :: rest') (fun r3 => match hex4 r3 with
                        | Some (rr1, r4) =>
                            if decode_pair rr rr1 =? rune_error
                            then read_text fuel' (t' ++ 34 :: rest') (pre ++ encode_rune rune_error)
                            else read_text fuel' r4 (pre ++ encode_rune (decode_pair rr rr1))
                        | None => read_text fuel' (t' ++ 34 :: rest') (pre ++ encode_rune rune_error)
                        end) (read_text fuel' (t' ++ 34 :: rest') (pre ++ encode_rune rune_error))) as [(r3 & E3 & M)|(_ & M)]; rewrite M; clear M; [|exact (P fuel' rest' L)].
           destruct t' as [|a [|b t'']]; [discriminate|cbn in E3; congruence|]. cbn [app] in E3.
           destruct (NS (t'' ++ 34 :: rest)). rewrite ET. cbn [app]. congruence.
      * destruct (IH _ _ _ _ E) as (t' & ET & P). apply (STEP t' ET); [intros _; exact P|congruence].
    + assert (GO : forall x, read_text fuel r' (pre ++ [x]) = Some (out, rest) ->
        (forall f s, read_text (S f) (92 :: e :: s) pre = read_text f s (pre ++ [x])) ->
        exists t, 92 :: e :: r' = t ++ 34 :: rest /\ forall fuel' rest', (length t < fuel')%nat -> read_text fuel' (t ++ 34 :: rest') pre = Some (out, rest')).
      { intros x R ST. destruct (IH _ _ _ _ R) as (t' & -> & P). exists (92 :: e :: t'). split; [reflexivity|].
        intros fuel' rest' L. cbn [length] in L. destruct fuel' as [|fuel']; [lia|]. cbn [app]. rewrite ST. apply P. lia. }
      assert (U : forall f s, read_text (S f) (92 :: e :: s) pre =
        if (e =? 34) || (e =? 92) || (e =? 47) then read_text f s (pre ++ [e])
            else if e =? 98 then read_text f s (pre ++ [8])
            else if e =? 102 then read_text f s (pre ++ [12])
            else if e =? 110 then read_text f s (pre ++ [10])
            else if e =? 114 then read_text f s (pre ++ [13])
            else if e =? 116 then read_text f s (pre ++ [9])
            else None).
      { intros f s. cbn [read_text]. change (92 =? 34) with false. change (92 =? 92) with true. cbv iota. rewrite (proj2 (N.eqb_neq e 117) N3). reflexivity. }
      repeat match type of E with (if ?c then _ else _) = _ => destruct c; [eapply GO; [exact E|exact U]|] end. discriminate.
  - destruct (N.ltb_spec c 32) as [|L32]; [discriminate|]. destruct (N.ltb_spec c 0x80) as [L|L].
    + destruct (IH _ _ _ _ E) as (t' & -> & P). exists (c :: t'). split; [reflexivity|].
      intros fuel' rest' LF. cbn [length] in LF. destruct fuel' as [|fuel']; [lia|]. cbn [app read_text].
      rewrite (proj2 (N.eqb_neq c 34) N1), (proj2 (N.eqb_neq c 92) N2), (proj2 (N.ltb_ge c 32) L32), (proj2 (N.ltb_lt c 0x80) L). apply P. lia.
    + destruct (decode_rune (c :: r)) as [rr size] eqn:D. destruct (IH _ _ _ _ E) as (t' & ET & P).
      set (t := firstn size (c :: r) ++ t').
      assert (ES : c :: r = t ++ 34 :: rest) by (unfold t; rewrite <- app_assoc, <- ET; symmetry; apply firstn_skipn).
      assert (NT : t <> []) by (intros Z; rewrite Z in ES; cbn [app] in ES; congruence).
      destruct (decode_before t rest NT) as (x & n & D1 & LN & D2).
      assert (size = n /\ rr = x) as [-> ->] by (rewrite ES in D; split; congruence).
      assert (LS : (length (firstn n (c :: r)) = n)%nat).
      { rewrite firstn_length. apply Nat.min_l. apply (f_equal (@length N)) in ET. rewrite skipn_length, app_length in ET. cbn [length] in ET |- *. lia. }
      exists t. split; [exact ES|]. intros fuel' rest' LF. destruct fuel' as [|fuel']; [lia|].
      assert (HD : exists t2, t = c :: t2) by (destruct t as [|a t2]; [congruence|]; exists t2; cbn [app] in ES; congruence).
      destruct HD as (t2 & ET2). specialize (D2 rest').
      assert (SK : skipn n (t ++ 34 :: rest') = t' ++ 34 :: rest').
      { unfold t. rewrite <- app_assoc, skipn_app, LS, Nat.sub_diag, skipn_all2 by lia. reflexivity. }
      rewrite ET2 in D2, SK |- *. cbn [app] in D2, SK |- *. cbn [read_text].
      rewrite (proj2 (N.eqb_neq c 34) N1), (proj2 (N.eqb_neq c 92) N2), (proj2 (N.ltb_ge c 32) L32), (proj2 (N.ltb_ge c 0x80) L).
      rewrite D2, SK. apply P. unfold t in LF. rewrite app_length, LS in LF. lia.
Qed.

Lemma literal_before : forall s out rest, read_literal s = Some (out, rest) ->
  exists lit, s = lit ++ rest /\ forall rest', read_literal (lit ++ rest') = Some (out, rest').
Proof.
  intros s out rest E. destruct s as [|c r]; [discriminate|]. destruct (N.eq_dec c 34) as [->|NC].
  - cbn [read_literal] in E. destruct (read_before _ _ _ _ _ E) as (t & -> & P). exists (34 :: t ++ [34]).
    split; [cbn [app]; rewrite <- app_assoc; reflexivity|]. intros rest'. cbn [app read_literal]. rewrite <- app_assoc. cbn [app].
    apply P. rewrite app_length. cbn [length]. lia.
  - exfalso. unfold read_literal in E. destruct c as [|p]; [discriminate|]. repeat (destruct p as [p|p|]; try discriminate). congruence.
Qed.

(** Literals that are read, whatever follows. *)
Definition readable (s lit : str) : Prop := lax_string s lit /\ forall rest, read_literal (lit ++ rest) = Some (s, rest).
Lemma readable_read : forall s lit rest, readable s lit -> read_literal (lit ++ rest) = Some (s, rest).
Proof. intros s lit rest R. apply R. Qed.
Lemma readable_found : forall s out rest, Forall is_byte s -> read_literal s = Some (out, rest) -> exists lit, s = lit ++ rest /\ readable out lit.
Proof.
  intros s out rest B E. destruct (literal_before _ _ _ E) as (lit & ES & P). exists lit. split; [exact ES|].
  split; [|exact P]. destruct (literal_sound _ _ _ B E) as (lit' & ES' & L).
  assert (lit' = lit) as ->; [|exact L]. rewrite ES in ES'. apply app_inv_tail in ES'. congruence.
Qed.
Definition readable_texts := quoted_texts_read readable readable_read.
Definition readable_head := quoted_head readable readable_read.
Definition readable_sound := quoted_sound readable readable_found.

Lemma taken_front : forall s rest : str, taken (s ++ rest) rest = s.
Proof.
  intros s rest. unfold taken. rewrite app_length, Nat.add_sub, firstn_app, firstn_all, Nat.sub_diag, firstn_O. apply app_nil_r.
Qed.

(** Objects and their members. *)
Definition erase (l : list memb) : list (str * jv) := map (fun p => (fst p, fst (snd p))) l.
Definition well (quoted : str -> str -> Prop) (p : memb) : Prop := text_of quoted (fst (snd p)) (snd (snd p)).
Section Spans.
Variable quoted : str -> str -> Prop.
Hypothesis READ : forall s lit rest, quoted s lit -> read_literal (lit ++ rest) = Some (s, rest).

Lemma spelled_members : forall l t, spelled quoted l t -> members_of quoted (erase l) t.
Proof. intros l t M. induction M; [apply jm_last; assumption|apply jm_more; assumption]. Qed.
Lemma members_spelled : forall l t, members_of quoted l t -> exists m, spelled quoted m t /\ erase m = l.
Proof.
  intros l t M. induction M as [k lit v s w w2 w3 w4 Q V B B2 B3 B4|k lit v s w w2 w3 w4 l t Q V B B2 B3 B4 M (m & SP & E)].
  - exists [(k, (v, s))]. split; [apply sp_last; assumption|reflexivity].
  - exists ((k, (v, s)) :: m). split; [apply sp_more; assumption|]. unfold erase in *. cbn [map fst snd]. congruence.
Qed.
Lemma spelled_well : forall l t, spelled quoted l t -> Forall (well quoted) l.
Proof. intros l t M. induction M; constructor; try constructor; assumption. Qed.
Lemma object_value : forall l t, object_text quoted l t -> text_of quoted (VObj (erase l)) t.
Proof. intros l t [(-> & w & B & ->)|(m & SP & ->)]; [apply jt_obj0; exact B|apply jt_obj, spelled_members, SP]. Qed.
Lemma value_object : forall o t, text_of quoted (VObj o) t -> exists l, object_text quoted l t /\ erase l = o.
Proof.
  intros o t T. inversion T as [| | | | | | |w B E1 E2|l m M E1 E2]; subst.
  - exists []. split; [left; split; [reflexivity|exists w; auto]|reflexivity].
  - destruct (members_spelled _ _ M) as (l & SP & E). exists l. split; [right; exists m; auto|exact E].
Qed.
Lemma object_well : forall l t, object_text quoted l t -> Forall (well quoted) l.
Proof. intros l t [(-> & _)|(m & SP & _)]; [constructor|exact (spelled_well _ _ SP)]. Qed.

Lemma text_parsed : forall v s fuel rest, text_of quoted v s -> (length s <= fuel)%nat -> stop rest -> parse fuel (s ++ rest) = Some (v, rest).
Proof.
  intros v s fuel rest T L ST. apply (proj1 (quoted_texts_read quoted READ) v s T []); [constructor|cbn [length]; lia|intros _ _; exact ST].
Qed.
Lemma text_start : forall v s rest w, text_of quoted v s -> blank w -> skip_space (w ++ s ++ rest) = s ++ rest.
Proof.
  intros v s rest w T B. rewrite blank_skip by exact B. destruct (quoted_head quoted READ _ _ T) as (c & r & -> & SP & _). apply skip_at. exact SP.
Qed.
Lemma literal_start : forall k lit rest w, quoted k lit -> blank w -> skip_space (w ++ lit ++ rest) = lit ++ rest.
Proof.
  intros k lit rest w Q B. rewrite blank_skip by exact B. destruct (literal_head quoted READ _ _ Q) as (r & ->). apply skip_at. reflexivity.
Qed.
Lemma spelled_spans : forall l t, spelled quoted l t -> forall fuel rest, (length t < fuel)%nat ->
  spans_members fuel (t ++ 125 :: rest) = Some (l, rest).
Proof.
  intros l t M. induction M as [k lit v s w w2 w3 w4 Q V B B2 B3 B4|k lit v s w w2 w3 w4 l t Q V B B2 B3 B4 M IH]; intros fuel rest L;
    (destruct fuel as [|fuel]; [lia|]); rewrite !app_length in L; cbn [spans_members]; rewrite <- !app_assoc;
    rewrite (literal_start _ _ _ _ Q B), (READ _ _ _ Q); cbn [bind]; rewrite (blank_skip _ _ B2).
  - change (text ":" ++ w3 ++ s ++ w4 ++ 125 :: rest) with (58 :: w3 ++ s ++ w4 ++ 125 :: rest). rewrite skip_at by reflexivity.
    change (58 =? 58) with true. cbv iota zeta. rewrite (text_start _ _ _ _ V B3), (text_parsed _ _ _ _ V); [|lia|apply stop_blank; [exact B4|apply stop_obj]].
    cbn [bind]. rewrite (blank_skip _ _ B4), taken_front. reflexivity.
  - change (text ":" ++ w3 ++ s ++ w4 ++ text "," ++ t ++ 125 :: rest) with (58 :: w3 ++ s ++ w4 ++ 44 :: t ++ 125 :: rest). rewrite skip_at by reflexivity.
    change (58 =? 58) with true. cbv iota zeta. rewrite (text_start _ _ _ _ V B3), (text_parsed _ _ _ _ V); [|lia|apply stop_blank; [exact B4|apply stop_comma]].
    cbn [bind]. rewrite (blank_skip _ _ B4), taken_front, skip_at by reflexivity. change (44 =? 44) with true. cbv iota.
    change (length (text ",")) with 1%nat in L. rewrite IH by lia. reflexivity.
Qed.
Theorem object_spans : forall l t w rest, object_text quoted l t -> blank w -> spans (w ++ t ++ rest) = Some l.
Proof.
  intros l t w rest [(-> & w0 & B0 & ->)|(m & SP & ->)] B; unfold spans; rewrite (blank_skip _ _ B), <- !app_assoc.
  - change (text "{" ++ w0 ++ text "}" ++ rest) with (123 :: w0 ++ 125 :: rest). rewrite skip_at by reflexivity.
    change (123 =? 123) with true. cbv iota. rewrite (blank_skip _ _ B0). reflexivity.
  - change (text "{" ++ m ++ text "}" ++ rest) with (123 :: m ++ 125 :: rest). rewrite skip_at by reflexivity.
    change (123 =? 123) with true. cbv iota.
    destruct (proj2 (proj2 (quoted_texts_read quoted READ)) _ _ (spelled_members _ _ SP) (S (length m)) rest ltac:(lia)) as (_ & c & r & K & NC).
    rewrite K, (proj2 (N.eqb_neq c 125) NC). rewrite (spelled_spans _ _ SP); [reflexivity|].
    rewrite app_length. cbn [length]. rewrite app_length. lia.
Qed.
Lemma object_spans_alone : forall l t, object_text quoted l t -> spans t = Some l.
Proof. intros l t O. pose proof (object_spans l t [] [] O (Forall_nil _)) as P. rewrite app_nil_r in P. exact P. Qed.
End Spans.
