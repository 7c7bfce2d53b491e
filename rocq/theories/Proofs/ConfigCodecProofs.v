(** The codec of vcs-config texts meets [codec_ok]. *)
From Verif Require Import Model.Base Model.Utf8 Model.JsonText Model.Json Model.Config Model.ConfigCodec
  Spec.Utf8Spec Spec.JsonSpec Spec.JsonValueSpec Spec.ConfigSpec
  Proofs.StrLemmas Proofs.Utf8Proofs Proofs.JsonProofs Proofs.JsonValueProofs Proofs.GrammarSound
  Proofs.ConfigProofs Proofs.ConfigSecrets Proofs.ConfigExample Proofs.OfferProofs.
From Coq Require Import Permutation.
Local Open Scope N_scope.

(** Texts that were read are valid. *)
Lemma valid_utf8_app : forall a b, valid_utf8 a -> valid_utf8 b -> valid_utf8 (a ++ b).
Proof.
  intros a b (ca & -> & FA) (cb & -> & FB). exists (ca ++ cb). split; [symmetry; apply concat_app|]. apply Forall_app. auto.
Qed.
Lemma encode_valid : forall r, valid_utf8 (encode_rune r).
Proof.
  intros r. assert (C : scalar r \/ encode_rune r = [0xEF; 0xBF; 0xBD]).
  { unfold encode_rune, is_surrogate, max_rune, scalar. destruct (N.leb_spec r 0x7F); [left; lia|].
    destruct (N.leb_spec r 0x7FF); [left; lia|]. destruct (N.ltb_spec 0x10FFFF r); [right; reflexivity|].
    destruct (N.leb_spec 0xD800 r); [|left; lia]. destruct (N.leb_spec r 0xDFFF); [right; reflexivity|left; lia]. }
  destruct C as [S| ->].
  - rewrite <- (app_nil_r (encode_rune r)). exact (valid_utf8_cons _ _ _ (encode_rune_utf8 r S) valid_utf8_nil).
  - change [0xEF; 0xBF; 0xBD] with ([0xEF; 0xBF; 0xBD] ++ []). exact (valid_utf8_cons _ _ _ fffd valid_utf8_nil).
Qed.
Lemma ascii_valid : forall c, c < 0x80 -> valid_utf8 [c].
Proof. intros c L. change [c] with ([c] ++ []). exact (valid_utf8_cons _ _ _ (utf8_1 c L) valid_utf8_nil). Qed.

Lemma read_valid : forall fuel s pre out rest, valid_utf8 pre -> read_text fuel s pre = Some (out, rest) -> valid_utf8 out.
Proof.
  induction fuel as [|fuel IH]; intros s pre out rest V E; [destruct s; discriminate|].
  destruct s as [|c r]; [discriminate|]. cbn [read_text] in E.
  assert (GO : forall s' x, valid_utf8 x -> read_text fuel s' (pre ++ x) = Some (out, rest) -> valid_utf8 out).
  { intros s' x VX. apply IH. apply valid_utf8_app; assumption. }
  destruct (c =? 34); [congruence|].
  destruct (c =? 92).
  - destruct r as [|e r']; [discriminate|]. destruct (N.eqb_spec e 117) as [->|].
    + destruct (hex4 r') as [[rr r2]|]; [|discriminate]. destruct (is_surrogate rr).
      * destruct (match_u r2 (fun r3 => match hex4 r3 with
                        | Some (rr1, r4) =>
                            if decode_pair rr rr1 =? rune_error
                            then read_text fuel r2 (pre ++ encode_rune rune_error)
                            else read_text fuel r4 (pre ++ encode_rune (decode_pair rr rr1))
                        | None => read_text fuel r2 (pre ++ encode_rune rune_error)
                        end) (read_text fuel r2 (pre ++ encode_rune rune_error))) as [(r3 & _ & M)|M]; rewrite M in E; clear M.
        -- destruct (hex4 r3) as [[rr1 r4]|]; [destruct (decode_pair rr rr1 =? rune_error)|];
             (eapply GO; [|exact E]; apply encode_valid).
        -- eapply GO; [|exact E]; apply encode_valid.
      * eapply GO; [|exact E]; apply encode_valid.
    + destruct ((e =? 34) || (e =? 92) || (e =? 47)) eqn:Q.
      { eapply GO; [|exact E]. apply ascii_valid. rewrite !orb_true_iff, !N.eqb_eq in Q. lia. }
      repeat (match type of E with context [if ?c then _ else _] => destruct c end;
              [eapply GO; [|exact E]; apply ascii_valid; reflexivity|]).
      discriminate.
  - destruct (N.ltb_spec c 32); [discriminate|]. destruct (N.ltb_spec c 0x80) as [L|L].
    + eapply GO; [|exact E]. apply ascii_valid. exact L.
    + destruct (decode_rune (c :: r)) as [rr size]. eapply GO; [|exact E]. apply encode_valid.
Qed.
Lemma literal_valid : forall s out rest, read_literal s = Some (out, rest) -> valid_utf8 out.
Proof.
  intros s out rest E. destruct s as [|c r]; [discriminate|]. unfold read_literal in E. destruct (N.eq_dec c 34) as [->|NC].
  - eapply read_valid; [apply valid_utf8_nil|exact E].
  - exfalso. destruct c as [|p]; [discriminate|]. repeat (destruct p as [p|p|]; try discriminate). congruence.
Qed.
Lemma lit_number : forall s lit rest, read_number s = Some (lit, rest) -> number_text lit.
Proof. intros s lit rest E. exact (proj2 (number_sound _ _ _ E)). Qed.

(** Values that were read. *)
Inductive sound : jv -> Prop :=
| sd_null : sound VNull
| sd_bool : forall b, sound (VBool b)
| sd_num : forall lit, number_text lit -> sound (VNum lit)
| sd_str : forall s, valid_utf8 s -> sound (VStr s)
| sd_arr : forall l, Forall sound l -> sound (VArr l)
| sd_obj : forall l, Forall (fun p => valid_utf8 (fst p) /\ sound (snd p)) l -> sound (VObj l).

Lemma parse_valid : forall fuel,
  (forall s v rest, parse fuel s = Some (v, rest) -> sound v) /\
  (forall s l rest, parse_items fuel s = Some (l, rest) -> Forall sound l) /\
  (forall s l rest, parse_members fuel s = Some (l, rest) -> Forall (fun p => valid_utf8 (fst p) /\ sound (snd p)) l).
Proof.
  induction fuel as [|fuel (IHv & IHi & IHm)]; [repeat split; intros; discriminate|]. split; [|split].
  - intros s v rest E. cbn [parse] in E. destruct (skip_space s) as [|c r]; [discriminate|].
    destruct (c =? 34).
    { destruct (read_literal (c :: r)) as [[t rest0]|] eqn:R; [|discriminate]. cbn [bind] in E.
      assert (v = VStr t) as -> by congruence. constructor. eapply literal_valid. exact R. }
    destruct (c =? 91).
    { destruct (skip_space r) as [|d r0]; [discriminate|]. destruct (d =? 93).
      - assert (v = VArr []) as -> by congruence. constructor. constructor.
      - destruct (parse_items fuel r) as [[l r1]|] eqn:I; [|discriminate]. cbn [bind] in E. assert (v = VArr l) as -> by congruence.
        constructor. eapply IHi. exact I. }
    destruct (c =? 123).
    { destruct (skip_space r) as [|d r0]; [discriminate|]. destruct (d =? 125).
      - assert (v = VObj []) as -> by congruence. constructor. constructor.
      - destruct (parse_members fuel r) as [[l r1]|] eqn:I; [|discriminate]. cbn [bind] in E. assert (v = VObj l) as -> by congruence.
        constructor. eapply IHm. exact I. }
    destruct (c =? 116). { destruct (strip _ _); [|discriminate]. cbn [bind] in E. assert (v = VBool true) as -> by congruence. constructor. }
    destruct (c =? 102). { destruct (strip _ _); [|discriminate]. cbn [bind] in E. assert (v = VBool false) as -> by congruence. constructor. }
    destruct (c =? 110). { destruct (strip _ _); [|discriminate]. cbn [bind] in E. assert (v = VNull) as -> by congruence. constructor. }
    destruct (read_number (c :: r)) as [[lit r1]|] eqn:R; [|discriminate]. cbn [bind] in E. assert (v = VNum lit) as -> by congruence.
    constructor. eapply lit_number. exact R.
  - intros s l rest E. cbn [parse_items] in E. destruct (parse fuel s) as [[v s1]|] eqn:P; [|discriminate]. cbn [bind] in E.
    destruct (skip_space s1) as [|c r]; [discriminate|]. destruct (c =? 44).
    + destruct (parse_items fuel r) as [[l1 r1]|] eqn:I; [|discriminate]. cbn [bind] in E. assert (l = v :: l1) as -> by congruence.
      constructor; [eapply IHv; exact P|eapply IHi; exact I].
    + destruct (c =? 93); [|discriminate]. assert (l = [v]) as -> by congruence. constructor; [eapply IHv; exact P|constructor].
  - intros s l rest E. cbn [parse_members] in E. destruct (read_literal (skip_space s)) as [[k s1]|] eqn:P; [|discriminate]. cbn [bind] in E.
    destruct (skip_space s1) as [|c r]; [discriminate|]. destruct (c =? 58); [|discriminate].
    destruct (parse fuel r) as [[v s2]|] eqn:PV; [|discriminate]. cbn [bind] in E. destruct (skip_space s2) as [|d r2]; [discriminate|].
    assert (KV : valid_utf8 k /\ sound v) by (split; [eapply literal_valid; exact P|eapply IHv; exact PV]).
    destruct (d =? 44).
    + destruct (parse_members fuel r2) as [[l1 r1]|] eqn:I; [|discriminate]. cbn [bind] in E. assert (l = (k, v) :: l1) as -> by congruence.
      constructor; [exact KV|eapply IHm; exact I].
    + destruct (d =? 125); [|discriminate]. assert (l = [(k, v)]) as -> by congruence. constructor; [exact KV|constructor].
Qed.
Lemma decode_sound : forall s v rest, decode_json s = Some (v, rest) -> sound v.
Proof. intros s v rest E. eapply (proj1 (parse_valid _)). exact E. Qed.

Lemma valid_bytes : forall s, valid_utf8 s -> Forall is_byte s.
Proof.
  intros s (cs & -> & F). induction F as [|bs cs (r & U) _ IH]; [constructor|]. cbn [concat]. apply Forall_app.
  split; [exact (utf8_byte _ _ U)|exact IH].
Qed.
Lemma sound_ok : forall v, sound v -> writable v /\ vvalid v.
Proof.
  apply (jv_induction (fun v => sound v -> writable v /\ vvalid v)).
  - intros _. split; constructor.
  - intros b _. split; constructor.
  - intros lit S. inversion S. split; [constructor; assumption|constructor].
  - intros s S. inversion S. split; constructor; [apply valid_bytes|]; assumption.
  - intros l IH S. assert (F : Forall sound l) by (inversion S; assumption). split; constructor.
    + apply Forall_forall. intros x I. rewrite Forall_forall in IH, F. apply IH; auto.
    + apply Forall_forall. intros x I. rewrite Forall_forall in IH, F. apply IH; auto.
  - intros l IH S. assert (F : Forall (fun p => valid_utf8 (fst p) /\ sound (snd p)) l) by (inversion S; assumption). rewrite Forall_forall in IH, F.
    split; constructor; apply Forall_forall; intros x I; destruct (F x I) as [A B].
    + split; [apply valid_bytes; exact A|apply IH; auto].
    + split; [exact A|apply IH; auto].
Qed.

(** Maps kept sorted. *)
Lemma insert_key_map : forall {A B} (f : A -> B) k v (l : list (str * A)),
  insert_key k (f v) (map (fun e => (fst e, f (snd e))) l) = map (fun e => (fst e, f (snd e))) (insert_key k v l).
Proof.
  intros A B f k v. induction l as [|[k' v'] l IH]; [reflexivity|]. cbn [map fst snd insert_key]. destruct (str_ltb k' k); [|reflexivity].
  cbn [map fst snd]. rewrite IH. reflexivity.
Qed.
Lemma by_key_map : forall {A B} (f : A -> B) (l : list (str * A)),
  by_key (map (fun e => (fst e, f (snd e))) l) = map (fun e => (fst e, f (snd e))) (by_key l).
Proof.
  intros A B f. induction l as [|[k v] l IH]; [reflexivity|]. cbn [map fst snd by_key]. rewrite IH. apply insert_key_map.
Qed.
Lemma by_key_sorted : forall {A} (l : list (str * A)), ksorted l -> by_key l = l.
Proof.
  intros A. induction l as [|[k v] l IH]; intros S; [reflexivity|]. cbn [by_key]. destruct S as [S1 S2]. rewrite (IH S2).
  destruct l as [|[k' v'] l]; [reflexivity|]. cbn [insert_key]. assert (L : str_ltb k k' = true) by (apply S1; left; reflexivity).
  rewrite (str_ltb_asym _ _ L). reflexivity.
Qed.

Section Codec.
  Variable parse_float : str -> option N.
  Variable format_float : N -> str.
  Hypothesis FO : floats_ok parse_float format_float.
  Let tv := to_value parse_float.
  Let fv := of_value format_float.

  Fixpoint items (l : list jv) : option (list json) :=
    match l with
    | [] => Some []
    | v :: r => x <- tv v ;; xs <- items r ;; Some (x :: xs)
    end.
  Fixpoint members (l : list (str * jv)) (m : list (str * json)) : option (list (str * json)) :=
    match l with
    | [] => Some m
    | (k, v) :: r => x <- tv v ;; members r (put m k x)
    end.
  Lemma to_arr : forall l, tv (VArr l) = (l' <- items l ;; Some (JArr l')).
  Proof. reflexivity. Qed.
  Lemma to_obj : forall l, tv (VObj l) = (m <- members l [] ;; Some (JObj (by_key m))).
  Proof. reflexivity. Qed.

  (** Decoded values. *)
  Inductive good : json -> Prop :=
  | gd_null : good JNull
  | gd_bool : forall b, good (JBool b)
  | gd_num : forall lit n, parse_float lit = Some n -> good (JNum n)
  | gd_str : forall s, valid_utf8 s -> good (JStr s)
  | gd_arr : forall l, Forall good l -> good (JArr l)
  | gd_obj : forall l, ksorted l -> Forall (fun e => valid_utf8 (fst e) /\ good (snd e)) l -> good (JObj l).

  Lemma put_good : forall (P : str * json -> Prop) m k v, Forall P m -> P (k, v) -> Forall P (put m k v).
  Proof.
    intros P. induction m as [|[x w] m IH]; intros k v F Q; cbn [put]; [constructor; [exact Q|constructor]|].
    destruct (str_eqb k x) eqn:E; constructor.
    - apply str_eqb_eq in E. subst x. exact Q.
    - exact (Forall_inv_tail F).
    - exact (Forall_inv F).
    - apply IH; [exact (Forall_inv_tail F)|exact Q].
  Qed.
  Lemma put_once : forall (m : list (str * json)) k v, NoDup (keys m) -> NoDup (keys (put m k v)).
  Proof.
    intros m k v N. destruct (get m k) as [w|] eqn:G; [|apply put_nodup; assumption].
    assert (E : keys (put m k v) = keys m); [|rewrite E; exact N]. clear N. induction m as [|[x u] m IH]; [discriminate|].
    cbn [get put] in *. destruct (str_eqb k x); [reflexivity|]. cbn [keys map fst]. f_equal. apply IH. exact G.
  Qed.

  Lemma to_good : forall v j, sound v -> tv v = Some j -> good j.
  Proof.
    apply (jv_induction (fun v => forall j, sound v -> tv v = Some j -> good j)).
    - intros j _ E. assert (j = JNull) as -> by (cbn in E; congruence). constructor.
    - intros b j _ E. assert (j = JBool b) as -> by (cbn in E; congruence). constructor.
    - intros lit j _ E. unfold tv in E. cbn [to_value] in E. destruct (parse_float lit) as [n|] eqn:P; [|discriminate]. cbn [bind] in E.
      assert (j = JNum n) as -> by congruence. econstructor. exact P.
    - intros s j S E. assert (j = JStr s) as -> by (cbn in E; congruence). constructor. inversion S. assumption.
    - intros l IH j S E. assert (F : Forall sound l) by (inversion S; assumption). rewrite to_arr in E.
      destruct (items l) as [l'|] eqn:I; [|discriminate]. cbn [bind] in E. assert (j = JArr l') as -> by congruence. constructor.
      clear S E. revert l' I. induction l as [|v l IHl]; intros l' I; cbn [items] in I.
      + assert (l' = []) as -> by congruence. constructor.
      + destruct (tv v) as [x|] eqn:T; [|discriminate]. cbn [bind] in I. destruct (items l) as [xs|]; [|discriminate]. cbn [bind] in I.
        assert (l' = x :: xs) as -> by congruence. constructor.
        * exact (Forall_inv IH x (Forall_inv F) T).
        * apply IHl; [exact (Forall_inv_tail IH)|exact (Forall_inv_tail F)|reflexivity].
    - intros l IH j S E. assert (F : Forall (fun p => valid_utf8 (fst p) /\ sound (snd p)) l) by (inversion S; assumption).
      rewrite to_obj in E. destruct (members l []) as [m|] eqn:M; [|discriminate]. cbn [bind] in E.
      assert (j = JObj (by_key m)) as -> by congruence. clear S E.
      assert (G : forall l m0 m, Forall (fun p => forall j, sound (snd p) -> tv (snd p) = Some j -> good j) l ->
                Forall (fun p => valid_utf8 (fst p) /\ sound (snd p)) l -> members l m0 = Some m ->
                NoDup (keys m0) -> Forall (fun e => valid_utf8 (fst e) /\ good (snd e)) m0 ->
                NoDup (keys m) /\ Forall (fun e => valid_utf8 (fst e) /\ good (snd e)) m).
      { clear l m IH F M. induction l as [|[k v] l IHl]; intros m0 m IH F M N G; cbn [members] in M.
        - assert (m = m0) as -> by congruence. auto.
        - destruct (tv v) as [x|] eqn:T; [|discriminate]. cbn [bind] in M.
          eapply IHl; [exact (Forall_inv_tail IH)|exact (Forall_inv_tail F)|exact M|apply put_once; exact N|].
          apply put_good; [exact G|]. destruct (Forall_inv F) as [V SV]. cbn [fst snd] in *. split; [exact V|]. exact (Forall_inv IH x SV T). }
      destruct (G l [] m IH F M) as [N FG]; [constructor|constructor|]. constructor.
      + apply by_key_ok. exact N.
      + apply Forall_forall. intros e I. rewrite Forall_forall in FG. apply FG. eapply Permutation_in; [apply by_key_perm|exact I].
  Qed.

  Lemma sorted_map : forall (l : list (str * json)), ksorted l -> ksorted (map (fun e => (fst e, fv (snd e))) l).
  Proof.
    induction l as [|[k v] l IH]; intros S; [exact I|]. destruct S as [S1 S2]. cbn [map fst snd ksorted]. split; [|apply IH; exact S2].
    intros x H. apply S1. unfold keys in *. rewrite map_map in H. exact H.
  Qed.
  Section JInd.
    Variable P : json -> Prop.
    Hypothesis Hnull : P JNull.
    Hypothesis Hbool : forall b, P (JBool b).
    Hypothesis Hnum : forall n, P (JNum n).
    Hypothesis Hstr : forall s, P (JStr s).
    Hypothesis Harr : forall l, Forall P l -> P (JArr l).
    Hypothesis Hobj : forall l, Forall (fun p => P (snd p)) l -> P (JObj l).
    Fixpoint json_induction (v : json) : P v :=
      match v with
      | JNull => Hnull
      | JBool b => Hbool b
      | JNum n => Hnum n
      | JStr s => Hstr s
      | JArr l => Harr l ((fix go l := match l return Forall P l with
          | [] => Forall_nil _ | x :: r => Forall_cons _ (json_induction x) (go r) end) l)
      | JObj l => Hobj l ((fix go l := match l return Forall (fun p => P (snd p)) l with
          | [] => Forall_nil _ | x :: r => Forall_cons (P := fun p => P (snd p)) _ (json_induction (snd x)) (go r) end) l)
      end.
  End JInd.

  Lemma of_sound : forall j, good j -> sound (fv j).
  Proof.
    apply (json_induction (fun j => good j -> sound (fv j))).
    - intros _. constructor.
    - intros b _. constructor.
    - intros n G. inversion G as [| |lit ? E| | |]. constructor. exact (fl_text _ _ FO _ _ E).
    - intros s G. inversion G. constructor. assumption.
    - intros l IH G. assert (F : Forall good l) by (inversion G; assumption). unfold fv. cbn [of_value]. constructor. apply Forall_map.
      rewrite Forall_forall in *. intros x I. apply IH; auto.
    - intros l IH G. inversion G as [| | | | |? S F]. subst. unfold fv. cbn [of_value]. constructor.
      rewrite by_key_map, (by_key_sorted _ S). apply Forall_map. rewrite Forall_forall in *. intros [k x] I. cbn [fst snd].
      destruct (F _ I) as [A B]. split; [exact A|]. exact (IH _ I B).
  Qed.

  Lemma put_new : forall (m : list (str * json)) k v, ~ In k (keys m) -> put m k v = m ++ [(k, v)].
  Proof.
    induction m as [|[x w] m IH]; intros k v NI; [reflexivity|]. cbn [put keys map fst In] in *.
    destruct (str_eqb k x) eqn:E; [apply str_eqb_eq in E; subst; exfalso; apply NI; left; reflexivity|]. cbn [app]. f_equal. apply IH. tauto.
  Qed.
  Lemma back : forall j, good j -> tv (fv j) = Some j.
  Proof.
    apply (json_induction (fun j => good j -> tv (fv j) = Some j)).
    - reflexivity.
    - reflexivity.
    - intros n G. inversion G as [| |lit ? E| | |]. subst. unfold tv, fv. cbn [of_value to_value]. rewrite (fl_same _ _ FO _ _ E). reflexivity.
    - reflexivity.
    - intros l IH G. assert (F : Forall good l) by (inversion G; assumption). unfold fv. cbn [of_value]. rewrite to_arr.
      assert (E : items (map (of_value format_float) l) = Some l); [|rewrite E; reflexivity]. clear G.
      induction l as [|x l IHl]; [reflexivity|]. cbn [map items]. pose proof (Forall_inv IH (Forall_inv F)) as T. unfold fv in T. rewrite T. cbn [bind].
      rewrite (IHl (Forall_inv_tail IH) (Forall_inv_tail F)). reflexivity.
    - intros l IH G. inversion G as [| | | | |? S F]. subst. unfold fv. cbn [of_value]. rewrite by_key_map, (by_key_sorted _ S), to_obj.
      assert (E : forall l m, Forall (fun p => good (snd p) -> tv (fv (snd p)) = Some (snd p)) l ->
                 Forall (fun e => valid_utf8 (fst e) /\ good (snd e)) l -> NoDup (keys (m ++ l)) ->
                 members (map (fun e => (fst e, of_value format_float (snd e))) l) m = Some (m ++ l)).
      { clear l IH G S F. induction l as [|[k x] l IHl]; intros m IH F N; cbn [map members fst snd]; [rewrite app_nil_r; reflexivity|].
        pose proof (Forall_inv IH (proj2 (Forall_inv F))) as T. cbn [snd] in T. unfold fv in T. rewrite T. cbn [bind].
        rewrite put_new.
        - change (m ++ (k, x) :: l) with (m ++ [(k, x)] ++ l). rewrite app_assoc. apply IHl; [exact (Forall_inv_tail IH)|exact (Forall_inv_tail F)|].
          rewrite <- app_assoc. exact N.
        - unfold keys in *. rewrite map_app in N. cbn [map fst] in N. intros I. apply NoDup_remove_2 in N. apply N. apply in_or_app. left. exact I. }
      rewrite (E l [] IH F) by (apply ksorted_nodup; exact S). cbn [bind app]. rewrite (by_key_sorted _ S). reflexivity.
  Qed.

  Lemma unmarshal_good : forall b m, unmarshal_map parse_float b = Some (Some m) -> good (JObj m).
  Proof.
    intros b m E. unfold unmarshal_map, whole in E. destruct (decode_json b) as [[v rest]|] eqn:D; [|discriminate]. cbn [bind] in E.
    destruct (skip_space rest); [|discriminate]. cbn [bind] in E. destruct v; try discriminate.
    destruct (to_value parse_float (VObj l)) as [x|] eqn:T; [|discriminate]. cbn [bind] in E.
    destruct x; try discriminate. assert (l0 = m) as -> by congruence. exact (to_good _ _ (decode_sound _ _ _ D) T).
  Qed.
  Lemma decoded_good : forall m, NoDup (keys m) -> Forall (decoded (unmarshal_map parse_float)) m -> good (JObj (by_key m)).
  Proof.
    intros m N F. constructor; [apply by_key_ok; exact N|]. apply Forall_forall. intros e I.
    assert (I' : In e m) by (eapply Permutation_in; [apply by_key_perm|exact I]). rewrite Forall_forall in F.
    destruct (F e I') as (b & m0 & U & IM). apply unmarshal_good in U. inversion U as [| | | | |? _ G]. subst. rewrite Forall_forall in G. exact (G e IM).
  Qed.
  Lemma marshal_sorted : forall short m, marshal_map format_float short (Some m) = print short (fv (JObj (by_key m))) \/ ~ NoDup (keys m).
  Proof.
    intros short m. destruct (nodup_keys (keys m)) eqn:N; [left|right; rewrite <- nodup_keys_iff; congruence]. apply nodup_keys_iff in N.
    unfold marshal_map, fv. cbn [of_value]. rewrite !by_key_map. rewrite (by_key_sorted (by_key m)); [reflexivity|]. apply by_key_ok. exact N.
  Qed.
  Lemma unmarshal_written : forall short j m, good j -> fv j = VObj m -> unmarshal_map parse_float (print short (fv j)) =
    match j with JObj m => Some (Some m) | _ => None end.
  Proof.
    intros short j m G E. destruct (sound_ok _ (of_sound j G)) as [W V]. unfold unmarshal_map, whole.
    destruct (round_trip short (fv j) [] W) as (v' & D & R); [rewrite E; discriminate|]. rewrite app_nil_r in D. rewrite D. cbn [bind skip_space].
    rewrite (vreplaced_exact _ _ R V). rewrite E at 1. fold tv. rewrite (back j G). destruct j; reflexivity.
  Qed.

  Theorem json_codec_ok : forall short, codec_ok (unmarshal_map parse_float) (marshal_map format_float short).
  Proof.
    intros short. constructor.
    - intros m N D. pose proof (decoded_good m N D) as G. exists (by_key m). split; [|apply by_key_ok; exact N].
      destruct (marshal_sorted short m) as [->|C]; [|contradiction]. exact (unmarshal_written short (JObj (by_key m)) _ G eq_refl).
    - intros b m U. apply unmarshal_good in U. inversion U. apply ksorted_nodup. assumption.
    - intros m m' N N' _ _ G. destruct (marshal_sorted short m) as [->|C]; [|contradiction]. destruct (marshal_sorted short m') as [->|C]; [|contradiction].
      do 3 f_equal. destruct (by_key_ok m N) as [S1 G1]. destruct (by_key_ok m' N') as [S2 G2].
      apply ksorted_eq; [exact S1|exact S2|]. intros x. rewrite G1, G2. apply G.
    - reflexivity.
    - intros [m|]; discriminate.
    - reflexivity.
  Qed.
End Codec.
