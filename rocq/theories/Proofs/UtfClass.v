(** Rune classes: oneByteRange (utf.go:72-108) and folding (copy.go:52-115). *)
From Verif Require Import Model.Base Model.Utf8 Model.Matcher Model.Utf Spec.Utf8Spec Spec.RegexSpec Spec.MatchSpec
  Spec.RuneProgSpec Model.Analyze Proofs.Utf8Proofs Proofs.UtfArith Proofs.UtfBuild Proofs.AnalyzeSound.
Local Open Scope N_scope.

Definition in_ranges (l : list (N * N)) (x : N) : Prop := exists lh, In lh l /\ fst lh <= x /\ x <= snd lh.
Definition proper (lh : N * N) : Prop := fst lh <= snd lh.

Lemma in_ranges_cons : forall a l x, in_ranges (a :: l) x <-> (fst a <= x /\ x <= snd a) \/ in_ranges l x.
Proof.
  intros. unfold in_ranges. split.
  - intros (lh & [<-|H] & R); eauto.
  - intros [H|(lh & H & R)]; [exists a|exists lh]; split; auto; [left|right]; auto.
Qed.
Lemma in_ranges_nil : forall x, in_ranges [] x <-> False.
Proof. intros. unfold in_ranges. split; [intros (lh & [] & _)|intros []]. Qed.

Lemma widen_in : forall lo hi rlo rhi x, lo <= hi -> rlo <= rhi -> touches lo hi rlo rhi = true ->
  (fst (widen lo hi rlo rhi) <= x /\ x <= snd (widen lo hi rlo rhi) <-> (lo <= x /\ x <= hi) \/ (rlo <= x /\ x <= rhi)).
Proof.
  intros lo hi rlo rhi x L R T. unfold touches in T. apply andb_prop in T. destruct T as [T1 T2].
  apply N.leb_le in T1, T2. unfold widen. cbn [fst snd].
  destruct (N.ltb_spec lo rlo), (N.ltb_spec rhi hi); lia.
Qed.
Lemma widen_proper : forall lo hi rlo rhi, lo <= hi -> rlo <= rhi -> proper (widen lo hi rlo rhi).
Proof. intros. unfold proper, widen. cbn [fst snd]. destruct (N.ltb_spec lo rlo), (N.ltb_spec rhi hi); lia. Qed.

Lemma appendRange_in : forall r lo hi, lo <= hi -> Forall proper r ->
  Forall proper (appendRange r lo hi) /\
  forall x, in_ranges (appendRange r lo hi) x <-> in_ranges r x \/ (lo <= x /\ x <= hi).
Proof.
  intros r lo hi L F. destruct r as [|[rlo rhi] r']; cbn [appendRange].
  { split; [constructor; [exact L|constructor]|]. intros x. rewrite in_ranges_cons, in_ranges_nil. cbn [fst snd]. tauto. }
  inversion F as [|? ? P1 F1]; subst. unfold proper in P1. cbn [fst snd] in P1.
  destruct (touches lo hi rlo rhi) eqn:T.
  { split; [constructor; [apply widen_proper; auto|exact F1]|]. intros x. rewrite !in_ranges_cons, widen_in by auto. cbn [fst snd]. tauto. }
  assert (G : Forall proper ((lo, hi) :: (rlo, rhi) :: r') /\
    forall x, in_ranges ((lo, hi) :: (rlo, rhi) :: r') x <-> in_ranges ((rlo, rhi) :: r') x \/ (lo <= x /\ x <= hi)).
  { split; [constructor; [exact L|exact F]|]. intros x. rewrite (in_ranges_cons (lo, hi)). cbn [fst snd]. tauto. }
  destruct r' as [|[rlo' rhi'] r'']; [exact G|]. destruct (touches lo hi rlo' rhi') eqn:T2; [|exact G].
  inversion F1 as [|? ? P2 F2]; subst. unfold proper in P2. cbn [fst snd] in P2.
  split; [constructor; [exact P1|constructor; [apply widen_proper; auto|exact F2]]|].
  intros x. rewrite !in_ranges_cons, widen_in by auto. cbn [fst snd]. tauto.
Qed.

Section Fold.
Variable simple_fold : N -> N.
Variable orbit_max : nat.

Lemma append_orbit_fold : forall n R c r, append_orbit simple_fold n R c (simple_fold r) =
  fold_left (fun R f => appendRange R f f) (orbit simple_fold n c r) R.
Proof.
  induction n as [|n IH]; intros R c r; cbn [append_orbit orbit]; [reflexivity|].
  destruct (N.eqb_spec (simple_fold r) c); cbn [fold_left]; [reflexivity|]. apply IH.
Qed.
Lemma fold_singles : forall l R, Forall proper R ->
  let R' := fold_left (fun R f => appendRange R f f) l R in
  Forall proper R' /\ forall x, in_ranges R' x <-> in_ranges R x \/ In x l.
Proof.
  induction l as [|a l IH]; intros R F; cbv zeta; cbn [fold_left].
  - split; [exact F|]. intros x. cbn [In]. tauto.
  - destruct (appendRange_in R a a (N.le_refl a) F) as [F' H]. destruct (IH _ F') as [F'' H'']. split; [exact F''|].
    intros x. rewrite H'', H. cbn [In]. split; [intros [[A|A]|A]|intros [A|[A|A]]]; auto.
    + right. left. lia.
    + left. right. lia.
Qed.
Lemma orbit_same : forall n r0 r x, In x (orbit simple_fold n r0 r) -> same_letter simple_fold r x.
Proof.
  induction n as [|n IH]; intros r0 r x H; cbn [orbit] in H; [destruct H|].
  destruct (N.eqb_spec (simple_fold r) r0); [destruct H|]. destruct H as [<-|H]; [exists 1%nat; reflexivity|].
  destruct (IH _ _ _ H) as [k ->]. exists (S k). symmetry. apply iter_succ.
Qed.

Lemma runes_one : forall r, runes_between r r = [r].
Proof. intros r. unfold runes_between. replace (r + 1 - r) with 1 by lia. change (N.to_nat 1) with 1%nat. cbn [seq map]. f_equal. lia. Qed.

Lemma same_fixed : forall r x, simple_fold r = r -> same_letter simple_fold r x -> x = r.
Proof.
  intros r x E [k ->]. induction k as [|k IH]; [reflexivity|].
  change (Nat.iter (S k) simple_fold r) with (simple_fold (Nat.iter k simple_fold r)). rewrite IH. exact E.
Qed.
Lemma same_refl : forall r, same_letter simple_fold r r.
Proof. intros r. exists 0%nat. reflexivity. Qed.

(** A case-insensitive rune: the ranges cover its orbit. *)
Lemma folded_one : forall r, cyclic simple_fold orbit_max r ->
  (r < 0x41 \/ 0x1044f < r -> simple_fold r = r) ->
  let R := appendFoldedRange simple_fold orbit_max [] r r in
  Forall proper R /\ forall x, in_ranges R x <-> same_letter simple_fold r x.
Proof.
  intros r C O. cbv zeta. unfold appendFoldedRange, minFold, maxFold.
  destruct ((r <=? 0x41) && (0x1044f <=? r))%bool eqn:E1.
  { apply andb_prop in E1. destruct E1 as [A B]. apply N.leb_le in A, B. lia. }
  destruct ((r <? 0x41) || (0x1044f <? r))%bool eqn:E2.
  { assert (Fx : simple_fold r = r).
    { apply O. apply orb_prop in E2. destruct E2 as [A|A]; apply N.ltb_lt in A; auto. }
    destruct (appendRange_in [] r r (N.le_refl r) (Forall_nil _)) as [F H]. split; [exact F|].
    intros x. rewrite H, in_ranges_nil. split.
    - intros [[]|A]. replace x with r by lia. apply same_refl.
    - intros A. apply same_fixed in A; [|exact Fx]. right. lia. }
  apply orb_false_elim in E2. destruct E2 as [A B]. rewrite A, B. rewrite runes_one. cbn [fold_left].
  unfold append_folds. rewrite append_orbit_fold.
  destruct (appendRange_in [] r r (N.le_refl r) (Forall_nil _)) as [F H].
  destruct (fold_singles (orbit simple_fold orbit_max r r) _ F) as [F' H']. cbv zeta in F', H'. split; [exact F'|].
  intros x. rewrite H', H, in_ranges_nil. split.
  - intros [[[]|D]|D]; [replace x with r by lia; apply same_refl|]. eapply orbit_same, D.
  - intros S. destruct (same_in_orbit simple_fold orbit_max r x C S) as [->|D]; [left; right; lia|right; exact D].
Qed.

(** Ranges of scalars only are clear of the surrogates. *)
Lemma scalar_clear : forall l, Forall proper l -> (forall x, in_ranges l x -> scalar x) ->
  Forall (fun lh => snd lh <= 0x10FFFF /\ (clear_range (fst lh) (snd lh) \/ snd lh < fst lh)) l.
Proof.
  intros l F S. rewrite Forall_forall in *. intros [lo hi] H. specialize (F _ H). unfold proper in F. cbn [fst snd] in *.
  assert (I : forall x, lo <= x -> x <= hi -> scalar x) by (intros x A B; apply S; exists (lo, hi); auto).
  assert (Sl := I lo ltac:(lia) ltac:(lia)). assert (Sh := I hi ltac:(lia) ltac:(lia)). unfold scalar in *.
  split; [lia|]. left. unfold clear_range.
  destruct (N.lt_ge_cases hi 0xD800) as [|D]; [left; auto|]. destruct (N.lt_ge_cases lo 0xE000) as [D'|]; [|right; left; auto].
  exfalso. destruct (N.lt_ge_cases lo 0xD800) as [D2|D2]; [specialize (I 0xD800)|]; lia.
Qed.

Lemma in_ranges_rev : forall l x, in_ranges (rev l) x <-> in_ranges l x.
Proof. intros. unfold in_ranges. split; intros (lh & H & R); exists lh; split; auto; [apply in_rev; auto|apply -> in_rev; auto]. Qed.

Definition clear_all (l : list (N * N)) : Prop :=
  Forall (fun lh => snd lh <= 0x10FFFF /\ (clear_range (fst lh) (snd lh) \/ snd lh < fst lh)) l.

Lemma sorted_pairs : forall rs, sorted_class rs -> exists l, pairs rs = Some l /\ clear_all l /\
  forall x, in_ranges l x <-> in_class rs x.
Proof.
  intros rs S. induction S as [|lo hi L M C|lo hi lo' hi' rs L C H S (l & E & A & I)].
  - exists []. split; [reflexivity|]. split; [constructor|]. intros x. rewrite in_ranges_nil. cbn [in_class]. tauto.
  - exists [(lo, hi)]. split; [reflexivity|]. split; [constructor; [cbn [fst snd]; auto|constructor]|].
    intros x. rewrite in_ranges_cons, in_ranges_nil. cbn [in_class fst snd]. tauto.
  - exists ((lo, hi) :: l). cbn [pairs] in *. rewrite E. cbn [bind]. split; [reflexivity|].
    assert (hi <= 0x10FFFF).
    { assert (lo' <= hi' /\ hi' <= 0x10FFFF); [|lia]. clear - S.
      remember (lo' :: hi' :: rs) as l0 eqn:E. revert lo' hi' rs E.
      induction S as [|a b A1 A2 A3|a b c d l A1 A2 A3 S IH]; intros lo' hi' rs E; [discriminate| |];
        injection E as <- <- E; [auto|]. destruct (IH c d l eq_refl). lia. }
    split; [constructor; [cbn [fst snd]; auto|exact A]|].
    intros x. rewrite in_ranges_cons, I. cbn [in_class fst snd]. tauto.
Qed.

Lemma scalar_clear1 : forall r, scalar r -> clear_all [(r, r)].
Proof. intros r S. constructor; [|constructor]. cbn [fst snd]. unfold scalar in S. unfold clear_range. lia. Qed.

(** What [byte_inst] has to establish for a rune instruction. *)
Definition words_of (l : list (N * N)) (w : list N) : Prop :=
  exists lh, In lh l /\ range_words (fst lh) (snd lh) w.
Lemma words_ranges : forall l w, words_of l w <-> exists r, in_ranges l r /\ wtf8 r w.
Proof.
  intros. unfold words_of, range_words, in_ranges. split.
  - intros (lh & H & r & A & B & W). eauto 6.
  - intros (r & (lh & H & A & B) & W). eauto 8.
Qed.

Lemma wtf8_ascii : forall r w, r < 0x80 -> (wtf8 r w <-> w = [r]).
Proof.
  intros r w L. rewrite wtf8_cases. split.
  - intros [[_ ->]|[(p & q & F1 & F2 & F3 & F4 & ->)|[(p & q & s & F1 & F2 & F3 & F4 & F5 & ->)|(t & p & q & s & F1 & F2 & F3 & F4 & F5 & F6 & ->)]]]; auto; lia.
  - intros ->. left. auto.
Qed.

Notation accepts := (accepts simple_fold wtf8).
Hypothesis AC : ascii_case simple_fold.

Definition rune_ok (one : bool) (rs : list N) (fold : bool) (out : N) : Prop :=
  match oneByteRange simple_fold one rs fold with
  | None => False
  | Some (Some (lo, hi, f)) => forall w, accepts (XRune one rs fold out) w <-> exists c, w = [c] /\ MatchSpec.in_range lo hi f c
  | Some None => exists l, class_ranges simple_fold orbit_max rs fold = Some l /\ clear_all l /\
      forall w, accepts (XRune one rs fold out) w <-> words_of l w
  end.

Lemma one_rune_byte : forall r w, r < 0x80 ->
  ((exists x, x = r /\ wtf8 x w) <-> exists c, w = [c] /\ MatchSpec.in_range (to_byte r) (to_byte r) false c).
Proof.
  intros r w L. unfold to_byte, MatchSpec.in_range. rewrite N.mod_small by lia. split.
  - intros (x & -> & W). apply wtf8_ascii in W; [|exact L]. exists r. split; [exact W|lia].
  - intros (c & -> & R). exists r. split; [reflexivity|]. apply wtf8_ascii; [exact L|]. f_equal. lia.
Qed.
Lemma class_words : forall rs l w, (forall x, in_ranges l x <-> in_class rs x) ->
  ((exists r, in_class rs r /\ wtf8 r w) <-> words_of l w).
Proof.
  intros rs l w I. rewrite words_ranges. split; intros (r & H & W); exists r; split; auto; apply I; auto.
Qed.
Lemma single_words : forall r w, (exists x, x = r /\ wtf8 x w) <-> words_of [(r, r)] w.
Proof.
  intros r w. rewrite words_ranges. split; intros (x & H & W); exists x; (split; [|exact W]).
  - subst x. rewrite in_ranges_cons. cbn [fst snd]. left. lia.
  - rewrite in_ranges_cons, in_ranges_nil in H. cbn [fst snd] in H. lia.
Qed.

Lemma wf_rune_ok : forall one rs fold out, wf_rune simple_fold orbit_max (XRune one rs fold out) -> rune_ok one rs fold out.
Proof.
  intros one rs fold out W. unfold rune_ok, oneByteRange. unfold RuneSelf. destruct one; cbn [wf_rune] in W.
  - destruct W as (-> & r & S & E). cbn [accepts].
    assert (CR : exists l, class_ranges simple_fold orbit_max rs false = Some l /\ l = [(r, r)]).
    { destruct E as [->| ->]; eexists; split; reflexivity. }
    assert (IC : forall w, (exists x, in_class rs x /\ wtf8 x w) <-> (exists x, x = r /\ wtf8 x w)).
    { intros w. destruct E as [->| ->]; cbn [in_class]; split; intros (x & H & U); exists x; (split; [|exact U]); try (left; lia); lia. }
    replace (nth_error rs 0) with (Some r) by (destruct E as [->| ->]; reflexivity). cbn [bind].
    destruct (N.ltb_spec r 0x80) as [L|L].
    + intros w. rewrite IC. apply one_rune_byte, L.
    + destruct CR as (l & El & ->). exists [(r, r)]. split; [exact El|]. split; [apply scalar_clear1, S|].
      intros w. rewrite IC. apply single_words.
  - destruct fold.
    + destruct W as (r & -> & C & Mn & O). cbn [accepts].
      assert (IC : forall w, (exists r0 r', in_class [r] r0 /\ same_letter simple_fold r0 r' /\ wtf8 r' w) <-> exists r', same_letter simple_fold r r' /\ wtf8 r' w).
      { intros w. cbn [in_class]. split; [intros (r0 & r' & -> & H)|intros (r' & H)]; eauto. }
      assert (NB : exists l, class_ranges simple_fold orbit_max [r] true = Some l /\ clear_all l /\
        forall w, (exists r0 r', in_class [r] r0 /\ same_letter simple_fold r0 r' /\ wtf8 r' w) <-> words_of l w).
      { destruct (folded_one r C O) as [F H]. cbv zeta in F, H. eexists. split; [unfold class_ranges; cbn [ranges_of bind fold_left fst snd]; reflexivity|].
        split.
        - apply scalar_clear; [apply Forall_rev, F|]. intros x X. apply (proj1 (in_ranges_rev _ _)) in X. apply H in X. apply Mn, X.
        - intros w. rewrite IC, words_ranges. split; intros (x & X & U); exists x; (split; [|exact U]).
          + apply in_ranges_rev, H, X.
          + apply (proj1 (in_ranges_rev _ _)) in X. apply H, X. }
      destruct (N.leb_spec 0x80 r) as [L|L]; [exact NB|].
      destruct (asciiFold simple_fold r) eqn:AF; cbn [andb negb]; [|exact NB].
      intros w. rewrite IC. clear NB IC. unfold asciiFold, RuneSelf in AF.
      destruct (N.leb_spec 0x80 r); [lia|]. destruct (N.leb_spec 0x80 (simple_fold r)) as [|L1]; [discriminate|].
      destruct (AC r L L1) as (AU & AL & AO).
      assert (M1 : r <= simple_fold r) by (apply Mn; exists 1%nat; reflexivity).
      unfold to_byte. rewrite N.mod_small by lia. unfold MatchSpec.in_range.
      destruct (N.eqb_spec (simple_fold r) r) as [E|E].
      * assert (NL : ~ 65 <= r <= 90 /\ ~ 97 <= r <= 122) by (split; intros X; [specialize (AU X)|specialize (AL X)]; lia).
        split.
        -- intros (x & X & U). apply same_fixed in X; [|exact E]. subst x. apply wtf8_ascii in U; [|exact L].
           exists r. split; [exact U|]. lia.
        -- intros (c & -> & R). exists r. split; [apply same_refl|]. apply wtf8_ascii; [exact L|]. f_equal. lia.
      * apply N.eqb_eq in AF.
        assert (UP : 65 <= r <= 90).
        { assert (D : 65 <= r <= 90 \/ 97 <= r <= 122 \/ (~ 65 <= r <= 90 /\ ~ 97 <= r <= 122)) by lia.
          destruct D as [D|[D|[D1 D2]]]; [exact D|specialize (AL D); lia|specialize (AO D1 D2); lia]. }
        specialize (AU UP).
        assert (TW : forall x, same_letter simple_fold r x -> x = r \/ x = r + 32).
        { intros x [k ->]. induction k as [|k IH]; [left; reflexivity|].
          change (Nat.iter (S k) simple_fold r) with (simple_fold (Nat.iter k simple_fold r)).
          destruct IH as [-> | ->]; [right; exact AU|left]. rewrite <- AU. exact AF. }
        split.
        -- intros (x & X & U). destruct (TW x X) as [-> | ->].
           ++ apply wtf8_ascii in U; [|exact L]. exists r. split; [exact U|]. lia.
           ++ apply wtf8_ascii in U; [|lia]. exists (r + 32). split; [exact U|]. lia.
        -- intros (c & -> & R). exists c. split; [|apply wtf8_ascii; [lia|reflexivity]].
           assert (c = r \/ c = r + 32) as [-> | ->] by lia; [apply same_refl|]. exists 1%nat. cbn. auto.
    + cbn [andb accepts].
      assert (NB : forall l, class_ranges simple_fold orbit_max rs false = Some l -> clear_all l -> (forall x, in_ranges l x <-> in_class rs x) ->
        exists l, class_ranges simple_fold orbit_max rs false = Some l /\ clear_all l /\
        forall w, (exists r, in_class rs r /\ wtf8 r w) <-> words_of l w).
      { intros l E A I. exists l. split; [exact E|]. split; [exact A|]. intros w. apply class_words, I. }
      destruct W as [(r & S & ->)|[S P]].
      * cbn [in_class]. destruct (N.leb_spec 0x80 r) as [L|L].
        -- apply (NB [(r, r)]); [reflexivity|apply scalar_clear1, S|].
           intros x. rewrite in_ranges_cons, in_ranges_nil. cbn [fst snd in_class]. lia.
        -- intros w. apply one_rune_byte, L.
      * assert (NB' : Nat.even (length rs) = true -> exists l, class_ranges simple_fold orbit_max rs false = Some l /\ clear_all l /\
          forall w, (exists r, in_class rs r /\ wtf8 r w) <-> words_of l w).
        { intros Ev. destruct (sorted_pairs rs S) as (l & E & A & I). apply (NB l); auto.
          unfold class_ranges, ranges_of. destruct rs as [|a [|b rs']]; [| discriminate |]; rewrite E; reflexivity. }
        clear NB. inversion S as [E|lo hi L M C E|lo hi lo' hi' rs' L C H S' E]; subst rs.
        -- apply NB'. reflexivity.
        -- destruct (N.eqb_spec lo hi) as [->|D].
           ++ destruct (N.leb_spec 0x80 hi) as [L8|L8]; [apply NB'; reflexivity|].
              intros w. rewrite <- one_rune_byte by exact L8. cbn [in_class].
              split; intros (x & X & U); exists x; (split; [|exact U]); lia.
           ++ destruct (N.ltb_spec hi 0x80) as [L8|L8]; [|apply NB'; reflexivity].
              intros w. unfold to_byte, MatchSpec.in_range. rewrite !N.mod_small by lia. cbn [in_class]. split.
              ** intros (x & X & U). apply wtf8_ascii in U; [|lia]. exists x. split; [exact U|lia].
              ** intros (c & -> & R). exists c. split; [left; lia|]. apply wtf8_ascii; [lia|reflexivity].
        -- destruct rs' as [|z rs']; [|apply NB'].
           2:{ clear - S'. remember (lo' :: hi' :: z :: rs') as l0 eqn:E. assert (Ev : Nat.even (length l0) = true); [|subst l0; exact Ev].
               clear E. induction S'; cbn [length Nat.even] in *; auto. }
           destruct ((lo =? hi) && (lo' =? hi') && (simple_fold lo =? lo') && (simple_fold lo' =? lo))%bool eqn:B; [|apply NB'; reflexivity].
           apply andb_prop in B. destruct B as [B B4]. apply andb_prop in B. destruct B as [B B3]. apply andb_prop in B. destruct B as [B1 B2].
           apply N.eqb_eq in B1, B2, B3, B4. subst hi hi'.
           assert (L8 : lo' < 0x80) by (apply (P lo lo'); auto).
           assert (X : simple_fold lo < 0x80) by lia. destruct (AC lo ltac:(lia) X) as (AU & AL & AO).
           assert (UP : 65 <= lo <= 90).
           { assert (D : 65 <= lo <= 90 \/ 97 <= lo <= 122 \/ (~ 65 <= lo <= 90 /\ ~ 97 <= lo <= 122)) by lia.
             destruct D as [D|[D|[D1 D2]]]; [exact D|specialize (AL D); lia|specialize (AO D1 D2); lia]. }
           specialize (AU UP). intros w. unfold to_byte, MatchSpec.in_range. rewrite N.mod_small by lia. cbn [in_class]. split.
           ++ intros (x & Hx & U). apply wtf8_ascii in U; [|lia]. exists x. split; [exact U|]. lia.
           ++ intros (c & -> & R). exists c. split; [lia|]. apply wtf8_ascii; [lia|reflexivity].
Qed.
End Fold.
