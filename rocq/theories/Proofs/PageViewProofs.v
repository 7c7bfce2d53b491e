(** The page shows every line of a file once, numbered and marked. *)
From Verif Require Import Model.Base Model.Grep Model.PageView Spec.ClientSpec Spec.PresentSpec Spec.ViewSpec.
From Coq Require Import Sorted Lia.
Local Open Scope nat_scope.

Section File.
Variable file : list str.
Definition marked (ms : list hit) (k : nat) : bool := existsb (fun m => Nat.eqb (h_no m) k) ms.
Definition row_at (ms : list hit) (k : nat) : line_obj := (Z.of_nat k, nth (k - 1) file [], marked ms k).

Lemma number_rows : forall lines n, 0 < n -> (forall i l, nth_error lines i = Some l -> nth_error file (n - 1 + i) = Some l) ->
  number_from (Z.of_nat n) lines = map (fun k => (Z.of_nat k, nth (k - 1) file [], false)) (seq n (length lines)).
Proof.
  induction lines as [|l lines IH]; intros n P H; [reflexivity|]. cbn [number_from length seq map]. f_equal.
  - f_equal. f_equal. symmetry. apply nth_error_nth. specialize (H 0 l eq_refl). rewrite Nat.add_0_r in H. exact H.
  - replace (Z.of_nat n + 1)%Z with (Z.of_nat (S n)) by lia. apply IH; [lia|]. intros i l' E. replace (S n - 1 + i) with (n - 1 + S i) by lia. apply H. exact E.
Qed.

Lemma match_rows : forall m, from_file file m ->
  MatchToLines m = map (row_at [m]) (seq (first_line m) (S (last_line m) - first_line m)).
Proof.
  intros m (L & NL & B & A). unfold MatchToLines, first_line, last_line in *.
  replace (Z.of_nat (h_no m) - Z.of_nat (length (h_before m)))%Z with (Z.of_nat (h_no m - length (h_before m))) by lia.
  rewrite number_rows; [|lia|exact B]. replace (Z.of_nat (h_no m) + 1)%Z with (Z.of_nat (S (h_no m))) by lia.
  rewrite number_rows; [|lia|]. 2: { intros i l E. replace (S (h_no m) - 1 + i) with (h_no m + i) by lia. apply A, E. }
  replace (S (h_no m + length (h_after m)) - (h_no m - length (h_before m))) with (length (h_before m) + (1 + length (h_after m))) by lia.
  rewrite !seq_app, !map_app. replace (h_no m - length (h_before m) + length (h_before m)) with (h_no m) by lia.
  apply (f_equal2 (@app line_obj)); [|apply (f_equal2 (@app line_obj))].
  - apply map_ext_in. intros k I. apply in_seq in I. unfold row_at, marked. cbn [existsb]. rewrite orb_false_r. f_equal. symmetry. apply Nat.eqb_neq. lia.
  - cbn [seq map]. unfold row_at, marked. cbn [existsb]. rewrite Nat.eqb_refl. rewrite (nth_error_nth _ _ _ NL). reflexivity.
  - replace (h_no m + 1) with (S (h_no m)) by lia. apply map_ext_in. intros k I. apply in_seq in I. unfold row_at, marked. cbn [existsb]. rewrite orb_false_r. f_equal. symmetry. apply Nat.eqb_neq. lia.
Qed.

Lemma set_middle : forall {A} (l1 l2 : list A) x y, list_set (l1 ++ x :: l2) (length l1) y = Some (l1 ++ y :: l2).
Proof. induction l1 as [|a l1 IH]; intros l2 x y; [reflexivity|]. cbn. rewrite IH. reflexivity. Qed.

Lemma set_row : forall ms a n k, a <= k -> k < a + n ->
  set_match (map (row_at ms) (seq a n)) (Z.of_nat n - 1 - (Z.of_nat (a + n - 1) - Z.of_nat k)) =
  Some (map (fun j => if Nat.eqb j k then (Z.of_nat k, nth (k - 1) file [], true) else row_at ms j) (seq a n)).
Proof.
  intros ms a n k L1 L2. unfold set_match. replace (Z.of_nat n - 1 - (Z.of_nat (a + n - 1) - Z.of_nat k))%Z with (Z.of_nat (k - a)) by lia.
  destruct (Z.ltb_spec (Z.of_nat (k - a)) 0); [lia|]. rewrite Nat2Z.id.
  assert (E : seq a n = seq a (k - a) ++ k :: seq (S k) (n - S (k - a))).
  { replace n with (k - a + S (n - S (k - a))) at 1 by lia. rewrite seq_app. cbn [seq]. replace (a + (k - a)) with k by lia. reflexivity. }
  rewrite E, !map_app. cbn [map]. rewrite nth_error_app2 by (rewrite map_length, seq_length; lia).
  rewrite map_length, seq_length, Nat.sub_diag. cbn [nth_error row_at]. rewrite Nat.eqb_refl.
  pose proof (set_middle (map (row_at ms) (seq a (k - a))) (map (row_at ms) (seq (S k) (n - S (k - a)))) (row_at ms k) (Z.of_nat k, nth (k - 1) file [], true)) as SM.
  rewrite map_length, seq_length in SM. etransitivity; [exact SM|]. f_equal. apply (f_equal2 (@app line_obj)); [|apply f_equal].
  - apply map_ext_in. intros j I. apply in_seq in I. destruct (Nat.eqb_spec j k); [lia|reflexivity].
  - apply map_ext_in. intros j I. apply in_seq in I. destruct (Nat.eqb_spec j k); [lia|reflexivity].
Qed.

Lemma marked_app : forall a b k, marked (a ++ b) k = marked a k || marked b k.
Proof. intros. apply existsb_app. Qed.

Lemma merge_app : forall max b1 b2 cur, merge_lines max (b1 ++ b2) cur = (c <- merge_lines max b1 cur ;; merge_lines max b2 c).
Proof.
  induction b1 as [|l b1 IH]; intros b2 cur; [reflexivity|]. cbn [merge_lines app]. destruct (Z.ltb max (Number l)); [apply IH|].
  destruct (Match l); [|apply IH]. destruct (set_match cur _); [cbn [bind]; apply IH|reflexivity].
Qed.
Lemma merge_noop : forall max b cur, Forall (fun l => (Number l <= max)%Z /\ Match l = false) b -> merge_lines max b cur = Some cur.
Proof.
  induction b as [|l b IH]; intros cur F; [reflexivity|]. inversion F as [|? ? (L & M) F']; subst. cbn [merge_lines].
  destruct (Z.ltb_spec max (Number l)); [lia|]. rewrite M. apply IH, F'.
Qed.
Lemma merge_append : forall max b cur, Forall (fun l => (max < Number l)%Z) b -> merge_lines max b cur = Some (cur ++ b).
Proof.
  induction b as [|l b IH]; intros cur F; [rewrite app_nil_r; reflexivity|]. inversion F as [|? ? L F']; subst. cbn [merge_lines].
  destruct (Z.ltb_spec max (Number l)); [|lia]. rewrite IH by exact F'. rewrite <- app_assoc. reflexivity.
Qed.

(** The lines of the match with the numbers in a range that holds not its own line. *)
Lemma merge_plain : forall m ms a n j c, 0 < n -> a <= j -> j <= a + n -> ~ (j <= h_no m < j + c) ->
  (forall m', In m' ms -> h_no m' <= a + n - 1) -> forall f,
  merge_lines (Z.of_nat (a + n - 1)) (map (row_at [m]) (seq j c)) (map f (seq a n)) =
  Some (map (fun k => if k <? a + n then f k else row_at ms k) (seq a (Nat.max n (j + c - a)))).
Proof.
  intros m ms a n j c P L1 L2 NM OLD f.
  assert (G : forall k, j <= k < j + c -> row_at [m] k = (Z.of_nat k, nth (k - 1) file [], false)).
  { intros k Lk. unfold row_at, marked. cbn [existsb]. rewrite orb_false_r. f_equal. apply Nat.eqb_neq. lia. }
  assert (G2 : forall k, a + n <= k -> row_at ms k = (Z.of_nat k, nth (k - 1) file [], false)).
  { intros k Lk. unfold row_at. f_equal. unfold marked. destruct (existsb _ ms) eqn:E; [|reflexivity]. apply existsb_exists in E. destruct E as (m' & I & E).
    apply Nat.eqb_eq in E. specialize (OLD m' I). lia. }
  set (c1 := Nat.min c (a + n - j)). replace c with (c1 + (c - c1)) at 1 by lia. rewrite seq_app, map_app, merge_app.
  rewrite merge_noop. 2: { apply Forall_forall. intros l I. apply in_map_iff in I. destruct I as (k & <- & I). apply in_seq in I. rewrite G by lia. cbn [Number Match fst snd]. split; [lia|reflexivity]. }
  cbn [bind]. rewrite merge_append. 2: { apply Forall_forall. intros l I. apply in_map_iff in I. destruct I as (k & <- & I). apply in_seq in I. cbn [row_at Number fst snd]. lia. }
  f_equal. replace (Nat.max n (j + c - a)) with (n + (c - c1)) by lia. rewrite seq_app, map_app. f_equal.
  - apply map_ext_in. intros k I. apply in_seq in I. destruct (Nat.ltb_spec k (a + n)); [reflexivity|lia].
  - destruct (Nat.eq_dec (c - c1) 0) as [Z|NZ]; [rewrite Z; reflexivity|]. replace (j + c1) with (a + n) by lia.
    apply map_ext_in. intros k I. apply in_seq in I. destruct (Nat.ltb_spec k (a + n)); [lia|]. rewrite G by lia. rewrite G2 by lia. reflexivity.
Qed.

Lemma merge_match : forall m ms a n, 0 < n -> from_file file m -> a <= first_line m -> first_line m <= a + n - 1 ->
  (forall m', In m' ms -> h_no m' <= a + n - 1) ->
  merge_lines (Z.of_nat (a + n - 1)) (MatchToLines m) (map (row_at ms) (seq a n)) =
  Some (map (row_at (ms ++ [m])) (seq a (Nat.max n (S (last_line m) - a)))).
Proof.
  intros m ms a n P FF L1 L2 OLD. rewrite match_rows by exact FF. destruct FF as (LB & NL & _ & _).
  assert (B : first_line m <= h_no m <= last_line m) by (unfold first_line, last_line in *; lia).
  assert (RA : forall k, k <> h_no m -> row_at (ms ++ [m]) k = row_at ms k).
  { intros k NE. unfold row_at. f_equal. rewrite marked_app. unfold marked at 2. cbn [existsb]. rewrite orb_false_r.
    destruct (Nat.eqb_spec (h_no m) k); [congruence|apply orb_false_r]. }
  assert (RM : row_at (ms ++ [m]) (h_no m) = (Z.of_nat (h_no m), nth (h_no m - 1) file [], true)).
  { unfold row_at. f_equal. rewrite marked_app. unfold marked at 2. cbn [existsb]. rewrite Nat.eqb_refl. apply orb_true_r. }
  assert (R1 : row_at [m] (h_no m) = (Z.of_nat (h_no m), nth (h_no m - 1) file [], true)).
  { unfold row_at. f_equal. unfold marked. cbn [existsb]. rewrite Nat.eqb_refl. reflexivity. }
  replace (S (last_line m) - first_line m) with ((h_no m - first_line m) + (1 + (last_line m - h_no m))) by lia.
  rewrite !seq_app, !map_app, merge_app. replace (first_line m + (h_no m - first_line m)) with (h_no m) by lia.
  destruct (Nat.le_gt_cases (h_no m) (a + n - 1)) as [LE|GT].
  - rewrite (merge_plain m ms) by (try lia; exact OLD). cbn [bind]. replace (Nat.max n (first_line m + (h_no m - first_line m) - a)) with n by lia.
    rewrite merge_app. cbn [seq map merge_lines]. rewrite R1. cbn [Number Match fst snd].
    destruct (Z.ltb_spec (Z.of_nat (a + n - 1)) (Z.of_nat (h_no m))); [lia|]. rewrite map_length, seq_length.
    rewrite (map_ext_in _ (row_at ms)). 2: { intros k I. apply in_seq in I. destruct (Nat.ltb_spec k (a + n)); [reflexivity|lia]. }
    rewrite set_row by lia. cbn [bind]. replace (h_no m + 1) with (S (h_no m)) by lia.
    rewrite (merge_plain m ms) by (try lia; exact OLD). f_equal. replace (S (h_no m) + (last_line m - h_no m) - a) with (S (last_line m) - a) by lia.
    apply map_ext_in. intros k I. apply in_seq in I. destruct (Nat.ltb_spec k (a + n)).
    + destruct (Nat.eqb_spec k (h_no m)) as [->|NE]; [symmetry; exact RM|symmetry; apply RA, NE].
    + symmetry. apply RA. lia.
  - rewrite (merge_plain m ms) by (try lia; exact OLD). cbn [bind]. rewrite merge_append.
    2: { rewrite <- map_app, <- seq_app. apply Forall_forall. intros l I. apply in_map_iff in I. destruct I as (k & <- & I). apply in_seq in I. cbn [row_at Number fst snd]. lia. }
    f_equal. replace (first_line m + (h_no m - first_line m)) with (h_no m) by lia. replace (Nat.max n (h_no m - a)) with (h_no m - a) by lia.
    replace (Nat.max n (S (last_line m) - a)) with ((h_no m - a) + (1 + (last_line m - h_no m))) by lia.
    rewrite !seq_app, !map_app. replace (a + (h_no m - a)) with (h_no m) by lia. apply (f_equal2 (@app line_obj)); [|apply (f_equal2 (@app line_obj))].
    + apply map_ext_in. intros k I. apply in_seq in I. rewrite RA by lia. destruct (Nat.ltb_spec k (a + n)); reflexivity.
    + cbn [seq map]. rewrite R1, RM. reflexivity.
    + apply map_ext_in. intros k I. apply in_seq in I. rewrite RA by lia. unfold row_at. f_equal.
      unfold marked. cbn [existsb]. rewrite orb_false_r. transitivity false; [apply Nat.eqb_neq; lia|]. symmetry.
      destruct (existsb _ ms) eqn:E; [|reflexivity]. apply existsb_exists in E. destruct E as (m' & I' & E). apply Nat.eqb_eq in E. specialize (OLD m' I'). lia.
Qed.

Lemma last_row : forall ms a n, 0 < n -> exists l, rev (map (row_at ms) (seq a n)) = row_at ms (a + n - 1) :: l.
Proof.
  intros ms a [|n] P; [lia|]. rewrite seq_S, map_app, rev_app_distr. cbn [map rev app]. replace (a + S n - 1) with (a + n) by lia. eauto.
Qed.

(** [nums]: the numbers of the lines shown so far, [a..a+n-1] those of the current block. *)
Record so_far (ms : list hit) (res : list (list line_obj)) (a n : nat) (nums : list nat) : Prop := {
  sf_pos : 0 < n;
  sf_rows : concat res = map (row_at ms) nums;
  sf_sorted : StronglySorted lt (nums ++ seq a n);
  sf_in : forall k, In k (nums ++ seq a n) <-> exists m, In m ms /\ first_line m <= k <= last_line m;
  sf_first : exists m, In m ms /\ first_line m = a;
  sf_groups : Forall (fun g => exists a n, 0 < n /\ map Number g = map Z.of_nat (seq a n)) res }.

Lemma sorted_app : forall (l1 l2 : list nat), StronglySorted lt l1 -> StronglySorted lt l2 -> (forall x y, In x l1 -> In y l2 -> x < y) -> StronglySorted lt (l1 ++ l2).
Proof.
  induction l1 as [|x l1 IH]; intros l2 S1 S2 H; [exact S2|]. inversion S1; subst. cbn [app]. constructor.
  - apply IH; [assumption|assumption|]. intros; apply H; [right|]; assumption.
  - apply Forall_app. split; [assumption|]. apply Forall_forall. intros y I. apply H; [left; reflexivity|exact I].
Qed.
Lemma sorted_seq : forall n a, StronglySorted lt (seq a n).
Proof.
  induction n; intros a; cbn [seq]; constructor; [apply IHn|]. apply Forall_forall. intros y I. apply in_seq in I. lia.
Qed.
Lemma sorted_left : forall (l1 l2 : list nat), StronglySorted lt (l1 ++ l2) -> StronglySorted lt l1 /\ (forall x y, In x l1 -> In y l2 -> x < y).
Proof.
  induction l1 as [|x l1 IH]; intros l2 S; [split; [constructor|intros x y []]|]. cbn [app] in S. inversion S as [|? ? S1 F]; subst.
  apply Forall_app in F. destruct F as (F1 & F2). destruct (IH _ S1) as (A & B). split; [constructor; assumption|].
  intros u y [<-|I] J; [rewrite Forall_forall in F2; apply F2, J|apply B; assumption].
Qed.
Lemma row_numbers : forall ms a n, map Number (map (row_at ms) (seq a n)) = map Z.of_nat (seq a n).
Proof. intros. rewrite map_map. apply map_ext. reflexivity. Qed.
Lemma other_rows : forall ms m nums, (forall k, In k nums -> k < h_no m) -> map (row_at (ms ++ [m])) nums = map (row_at ms) nums.
Proof.
  intros ms m nums H. apply map_ext_in. intros k I. specialize (H k I). unfold row_at. f_equal. rewrite marked_app. unfold marked at 2. cbn [existsb].
  rewrite orb_false_r. destruct (Nat.eqb_spec (h_no m) k); [lia|apply orb_false_r].
Qed.

Lemma coalesce_rows : forall rest ms res a n nums, so_far ms res a n nums -> Forall (from_file file) (ms ++ rest) -> in_order (ms ++ rest) ->
  exists out nums', coalesce_from (map MatchToLines rest) res (Some (map (row_at ms) (seq a n))) = Some out /\
    concat out = map (row_at (ms ++ rest)) nums' /\ StronglySorted lt nums' /\
    (forall k, In k nums' <-> exists m, In m (ms ++ rest) /\ first_line m <= k <= last_line m) /\
    Forall (fun g => exists a n, 0 < n /\ map Number g = map Z.of_nat (seq a n)) out.
Proof.
  induction rest as [|m rest IH]; intros ms res a n nums [P R SO IN F G] FF OR.
  - exists (res ++ [map (row_at ms) (seq a n)]), (nums ++ seq a n). rewrite app_nil_r. split; [reflexivity|]. split.
    { rewrite concat_app, R, map_app. cbn [concat]. rewrite app_nil_r. reflexivity. }
    split; [exact SO|]. split; [exact IN|]. apply Forall_app. split; [exact G|]. constructor; [|constructor]. exists a, n. split; [exact P|apply row_numbers].
  - assert (FM : from_file file m) by (rewrite Forall_forall in FF; apply FF, in_elt).
    assert (OM : forall m', In m' ms -> h_no m' < h_no m /\ first_line m' <= first_line m).
    { clear - OR. unfold in_order in OR. intros m' I. apply in_split in I. destruct I as (l1 & l2 & ->). rewrite <- app_assoc in OR. cbn [app] in OR.
      induction l1 as [|x l1 IHl]; cbn [app] in OR; inversion OR as [|? ? S1 F]; subst; [|apply IHl, S1].
      rewrite Forall_forall in F. apply F. apply in_app_iff. right. left. reflexivity. }
    assert (LM : forall m', first_line m' <= h_no m' <= last_line m') by (intros m'; unfold first_line, last_line; lia).
    assert (OLD : forall m', In m' ms -> last_line m' <= a + n - 1).
    { intros m' I. assert (I' : In (last_line m') (nums ++ seq a n)) by (apply IN; exists m'; specialize (LM m'); split; [exact I|lia]).
      apply in_app_iff in I'. destruct I' as [I'|I']; [|apply in_seq in I'; lia]. destruct (sorted_left _ _ SO) as (_ & X).
      assert (last_line m' < a) by (apply X; [exact I'|apply in_seq; lia]). lia. }
    assert (BELOW : forall k, In k nums -> k < a) by (intros k I; destruct (sorted_left _ _ SO) as (_ & X); apply X; [exact I|apply in_seq; lia]).
    assert (AF : a <= first_line m) by (destruct F as (m' & I & <-); apply (OM m' I)).
    assert (HD : exists l, hd_error (MatchToLines m) = Some l /\ Number l = Z.of_nat (first_line m)).
    { rewrite (match_rows m FM). destruct (S (last_line m) - first_line m) as [|c] eqn:EC; [specialize (LM m); lia|].
      exists (row_at [m] (first_line m)). split; reflexivity. }
    destruct HD as (l0 & HD & NUM).
    cbn [map coalesce_from]. destruct (last_row ms a n P) as (l & ->). cbn [bind]. rewrite HD. cbn [bind]. rewrite NUM. cbn [row_at Number fst snd].
    replace (ms ++ m :: rest) with ((ms ++ [m]) ++ rest) in * by (rewrite <- app_assoc; reflexivity).
    destruct (Z.leb_spec (Z.of_nat (first_line m)) (Z.of_nat (a + n - 1))) as [LE|GT].
    + rewrite merge_match; [|exact P|exact FM|exact AF|lia|intros m' I; specialize (OLD m' I); specialize (LM m'); lia]. cbn [bind].
      apply (IH (ms ++ [m]) res a _ nums); [|exact FF|exact OR]. constructor.
      * lia.
      * rewrite R. symmetry. apply other_rows. intros k I. specialize (BELOW k I). specialize (LM m). lia.
      * apply sorted_app; [apply (sorted_left _ _ SO)|apply sorted_seq|]. intros x y I J. apply in_seq in J. specialize (BELOW x I). lia.
      * intros k. rewrite in_app_iff, in_seq. split.
        -- intros [I|I].
           ++ destruct (proj1 (IN k)) as (m' & I' & B); [apply in_app_iff; left; exact I|]. exists m'. split; [apply in_app_iff; left; exact I'|exact B].
           ++ destruct (Nat.lt_ge_cases k (a + n)) as [L|L].
              ** destruct (proj1 (IN k)) as (m' & I' & B); [apply in_app_iff; right; apply in_seq; lia|]. exists m'. split; [apply in_app_iff; left; exact I'|exact B].
              ** exists m. split; [apply in_elt|]. lia.
        -- intros (m' & I & B). apply in_app_iff in I. destruct I as [I|[<-|[]]].
           ++ assert (X : In k (nums ++ seq a n)) by (apply IN; eauto). apply in_app_iff in X. destruct X as [X|X]; [left; exact X|right; apply in_seq in X; lia].
           ++ right. lia.
      * destruct F as (m' & I & E). exists m'. split; [apply in_app_iff; left; exact I|exact E].
      * exact G.
    + assert (EM : MatchToLines m = map (row_at (ms ++ [m])) (seq (first_line m) (S (last_line m) - first_line m))).
      { rewrite (match_rows m FM). apply map_ext_in. intros k I. apply in_seq in I. unfold row_at. f_equal. rewrite marked_app. destruct (marked ms k) eqn:MK; [|reflexivity].
        apply existsb_exists in MK. destruct MK as (m' & I' & E). apply Nat.eqb_eq in E. specialize (OLD m' I'). specialize (LM m'). lia. }
      rewrite EM. apply (IH (ms ++ [m]) _ (first_line m) _ (nums ++ seq a n)); [|exact FF|exact OR]. constructor.
      * specialize (LM m). lia.
      * rewrite concat_app, R. cbn [concat]. rewrite app_nil_r, <- map_app. symmetry. apply other_rows. intros k I. specialize (LM m).
        apply in_app_iff in I. destruct I as [I|I]; [specialize (BELOW k I); lia|apply in_seq in I; lia].
      * apply sorted_app; [exact SO|apply sorted_seq|]. intros x y I J. apply in_seq in J. apply in_app_iff in I. destruct I as [I|I]; [specialize (BELOW x I); lia|apply in_seq in I; lia].
      * intros k. rewrite in_app_iff. split.
        -- intros [I|I]; [apply IN in I; destruct I as (m' & I' & B); exists m'; split; [apply in_app_iff; left; exact I'|exact B]|].
           exists m. split; [apply in_elt|]. apply in_seq in I. lia.
        -- intros (m' & I & B). apply in_app_iff in I. destruct I as [I|[<-|[]]]; [left; apply IN; eauto|right; apply in_seq; lia].
      * exists m. split; [apply in_elt|reflexivity].
      * apply Forall_app. split; [exact G|]. constructor; [|constructor]. exists a, n. split; [exact P|apply row_numbers].
Qed.
End File.

Theorem page_rows : forall file ms, Forall (from_file file) ms -> in_order ms ->
  exists gs, CoalesceMatches ms = Some gs /\ covers file ms (concat gs) /\ Forall consecutive gs.
Proof.
  intros file ms FF OR. unfold CoalesceMatches. destruct ms as [|m rest].
  - exists []. split; [reflexivity|]. split; [|constructor]. split; [constructor|]. split.
    + intros k. split; [intros (t & mk & [])|intros (m & [] & _)].
    + intros k t mk [].
  - assert (FM : from_file file m) by (inversion FF; assumption).
    assert (LM : first_line m <= h_no m <= last_line m) by (unfold first_line, last_line; lia).
    assert (SF : so_far file [m] [] (first_line m) (S (last_line m) - first_line m) []).
    { constructor; [lia|reflexivity|apply sorted_seq| | |constructor].
      - intros k. cbn [app]. rewrite in_seq. split; [intros B; exists m; split; [left; reflexivity|lia]|intros (m' & [<-|[]] & B); lia].
      - exists m. split; [left; reflexivity|reflexivity]. }
    destruct (coalesce_rows file rest [m] [] _ _ [] SF FF OR) as (out & nums & E & C & SO & IN & G).
    cbn [map coalesce_from bind]. pose proof (match_rows file m FM) as EM.
    assert (HD : exists l, hd_error (MatchToLines m) = Some l /\ Number l = Z.of_nat (first_line m)).
    { rewrite EM. destruct (S (last_line m) - first_line m) as [|c] eqn:EC; [lia|]. exists (row_at file [m] (first_line m)). split; reflexivity. }
    destruct HD as (l0 & HD & NUM). rewrite HD. cbn [bind]. rewrite NUM.
    destruct (Z.leb_spec (Z.of_nat (first_line m)) (-1)); [lia|]. rewrite EM. exists out. split; [exact E|].
    change ([m] ++ rest) with (m :: rest) in *. split.
    + rewrite C. split; [|split].
      * clear - SO. induction SO as [|k l S IH F]; cbn [map]; constructor; [exact IH|]. apply Forall_forall. intros r I. apply in_map_iff in I.
        destruct I as (j & <- & I). rewrite Forall_forall in F. specialize (F j I). cbn [row_at row_no fst]. lia.
      * intros k. split.
        -- intros (t & mk & I). apply in_map_iff in I. destruct I as (j & E' & I). unfold row_at in E'. assert (k = Z.of_nat j) by congruence. subst k.
           apply IN in I. destruct I as (m' & I & B). exists m'. split; [exact I|lia].
        -- intros (m' & I & B). assert (X : In (Z.to_nat k) nums) by (apply IN; exists m'; split; [exact I|lia]).
           exists (nth (Z.to_nat k - 1) file []), (marked (m :: rest) (Z.to_nat k)). apply in_map_iff. exists (Z.to_nat k). split; [|exact X]. unfold row_at. rewrite Z2Nat.id by lia. reflexivity.
      * intros k t mk I. apply in_map_iff in I. destruct I as (j & E' & I). unfold row_at in E'.
        assert (K : k = Z.of_nat j) by congruence. assert (T : t = nth (j - 1) file []) by congruence. assert (MK : mk = marked (m :: rest) j) by congruence. clear E'. subst k.
        apply IN in I. destruct I as (m' & I & B). rewrite Forall_forall in FF. destruct (FF m' I) as (L & NL & BF & AF). rewrite Nat2Z.id.
        split; [unfold first_line in B; lia|]. split.
        -- assert (X : exists t', nth_error file (j - 1) = Some t').
           { unfold first_line, last_line in *. destruct (Nat.lt_trichotomy j (h_no m')) as [X|[X|X]].
             - destruct (nth_error (h_before m') (j - (h_no m' - length (h_before m')))) as [t'|] eqn:E1; [|apply nth_error_None in E1; lia].
               apply BF in E1. exists t'. rewrite <- E1. f_equal. lia.
             - subst j. eauto.
             - destruct (nth_error (h_after m') (j - h_no m' - 1)) as [t'|] eqn:E1; [|apply nth_error_None in E1; lia].
               apply AF in E1. exists t'. rewrite <- E1. f_equal. lia. }
           destruct X as (t' & X). rewrite X, T. f_equal. symmetry. apply nth_error_nth, X.
        -- rewrite MK. unfold marked. rewrite existsb_exists. split; intros (m0 & I0 & E0); exists m0; (split; [exact I0|]); [apply Nat.eqb_eq in E0; lia|apply Nat.eqb_eq; lia].
    + eapply Forall_impl; [|exact G]. intros g (a & n & P & EN).
      assert (X : forall i r, nth_error g i = Some r -> row_no r = Z.of_nat (a + i)).
      { intros i r E1. assert (E2 : nth_error (map Number g) i = Some (Number r)) by (apply map_nth_error, E1). rewrite EN in E2.
        assert (L : i < n). { assert (i < length (map Z.of_nat (seq a n))) by (apply nth_error_Some; congruence). rewrite map_length, seq_length in *. assumption. }
        rewrite (map_nth_error Z.of_nat i (seq a n) (d := a + i)) in E2. 2: { rewrite (nth_error_nth' _ 0) by (rewrite seq_length; exact L). rewrite seq_nth by exact L. reflexivity. }
        change (row_no r) with (Number r). congruence. }
      split; [intros ->; destruct n; [lia|discriminate]|]. intros i r E1. rewrite (X i r E1). destruct g as [|r0 g]; [destruct i; discriminate|].
      cbn [hd]. rewrite (X 0 r0 eq_refl). lia.
Qed.
