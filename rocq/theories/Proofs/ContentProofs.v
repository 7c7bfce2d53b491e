(** The html of a line shows the line. *)
From Verif Require Import Model.Base Model.PageView Spec.PresentSpec Spec.ViewSpec Proofs.StrLemmas.
From Coq Require Import Lia.
Local Open Scope N_scope.

Lemma shown_det : forall b s t, shown b s t -> forall t', shown b s t' -> t' = t.
Proof.
  induction 1; intros t' H'; inversion H'; subst; cbn [app] in *; try congruence; try (f_equal; apply IHshown; assumption); try (apply IHshown; assumption);
  try (match goal with X : _ :: _ = _ :: _ |- _ => injection X as; subst end; try congruence; try (f_equal; apply IHshown; assumption); try (apply IHshown; assumption)).
Qed.

(** A piece of html that is characters only. *)
Definition flagged (b : bool) (s : str) : list (N * bool) := map (fun c => (as_shown c, b)) s.
Lemma escape_shown : forall s b rest t, Forall (fun c => c <> 0 /\ c <> 10) s -> hd 0 rest <> 10 -> shown b rest t ->
  shown b (EscapeHtml s ++ rest) (flagged b s ++ t) /\ hd 0 (EscapeHtml s ++ rest) <> 10.
Proof.
  induction s as [|c s IH]; intros b rest t F HR H; [split; assumption|]. inversion F as [|? ? (N0 & N10) F']; subst.
  destruct (IH b rest t F' HR H) as (A & B). cbn [EscapeHtml flagged map]. rewrite <- app_assoc. unfold as_shown.
  destruct (N.eqb_spec c 38) as [->|N38]; [split; [apply sh_amp, A|discriminate]|].
  destruct (N.eqb_spec c 0xA0) as [->|NBS]; [split; [apply sh_nbsp, A|discriminate]|].
  destruct (N.eqb_spec c 60) as [->|N60]; [split; [apply sh_lt, A|discriminate]|].
  destruct (N.eqb_spec c 62) as [->|N62]; [split; [apply sh_gt, A|discriminate]|].
  cbn [app]. destruct (N.eqb_spec c 13) as [->|N13]; [split; [apply sh_cr; assumption|discriminate]|].
  split; [apply sh_char; assumption|exact N10].
Qed.

Local Open Scope nat_scope.
Section Loop.
Variable exec : str -> option (nat * nat).
Hypothesis EX : forall s i j, exec s = Some (i, j) -> i <= j <= length s.

Lemma Forall_firstn' : forall {A} (P : A -> Prop) n l, Forall P l -> Forall P (firstn n l).
Proof. induction n; intros [|x l] F; cbn [firstn]; constructor; inversion F; auto. Qed.
Lemma Forall_skipn' : forall {A} (P : A -> Prop) n l, Forall P l -> Forall P (skipn n l).
Proof. induction n; intros [|x l] F; cbn [skipn]; auto. inversion F; auto. Qed.

Lemma loop_shown : forall fuel s html, Forall (fun c => c <> 0 /\ c <> 10)%N s -> content_loop fuel exec s = Some html ->
  exists cs, shown false html cs /\ map fst cs = map as_shown s /\ hd 0%N html <> 10%N.
Proof.
  induction fuel as [|fuel IH]; intros s html F E; [discriminate|]. cbn [content_loop] in E. destruct (exec s) as [[i j]|] eqn:EE.
  - destruct (content_loop fuel exec (skipn j s)) as [rest|] eqn:ER; [|discriminate]. cbn [bind] in E. injection E as <-.
    destruct (IH _ _ (Forall_skipn' _ j s F) ER) as (cs & A & B & C). apply EX in EE.
    set (mid := firstn (j - i) (skipn i s)).
    assert (SH : shown true (EscapeHtml mid ++ end_em ++ rest) (flagged true mid ++ cs)).
    { apply escape_shown; [apply Forall_firstn', Forall_skipn', F|discriminate|apply sh_end_em, A]. }
    destruct (escape_shown (firstn i s) false (em ++ EscapeHtml mid ++ end_em ++ rest) (flagged true mid ++ cs)) as (A1 & B1);
      [apply Forall_firstn', F|discriminate|apply sh_em, SH|].
    exists (flagged false (firstn i s) ++ flagged true mid ++ cs). rewrite <- !app_assoc. split; [exact A1|]. split; [|exact B1].
    rewrite !map_app, B. unfold flagged. rewrite !map_map. cbn [fst]. rewrite <- !map_app. f_equal. unfold mid.
    replace (skipn j s) with (skipn (j - i) (skipn i s)); [rewrite (firstn_skipn (j - i)); apply firstn_skipn|].
    clear - EE. destruct EE as (L & _). revert j L. induction i as [|i IHi] in s |- *; intros j L; [rewrite Nat.sub_0_r; reflexivity|].
    destruct j as [|j]; [lia|]. destruct s as [|c s]; [rewrite !skipn_nil; reflexivity|]. cbn [skipn Nat.sub]. apply IHi. lia.
  - injection E as <-. destruct (escape_shown s false [] [] F) as (A & B); [discriminate|constructor|]. rewrite !app_nil_r in *.
    exists (flagged false s). split; [exact A|]. split; [|exact B]. unfold flagged. rewrite map_map. reflexivity.
Qed.

Lemma loop_ends : (forall s i j, exec s = Some (i, j) -> i < j) -> forall fuel s, length s < fuel -> exists html, content_loop fuel exec s = Some html.
Proof.
  intros NE. induction fuel as [|fuel IH]; intros s L; [lia|]. cbn [content_loop]. destruct (exec s) as [[i j]|] eqn:EE; [|eauto].
  pose proof (NE _ _ _ EE). apply EX in EE. destruct (IH (skipn j s)) as (r & ->); [rewrite skipn_length; lia|]. cbn [bind]. eauto.
Qed.

(** What is emphasised. *)
Lemma emphasised_app : forall cs1 cs2 st, emphasised cs2 st -> forall a b, a <= b -> b <= length cs1 ->
  (forall p c f, nth_error cs1 p = Some (c, f) -> (f = true <-> a <= p < b)) ->
  emphasised (cs1 ++ cs2) ((a, b) :: map (fun '(i, j) => (length cs1 + i, length cs1 + j)) st).
Proof.
  intros cs1 cs2 st H a b L1 L2 P p c f E. destruct (Nat.lt_ge_cases p (length cs1)) as [L|L].
  - rewrite nth_error_app1 in E by exact L. rewrite (P _ _ _ E). split.
    + intros B. exists a, b. split; [left; reflexivity|exact B].
    + intros (i & j & [I|I] & B); [injection I as <- <-; exact B|]. apply in_map_iff in I. destruct I as ((i' & j') & E' & _). injection E' as <- <-. lia.
  - rewrite nth_error_app2 in E by exact L. rewrite (H _ _ _ E). split.
    + intros (i & j & I & B). exists (length cs1 + i), (length cs1 + j). split; [right; apply in_map_iff; exists (i, j); auto|lia].
    + intros (i & j & [I|I] & B); [injection I as <- <-; lia|]. apply in_map_iff in I. destruct I as ((i' & j') & E' & I). injection E' as <- <-.
      exists i', j'. split; [exact I|lia].
Qed.
End Loop.

Lemma shift_matches : forall at_ (at' : nat -> nat -> Prop) k0, (forall i j, at_ i j <-> at' (k0 + i) (k0 + j)) -> forall k st, all_matches at_ k st ->
  (forall i j, at' i j -> i <= j) -> all_matches at' (k0 + k) (map (fun '(i, j) => (k0 + i, k0 + j)) st).
Proof.
  intros at_ at' k0 H k st AM OK. induction AM as [k NO|k i j st L LT A NO AM IH]; cbn [map].
  - constructor. intros i j L A. specialize (OK _ _ A). apply (NO (i - k0) (j - k0)); [lia|]. apply H. replace (k0 + (i - k0)) with i by lia. replace (k0 + (j - k0)) with j by lia. exact A.
  - constructor; [lia|lia|apply H, A| |exact IH]. intros i' j' B A'. specialize (OK _ _ A'). apply (NO (i' - k0) (j' - k0)); [lia|]. apply H.
    replace (k0 + (i' - k0)) with i' by lia. replace (k0 + (j' - k0)) with j' by lia. exact A'.
Qed.

Theorem loop_marks : forall at_ exec, finds at_ exec -> context_free at_ -> (forall s i j, at_ s i j -> i < j) ->
  forall fuel s html, Forall (fun c => c <> 0 /\ c <> 10)%N s -> content_loop fuel exec s = Some html ->
  exists cs st, shown false html cs /\ map fst cs = map as_shown s /\ all_matches (at_ s) 0 st /\ emphasised cs st.
Proof.
  intros at_ exec FI CF NE.
  assert (EX : forall s i j, exec s = Some (i, j) -> i <= j <= length s) by (intros s i j E; specialize (FI s); rewrite E in FI; apply FI).
  assert (X : forall fuel s html, Forall (fun c => c <> 0 /\ c <> 10)%N s -> content_loop fuel exec s = Some html ->
    exists cs st, shown false html cs /\ map fst cs = map as_shown s /\ all_matches (at_ s) 0 st /\ emphasised cs st /\ hd 0%N html <> 10%N).
  2: { intros fuel s html F E. destruct (X fuel s html F E) as (cs & st & A & B & C & D & _). exists cs, st. auto. }
  induction fuel as [|fuel IH]; intros s html F E; [discriminate|]. cbn [content_loop] in E. pose proof (FI s) as FS. destruct (exec s) as [[i j]|] eqn:EE.
  - destruct (content_loop fuel exec (skipn j s)) as [rest|] eqn:ER; [|discriminate]. cbn [bind] in E. injection E as <-.
    destruct (IH _ _ (Forall_skipn' _ j s F) ER) as (cs & st & A & B & AM & EM & C). destruct FS as (L & AT & FIRST).
    set (mid := firstn (j - i) (skipn i s)).
    assert (SH : shown true (EscapeHtml mid ++ end_em ++ rest) (flagged true mid ++ cs)).
    { apply escape_shown; [apply Forall_firstn', Forall_skipn', F|discriminate|apply sh_end_em, A]. }
    destruct (escape_shown (firstn i s) false (em ++ EscapeHtml mid ++ end_em ++ rest) (flagged true mid ++ cs)) as (A1 & B1);
      [apply Forall_firstn', F|discriminate|apply sh_em, SH|].
    assert (LM : length mid = j - i) by (unfold mid; rewrite firstn_length, skipn_length; lia).
    assert (LC : length (flagged false (firstn i s) ++ flagged true mid) = j).
    { unfold flagged. rewrite app_length, !map_length, firstn_length. lia. }
    exists (flagged false (firstn i s) ++ flagged true mid ++ cs), ((i, j) :: map (fun '(u, v) => (j + u, j + v)) st).
    rewrite <- !app_assoc. split; [exact A1|]. split; [|split; [|split; [|exact B1]]].
    + rewrite !map_app, B. unfold flagged. rewrite !map_map. cbn [fst]. rewrite <- !map_app. f_equal. unfold mid.
      replace (skipn j s) with (skipn (j - i) (skipn i s)); [rewrite (firstn_skipn (j - i)); apply firstn_skipn|].
      clear - L. destruct L as (L & _). revert j L. induction i as [|i IHi] in s |- *; intros j L; [rewrite Nat.sub_0_r; reflexivity|].
      destruct j as [|j]; [lia|]. destruct s as [|c s]; [rewrite !skipn_nil; reflexivity|]. cbn [skipn Nat.sub]. apply IHi. lia.
    + constructor; [lia|apply (NE s), AT|exact AT|intros i' j' Bd; apply FIRST; lia|].
      replace j with (j + 0) at 1 by lia. apply (shift_matches (at_ (skipn j s))); [intros u v; apply CF; lia|exact AM|intros u v AT'; specialize (NE _ _ _ AT'); lia].
    + rewrite app_assoc. pose proof (emphasised_app (flagged false (firstn i s) ++ flagged true mid) cs st EM i j) as Q. rewrite LC in Q. apply Q; [lia|lia|]. clear Q.
      intros p c f E. destruct (Nat.lt_ge_cases p i) as [Lp|Lp].
      * rewrite nth_error_app1 in E by (unfold flagged; rewrite map_length, firstn_length; lia). apply nth_error_In, in_map_iff in E. destruct E as (x & E & _).
        injection E as _ <-. split; [discriminate|lia].
      * assert (p < j). { rewrite <- LC. apply nth_error_Some. congruence. }
        rewrite nth_error_app2 in E by (unfold flagged; rewrite map_length, firstn_length; lia). apply nth_error_In, in_map_iff in E. destruct E as (x & E & _).
        injection E as _ <-. split; [lia|reflexivity].
  - injection E as <-. destruct (escape_shown s false [] [] F) as (A & B); [discriminate|constructor|]. rewrite !app_nil_r in *.
    exists (flagged false s), []. split; [exact A|]. split; [unfold flagged; rewrite map_map; reflexivity|]. split; [constructor; intros i j _; apply FS|]. split; [|exact B].
    intros p c f E. apply nth_error_In, in_map_iff in E. destruct E as (x & E & _). injection E as _ <-. split; [discriminate|intros (i & j & [] & _)].
Qed.

(** A text as the expression. *)
Lemma occurs_context_free : forall q, context_free (occurs q).
Proof.
  intros q s k i j L. unfold occurs. rewrite skipn_length.
  assert (E : skipn i (skipn k s) = skipn (k + i) s).
  { clear. revert s. induction k as [|k IH]; intros s; [reflexivity|]. destruct s as [|c s]; [rewrite !skipn_nil; reflexivity|]. cbn [skipn Nat.add]. apply IH. }
  rewrite E. intuition lia.
Qed.
Lemma occurs_some : forall q, q <> [] -> forall s i j, occurs q s i j -> i < j.
Proof. intros [|c q] NE s i j (E & _); [congruence|]. cbn [length] in E. lia. Qed.

Definition here (q s : str) : bool := str_eqb (firstn (length q) s) q.
Fixpoint first_from (q s : str) (i : nat) : option (nat * nat) :=
  if here q s then Some (i, i + length q)
  else match s with [] => None | _ :: s' => first_from q s' (S i) end.

Lemma here_spec : forall q s, here q s = true <-> occurs q s 0 (length q).
Proof.
  intros q s. unfold here, occurs. rewrite str_eqb_eq. cbn [skipn Nat.add]. split.
  - intros E. repeat split; [|exact E]. rewrite <- E at 1. rewrite firstn_length. lia.
  - intros (_ & _ & E). exact E.
Qed.
Lemma occurs_cons : forall q c s i j, occurs q (c :: s) (S i) (S j) <-> occurs q s i j.
Proof. intros. unfold occurs. cbn [skipn length]. intuition lia. Qed.
Lemma first_from_spec : forall q s i, match first_from q s i with
  | Some (a, b) => exists d, a = i + d /\ b = i + d + length q /\ occurs q s d (d + length q) /\ forall d' j, d' < d -> ~ occurs q s d' j
  | None => forall d j, ~ occurs q s d j
  end.
Proof.
  intros q. induction s as [|c s IH]; intros i; cbn [first_from]; destruct (here q _) eqn:H.
  - apply here_spec in H. exists 0. repeat split; try lia; [apply H|]. apply H.
  - intros d j (E & L & F). cbn [length] in L. assert (q = []) by (destruct q; [reflexivity|cbn [length] in *; lia]). subst q. discriminate.
  - apply here_spec in H. exists 0. repeat split; try lia; [apply H|]. apply H.
  - assert (N0 : forall j, ~ occurs q (c :: s) 0 j).
    { intros j (E & L & F). assert (here q (c :: s) = true); [|congruence]. apply here_spec. subst j. repeat split; assumption. }
    specialize (IH (S i)). destruct (first_from q s (S i)) as [[a b]|].
    + destruct IH as (d & E1 & E2 & O & FI). exists (S d). split; [lia|]. split; [lia|]. split; [exact (proj2 (occurs_cons q c s d (d + length q)) O)|].
      intros [|d'] j L O'; [apply (N0 j O')|]. destruct j as [|j]; [destruct O' as (E & _); lia|]. apply (proj1 (occurs_cons _ _ _ _ _)) in O'. apply (FI d' j); [lia|exact O'].
    + intros [|d] j O; [apply (N0 j O)|]. destruct j as [|j]; [destruct O as (E & _); lia|]. apply (proj1 (occurs_cons _ _ _ _ _)) in O. apply (IH d j O).
Qed.
Definition exec_text (q s : str) : option (nat * nat) := first_from q s 0.
Lemma exec_text_finds : forall q, finds (occurs q) (exec_text q).
Proof.
  intros q s. pose proof (first_from_spec q s 0) as H. unfold exec_text. destruct (first_from q s 0) as [[a b]|]; [|exact H].
  destruct H as (d & -> & -> & O & FI). cbn [Nat.add]. split; [destruct O as (_ & L & _); lia|]. split; [exact O|intros i' j' L; apply FI; exact L].
Qed.

(** EscapeRegExp *)
Local Open Scope N_scope.
Lemma syntax_escaped : forall c, syntax_character c -> escaped_class c = true.
Proof. intros c H. unfold syntax_character in H. cbn [In] in H. repeat (destruct H as [<-|H]; [reflexivity|]). contradiction. Qed.
Lemma escaped_ok : forall c, escaped_class c = true -> syntax_character c \/ ~ identifier_part c.
Proof.
  intros c H. unfold escaped_class in H. apply orb_prop in H. destruct H as [H|H].
  - apply existsb_exists in H. destruct H as (x & I & E). apply N.eqb_eq in E. subst x.
    assert (D : c = 36 \/ ~ identifier_part c).
    { cbn [In] in I. unfold identifier_part. repeat (destruct I as [<-|I]; [first [left; reflexivity|right; lia]|]). contradiction. }
    destruct D as [->|D]; [left; unfold syntax_character; cbn [In]; tauto|right; exact D].
  - right. unfold js_space in H. rewrite !orb_true_iff, !andb_true_iff, !N.leb_le, !N.eqb_eq in H. unfold identifier_part. lia.
Qed.
Lemma escape_characters : forall q, characters (EscapeRegExp q) q.
Proof.
  induction q as [|c q IH]; [constructor|]. cbn [EscapeRegExp flat_map]. fold (EscapeRegExp q). destruct (escaped_class c) eqn:E; cbn [app].
  - destruct (escaped_ok c E); [apply cs_syntax|apply cs_identity]; assumption.
  - apply cs_plain; [|exact IH]. intros S. apply syntax_escaped in S. congruence.
Qed.
Lemma characters_det : forall p q, characters p q -> forall q', characters p q' -> q' = q.
Proof.
  induction 1 as [|c p q NS H IH|c p q S H IH|c p q NI H IH]; intros q' H'; inversion H'; subst; try reflexivity; try (f_equal; apply IH; assumption).
  all: exfalso; match goal with X : ~ syntax_character 92 |- _ => apply X; unfold syntax_character; cbn [In]; tauto end.
Qed.
