(** C76: the html of a line on the page. [exec] is the browser's expression; a line holds no
    newline and, here, no NUL. *)
From Verif Require Import Model.Base Model.PageView Spec.PresentSpec Spec.ViewSpec Proofs.ContentProofs.
Local Open Scope nat_scope.
Definition line_text (s : str) : Prop := Forall (fun c => c <> 0 /\ c <> 10)%N s.

(** Html shows one thing. *)
Theorem C76_reading : forall b s t, shown b s t -> forall t', shown b s t' -> t' = t.
Proof. exact shown_det. Qed.
Print Assumptions C76_reading.

(** Whatever the line holds, and whatever the expression finds: the characters of the line
    are shown, and nothing else; a line that is context has nothing emphasised. *)
Theorem C76_text_partial : forall exec fuel n s mark html, line_text s ->
  (forall s i j, exec s = Some (i, j) -> i <= j <= length s) ->
  ContentFor fuel exec (n, s, mark) = Some html ->
  exists cs, shown false html cs /\ map fst cs = map as_shown s /\ (mark = false -> Forall (fun c => snd c = false) cs).
Proof.
  intros exec fuel n s mark html F EX E. unfold ContentFor in E. cbn [Match fst snd] in E. destruct mark; cbn [negb] in E.
  - destruct (loop_shown exec EX fuel s html F E) as (cs & A & B & _). exists cs. split; [exact A|]. split; [exact B|discriminate].
  - assert (html = EscapeHtml s) by congruence. subst html. destruct (escape_shown s false [] [] F) as (A & _); [discriminate|constructor|]. rewrite !app_nil_r in A.
    exists (flagged false s). split; [exact A|]. split; [unfold flagged; rewrite map_map; reflexivity|]. intros _. unfold flagged.
    apply Forall_forall. intros c I. apply in_map_iff in I. destruct I as (x & <- & _). reflexivity.
Qed.
Print Assumptions C76_text_partial.

(** It is done if the expression finds nothing empty. *)
Theorem C76_ends_partial : forall exec n s mark, (forall s i j, exec s = Some (i, j) -> i < j <= length s) ->
  exists html, forall fuel, length s < fuel -> ContentFor fuel exec (n, s, mark) = Some html.
Proof.
  intros exec n s mark EX. unfold ContentFor. cbn [Match fst snd]. destruct mark; cbn [negb]; [|eauto].
  assert (EX1 : forall s i j, exec s = Some (i, j) -> i <= j <= length s) by (intros s0 i j E; specialize (EX s0 i j E); lia).
  assert (EX2 : forall s i j, exec s = Some (i, j) -> i < j) by (intros s0 i j E; specialize (EX s0 i j E); lia).
  destruct (loop_ends exec EX1 EX2 (S (length s)) s (Nat.lt_succ_diag_r _)) as (html & E). exists html.
  intros fuel L. destruct (loop_ends exec EX1 EX2 fuel s L) as (html' & E'). rewrite E'.
  cut (forall f f' c h h', content_loop f exec c = Some h -> content_loop f' exec c = Some h' -> h = h'); [intros X; f_equal; exact (X _ _ _ _ _ E' E)|]. clear.
  induction f as [|f IH]; intros f' c h h' H H'; [discriminate|]. destruct f' as [|f']; [discriminate|]. cbn [content_loop] in H, H'.
  destruct (exec c) as [[i j]|]; [|congruence].
  destruct (content_loop f exec (skipn j c)) as [r|] eqn:R; [|discriminate]. destruct (content_loop f' exec (skipn j c)) as [r'|] eqn:R'; [|discriminate].
  cbn [bind] in *. rewrite (IH _ _ _ _ R R') in H. congruence.
Qed.
Print Assumptions C76_ends_partial.

(** What is emphasised on a marked line is the matches of the line, from left to right, for
    expressions whose matches do not depend on what is before them. *)
Theorem C76_marks_partial : forall at_ exec fuel n s html, line_text s ->
  finds at_ exec -> context_free at_ -> (forall s i j, at_ s i j -> i < j) ->
  ContentFor fuel exec (n, s, true) = Some html ->
  exists cs st, shown false html cs /\ map fst cs = map as_shown s /\ all_matches (at_ s) 0 st /\ emphasised cs st.
Proof. intros at_ exec fuel n s html F FI CF NE E. exact (loop_marks at_ exec FI CF NE fuel s html F E). Qed.
Print Assumptions C76_marks_partial.

(** The expression for a text that is taken literally: it is read as that text, whatever
    characters it has, and its occurrences are emphasised. *)
Theorem C76_literal : forall q exec n s, q <> [] -> line_text s ->
  (exists p, characters (EscapeRegExp q) p) /\
  forall p, characters (EscapeRegExp q) p -> p = q /\ (finds (occurs p) exec ->
  exists html cs st, ContentFor (S (length s)) exec (n, s, true) = Some html /\
    shown false html cs /\ map fst cs = map as_shown s /\ all_matches (occurs q s) 0 st /\ emphasised cs st).
Proof.
  intros q exec n s NE F. split; [exists q; apply escape_characters|]. intros p C. assert (p = q) by exact (characters_det _ _ (escape_characters q) _ C). subst p.
  split; [reflexivity|]. intros FI.
  destruct (C76_ends_partial exec n s true) as (html & E).
  { intros s0 i j EE. specialize (FI s0). rewrite EE in FI. destruct FI as (A & B & _). split; [apply (occurs_some q NE s0 i j B)|lia]. }
  specialize (E (S (length s)) (Nat.lt_succ_diag_r _)).
  destruct (C76_marks_partial (occurs q) exec _ n s html F FI (occurs_context_free q) (occurs_some q NE) E) as (cs & st & A & B & AM & EM).
  exists html, cs, st. auto.
Qed.
Print Assumptions C76_literal.

(** The query a*, a line found by it that is not all a: the page never finishes. *)
Fixpoint leading (s : str) : nat := match s with 97%N :: r => S (leading r) | _ => 0 end.
Definition star_a (s : str) (i j : nat) : Prop := i <= length s /\ j = i + leading (skipn i s).
Theorem C76_empty_match_refuted : exists at_ exec s, finds at_ exec /\ context_free at_ /\ line_text s /\
  (exists i j, at_ s i j) /\ forall fuel n, ContentFor fuel exec (n, s, true) = None.
Proof.
  exists star_a, (fun s => Some (0, leading s)), [97; 98]%N.
  assert (LL : forall s, leading s <= length s).
  { induction s as [|c s IH]; [reflexivity|]. cbn [length]. unfold leading. repeat (case c as [|c] || (destruct c as [c|c|]); try lia). fold (leading s). lia. }
  split; [|split; [|split; [|split]]].
  - intros s. split; [pose proof (LL s); lia|]. split; [split; [lia|reflexivity]|lia].
  - intros s k i j L. unfold star_a. rewrite skipn_length.
    assert (E : skipn i (skipn k s) = skipn (k + i) s).
    { clear. revert s. induction k as [|k IH]; intros s; [reflexivity|]. destruct s as [|c s]; [rewrite !skipn_nil; reflexivity|]. cbn [skipn Nat.add]. apply IH. }
    rewrite E. intuition lia.
  - repeat constructor; discriminate.
  - exists 0, 1. split; [cbn; lia|reflexivity].
  - assert (B : forall fuel, content_loop fuel (fun s => Some (0, leading s)) [98%N] = None).
    { induction fuel as [|fuel IH]; [reflexivity|]. cbn [content_loop]. cbn [leading skipn]. rewrite IH. reflexivity. }
    intros fuel n. unfold ContentFor. cbn [Match fst snd negb]. destruct fuel as [|fuel]; [reflexivity|]. cbn [content_loop leading skipn]. rewrite B. reflexivity.
Qed.
Print Assumptions C76_empty_match_refuted.

(** The query ^a: the second a of the line is emphasised, though it is no match. *)
Definition start_a (s : str) (i j : nat) : Prop := i = 0 /\ j = 1 /\ exists r, s = 97%N :: r.
Theorem C76_anchor_refuted : exists at_ exec s html cs, finds at_ exec /\ (forall s i j, at_ s i j -> i < j) /\ line_text s /\
  ContentFor (S (length s)) exec (1%Z, s, true) = Some html /\ shown false html cs /\ 
  forall st, all_matches (at_ s) 0 st -> ~ emphasised cs st.
Proof.
  exists start_a, (fun s => match s with 97%N :: _ => Some (0, 1) | _ => None end), [97; 97]%N.
  eexists. exists [(97%N, true); (97%N, true)]. split; [|split; [|split; [|split; [vm_compute; reflexivity|split]]]].
  - intros s. destruct s as [|c s]; [intros i j (_ & _ & r & X); discriminate|].
    destruct (N.eq_dec c 97) as [->|NE].
    + split; [cbn [length]; lia|]. split; [repeat split; eauto|lia].
    + assert (X : forall i j, ~ start_a (c :: s) i j) by (intros i j (_ & _ & r & Y); congruence).
      destruct c as [|c]; [exact X|]. repeat (destruct c as [c|c|]; try exact X). congruence.
  - intros s i j (-> & -> & _). lia.
  - repeat constructor; discriminate.
  - apply (sh_em ([97] ++ [60; 47; 101; 109; 62] ++ [60; 101; 109; 62] ++ [97] ++ [60; 47; 101; 109; 62])%N).
    apply sh_char; try discriminate. apply sh_end_em. apply (sh_em ([97] ++ [60; 47; 101; 109; 62])%N). apply sh_char; try discriminate. apply sh_end_em. constructor.
  - intros st AM EM. destruct (proj1 (EM 1 97%N true eq_refl) eq_refl) as (i & j & I & B).
    inversion AM as [|k i1 j1 st' L LT (E1 & E2 & _) NO AM']; subst; [destruct I|]. destruct I as [I|I]; [injection I as <- <-; lia|].
    inversion AM' as [|k i2 j2 st'' L' LT' (E1' & _) _ _]; subst; [destruct I|lia].
Qed.
Print Assumptions C76_anchor_refuted.

(** The query "a.<" taken literally, on the line "b a.< & a.<". *)
Example C76_example :
  EscapeRegExp [97; 46; 60]%N = [97; 92; 46; 92; 60]%N /\ finds (occurs [97; 46; 60]%N) (exec_text [97; 46; 60]%N) /\
  ContentFor 12 (exec_text [97; 46; 60]%N) (3%Z, [98; 32; 97; 46; 60; 32; 38; 32; 97; 46; 60]%N, true) =
  Some ([98; 32; 60; 101; 109; 62; 97; 46; 38; 108; 116; 59; 60; 47; 101; 109; 62; 32; 38; 97; 109; 112; 59; 32;
         60; 101; 109; 62; 97; 46; 38; 108; 116; 59; 60; 47; 101; 109; 62])%N.
Proof. split; [reflexivity|]. split; [apply exec_text_finds|reflexivity]. Qed.
