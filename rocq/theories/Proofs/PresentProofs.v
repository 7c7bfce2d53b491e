(** What the command line client writes. *)
From Verif Require Import Model.Base Model.GoFmt Model.Config Model.Grep Model.Client Model.Present
  Spec.ApiSpec Spec.ClientSpec Spec.PresentSpec
  Proofs.FmtProofs Proofs.ClientProofs Proofs.HiliteProofs.
From Coq Require Import Lia Sorted.
Local Open Scope nat_scope.

(** Writing the pieces [l] one after the other. *)
Fixpoint walk (fails : list str -> str -> bool) (o l : list str) : list str * status :=
  match l with
  | [] => (o, Done)
  | x :: r => if fails o x then (o, Failed) else walk fails (o ++ [x]) r
  end.
Lemma walk_app : forall fails l l' o, walk fails o (l ++ l') =
  match walk fails o l with (o', Done) => walk fails o' l' | r => r end.
Proof.
  induction l as [|x l IH]; intros l' o; [reflexivity|]. cbn [app walk].
  destruct (fails o x); [reflexivity|apply IH].
Qed.

(** An action that writes [l], whatever fails, and leaves the buffer empty. *)
Definition emits (m : (list str -> str -> bool) -> act) (l : list str) : Prop :=
  forall fails o, exists b, m fails (mkP o []) = (mkP (fst (walk fails o l)) b, snd (walk fails o l)) /\
    (snd (walk fails o l) = Done -> b = []).

Lemma emits_done : emits (fun _ => done) [].
Proof. intros fails o. exists []. split; reflexivity. Qed.
Lemma emits_emit : forall s, emits (fun f => emit f s) [s].
Proof.
  intros s fails o. exists []. unfold emit. cbn [p_out p_buf walk].
  destruct (fails o s); split; reflexivity.
Qed.
Lemma emits_then : forall a b l l', emits a l -> emits b l' -> emits (fun f => andthen (a f) (b f)) (l ++ l').
Proof.
  intros a b l l' A B fails o. destruct (A fails o) as (x & E & X). unfold andthen. rewrite E, walk_app.
  destruct (walk fails o l) as [o' []]; cbn [fst snd] in *.
  - rewrite (X eq_refl). apply B.
  - exists x. split; [reflexivity|discriminate].
  - exists x. split; [reflexivity|discriminate].
Qed.
Lemma emits_each : forall {A} (f : A -> (list str -> str -> bool) -> act) xs ls,
  Forall2 (fun x l => emits (f x) l) xs ls -> emits (fun fl => each (fun x => f x fl) xs) (concat ls).
Proof.
  intros A f xs ls F. induction F as [|x l xs ls X F IH]; cbn [each concat]; [apply emits_done|].
  apply emits_then; assumption.
Qed.

(** Colours *)
Lemma fg_coloured : forall en s c st, (c < 900)%N -> coloured s (Fg en s c st).
Proof.
  intros [] s c st L; [|apply coloured_refl]. unfold Fg.
  destruct (FgBg_around s c st Colorless Normal L) as (q & Q & ->); [unfold Colorless; lia|].
  apply col_seq; [exact Q|].
  replace s with (s ++ []) at 1 by apply app_nil_r.
  apply coloured_app; [apply coloured_refl|].
  replace reset with (reset ++ []) by apply app_nil_r. apply col_seq; [apply reset_seq|constructor].
Qed.

Section Pieces.
  Variables (en : bool) (find : str -> list (nat * nat)).
  Hypothesis POS : forall t, positions 0 (length t) (find t).

  (** One piece for each row. *)
  Lemma line_piece : forall n (hm : bool) line, (0 <= n)%Z -> exists txt s,
    (if hm then hiliteMatches en (find line) line else Some line) = Some txt /\
    fst (lineNumber en [] n hm) ++ txt ++ [10%N] = s /\
    exists plain, row_text (n, line, hm) plain /\ coloured plain s.
  Proof.
    intros n hm line NN.
    assert (T : exists txt, (if hm then hiliteMatches en (find line) line else Some line) = Some txt /\ coloured line txt).
    { destruct hm; [apply hilite_inserts, POS|]. exists line. split; [reflexivity|apply coloured_refl]. }
    destruct T as (txt & E & C). exists txt. eexists. split; [exact E|]. split; [reflexivity|].
    destruct (fmt_uint_ok (Z.to_N n)) as [D Z].
    exists (fmt_uint (Z.to_N n) ++ [if hm then 58%N else 45%N] ++ repeat 32%N (6 - length (fmt_uint (Z.to_N n))) ++ line ++ [10%N]).
    split.
    - exists (fmt_uint (Z.to_N n)). split; [exact D|]. split; [exact Z|reflexivity].
    - unfold lineNumber. cbn [fst]. rewrite fmt_d_pos by exact NN. rewrite (app_nil_l (Fg _ _ _ _)).
      rewrite <- !app_assoc.
      apply coloured_app; [apply fg_coloured; unfold Yellow; lia|].
      apply (coloured_app [_] [_]); [apply coloured_refl|]. apply coloured_app; [apply coloured_refl|].
      apply coloured_app; [exact C|apply coloured_refl].
  Qed.

  Definition good_pieces (rs : list row) (l : list str) : Prop :=
    exists ps, Forall2 row_text rs ps /\ coloured (concat ps) (concat l).

  Lemma lines_emit : forall b lines marks i, (0 <= b_start b)%Z ->
    skipn i (b_matches b) = marks -> length marks = length lines -> exists l,
      emits (fun f => present_lines en find f b lines i) l /\
      good_pieces (rows_from (b_start b + Z.of_nat i) lines marks) l.
  Proof.
    intros b lines. induction lines as [|line lines IH]; intros marks i ST SK LN.
    - exists []. split; [apply emits_done|]. destruct marks; [|discriminate].
      exists []. split; [apply Forall2_nil|constructor].
    - destruct marks as [|hm marks]; [discriminate|].
      assert (NE : nth_error (b_matches b) i = Some hm).
      { rewrite <- (firstn_skipn i (b_matches b)), SK.
        assert (LI : i <= length (b_matches b)).
        { destruct (Nat.le_gt_cases i (length (b_matches b))); [assumption|].
          rewrite skipn_all2 in SK by lia. discriminate. }
        rewrite nth_error_app2; rewrite firstn_length_le by exact LI; [|reflexivity].
        rewrite Nat.sub_diag. reflexivity. }
      assert (SK' : skipn (S i) (b_matches b) = marks).
      { replace (S i) with (1 + i) by lia. rewrite <- (Nat.add_comm i 1).
        clear - SK. revert SK. generalize (b_matches b). induction i; intros l; destruct l; cbn; intros SK; try discriminate.
        - congruence.
        - apply IHi. exact SK. }
      destruct (IH marks (S i) ST SK' ltac:(cbn in LN; lia)) as (l & EM & ps & F & C).
      destruct (line_piece (b_start b + Z.of_nat i) hm line ltac:(lia)) as (txt & s & ET & ES & plain & RT & CO).
      exists (s :: l). split.
      + change (s :: l) with ([s] ++ l). intros fails o. cbn [present_lines]. rewrite NE, ET.
        assert (EE := emits_then (fun f st => emit f (fst (lineNumber en (p_buf st) (b_start b + Z.of_nat i) hm) ++ txt ++ [10%N])
            (mkP (p_out st) (snd (lineNumber en (p_buf st) (b_start b + Z.of_nat i) hm))))
          (fun f => present_lines en find f b lines (S i)) [s] l).
        apply EE; [|exact EM].
        intros fails' o'. exists []. unfold emit. cbn [p_out p_buf walk]. rewrite ES.
        destruct (fails' o' s); split; reflexivity.
      + exists (plain :: ps). split.
        * cbn [rows_from]. apply Forall2_cons; [exact RT|].
          replace (b_start b + Z.of_nat i + 1)%Z with (b_start b + Z.of_nat (S i))%Z by lia. exact F.
        * cbn [concat]. apply coloured_app; assumption.
  Qed.

  Lemma rows_consecutive : forall lines marks n i r, nth_error (rows_from n lines marks) i = Some r ->
    row_no r = (n + Z.of_nat i)%Z.
  Proof.
    induction lines as [|l lines IH]; intros [|m marks] n [|i] r H; cbn in H; try discriminate.
    - injection H as <-. unfold row_no. cbn. lia.
    - rewrite (IH _ _ _ _ H). lia.
  Qed.

  Lemma block_emit : forall ctx b, b_lines b <> [] -> length (b_matches b) = length (b_lines b) -> (0 <= b_start b)%Z ->
    exists l, emits (fun f => present_block en find f ctx b) l /\
      exists plain, group_text ctx (rows b) plain /\ coloured plain (concat l).
  Proof.
    intros ctx b NE LN ST.
    destruct (lines_emit b (b_lines b) (b_matches b) 0 ST eq_refl LN) as (l & EM & ps & F & C).
    assert (SEP : exists l', emits (fun f => if (0 <? ctx)%Z then emit f [45; 45; 10]%N else done) l' /\
      concat l' = if (0 <? ctx)%Z then [45; 45; 10]%N else []).
    { destruct (0 <? ctx)%Z; [exists [[45; 45; 10]%N]; split; [apply emits_emit|reflexivity]|].
      exists []. split; [apply emits_done|reflexivity]. }
    destruct SEP as (l' & EM' & EL'). exists (l ++ l'). split; [apply emits_then; assumption|].
    replace (b_start b + Z.of_nat 0)%Z with (b_start b) in F by lia.
    exists (concat ps ++ if (0 <? ctx)%Z then [45; 45; 10]%N else []). split.
    - split; [|split].
      + unfold rows. destruct (b_lines b) as [|x ls]; [congruence|].
        destruct (b_matches b) as [|m ms]; [discriminate|]. discriminate.
      + intros i r H. rewrite (rows_consecutive _ _ _ _ _ H).
        destruct (rows b) as [|r0 g] eqn:ER; [destruct i; discriminate|]. cbn [hd].
        assert (H0 : nth_error (rows b) 0 = Some r0) by (rewrite ER; reflexivity).
        rewrite (rows_consecutive _ _ _ _ _ H0). lia.
      + exists ps. split; [exact F|reflexivity].
    - rewrite concat_app, EL'. apply coloured_app; [exact C|apply coloured_refl].
  Qed.

  Lemma shows_start : forall file ms bs, shows file ms bs -> Forall (fun b => (0 <= b_start b)%Z) bs.
  Proof.
    intros file ms bs (A & _ & _ & D). apply Forall_forall. intros b I.
    rewrite Forall_forall in A. destruct (A b I) as (NE & LN).
    destruct (rows b) as [|[[k t] mk] g] eqn:ER.
    - unfold rows in ER. destruct (b_lines b); [congruence|]. destruct (b_matches b); discriminate.
    - assert (K : k = b_start b).
      { unfold rows in ER. destruct (b_lines b); [discriminate|]. destruct (b_matches b); [discriminate|]. cbn in ER. congruence. }
      destruct (D k t mk) as (P & _); [|lia].
      apply in_flat_map. exists b. split; [exact I|]. rewrite ER. left. reflexivity.
  Qed.

  Lemma blocks_emit : forall ctx bs,
    Forall (fun b => b_lines b <> [] /\ length (b_matches b) = length (b_lines b)) bs ->
    Forall (fun b => (0 <= b_start b)%Z) bs ->
    exists ls ts, Forall2 (fun b l => emits (fun f => present_block en find f ctx b) l) bs ls /\
      Forall2 (group_text ctx) (map rows bs) ts /\ coloured (concat ts) (concat (concat ls)).
  Proof.
    intros ctx bs A B. induction bs as [|b bs IH].
    - exists [], []. split; [apply Forall2_nil|]. split; [apply Forall2_nil|constructor].
    - destruct (IH (Forall_inv_tail A) (Forall_inv_tail B)) as (ls & ts & E & G & C).
      destruct (Forall_inv A) as (NE & LN).
      destruct (block_emit ctx b NE LN (Forall_inv B)) as (l & EM & plain & GT & CO).
      exists (l :: ls), (plain :: ts). split; [apply Forall2_cons; assumption|].
      split; [cbn [map]; apply Forall2_cons; assumption|].
      cbn [concat]. rewrite concat_app. apply coloured_app; assumption.
  Qed.

  Lemma file_emit : forall ctx file f, Forall (from_file file) (snd f) -> in_order (snd f) ->
    exists l, emits (fun fl => present_file en find fl ctx f) l /\
      exists plain, file_text ctx file f plain /\ coloured plain (concat l).
  Proof.
    intros ctx file [name ms] FF IO. cbn [snd fst] in *.
    destruct (coalesce_shows file ms FF IO) as (bs & CE & SH).
    pose proof (shows_start _ _ _ SH) as ST.
    destruct SH as (A & B & C & D).
    destruct (blocks_emit ctx bs A ST) as (ls & ts & E & G & CO).
    exists ([Fg en name Green Bold ++ [10%N]] ++ concat ls ++ [[10%N]]). split.
    - unfold present_file. cbn [fst snd]. rewrite CE.
      apply (emits_then (fun f => emit f (Fg en name Green Bold ++ [10%N]))); [apply emits_emit|].
      apply (emits_then (fun fl => each (present_block en find fl ctx) bs) (fun fl => emit fl [10%N])); [|apply emits_emit].
      apply (emits_each (fun b fl => present_block en find fl ctx b)). exact E.
    - exists (name ++ [10%N] ++ concat ts ++ [10%N]). split.
      + exists (map rows bs), ts. cbn [fst snd]. rewrite <- flat_map_concat_map.
        split; [|split; [exact G|reflexivity]].
        split; [exact B|]. split; [exact C|exact D].
      + rewrite !concat_app. cbn [concat]. rewrite !app_nil_r, <- app_assoc.
        apply coloured_app; [apply fg_coloured; unfold Green; lia|].
        apply coloured_app; [apply coloured_refl|].
        apply coloured_app; [exact CO|apply coloured_refl].
  Qed.

  Lemma files_emit : forall ctx (src : str -> list str) fs,
    Forall (fun f => Forall (from_file (src (fst f))) (snd f) /\ in_order (snd f)) fs ->
    exists ls ts, Forall2 (fun x l => emits (fun f => present_file en find f ctx x) l) fs ls /\
      Forall2 (fun f => file_text ctx (src (fst f)) f) fs ts /\ coloured (concat ts) (concat (concat ls)).
  Proof.
    intros ctx src fs A. induction fs as [|f fs IH].
    - exists [], []. split; [apply Forall2_nil|]. split; [apply Forall2_nil|constructor].
    - destruct (IH (Forall_inv_tail A)) as (ls & ts & E & G & C).
      destruct (Forall_inv A) as (FF & IO).
      destruct (file_emit ctx (src (fst f)) f FF IO) as (l & EM & plain & GT & CO).
      exists (l :: ls), (plain :: ts). split; [apply Forall2_cons; assumption|].
      split; [apply Forall2_cons; assumption|].
      cbn [concat]. rewrite concat_app. apply coloured_app; assumption.
  Qed.

  Definition sound_results (src : str -> str -> list str) (results : list (str * list (str * list hit))) : Prop :=
    Forall (fun r => Forall (fun f => Forall (from_file (src (fst r) (fst f))) (snd f) /\ in_order (snd f)) (snd r)) results.

  Lemma repos_emit : forall ctx repos names src results,
    Forall (fun r => repoNameFor repos (fst r) = Some (names (fst r))) results -> sound_results src results ->
    exists ls ts, Forall2 (fun x l => emits (fun f => present_repo en find f ctx repos x) l) results ls /\
      Forall2 (repo_text ctx src names) results ts /\ coloured (concat ts) (concat (concat ls)).
  Proof.
    intros ctx repos names src results N A. induction results as [|r rs IH].
    - exists [], []. split; [apply Forall2_nil|]. split; [apply Forall2_nil|constructor].
    - destruct (IH (Forall_inv_tail N) (Forall_inv_tail A)) as (ls & ts & E & G & C).
      pose proof (Forall_inv A) as FA. pose proof (Forall_inv N) as NA. cbn beta in FA, NA.
      destruct (files_emit ctx (src (fst r)) (snd r) FA) as (fl & ft & FE & FG & FC).
      exists (([Fg en (names (fst r)) Red Bold ++ [10%N]] ++ concat fl) :: ls), ((names (fst r) ++ [10%N] ++ concat ft) :: ts).
      split; [|split].
      + apply Forall2_cons; [|exact E]. unfold present_repo. rewrite NA.
        apply (emits_then (fun f => emit f (Fg en (names (fst r)) Red Bold ++ [10%N]))); [apply emits_emit|].
        apply (emits_each (fun b fl => present_file en find fl ctx b)). exact FE.
      + apply Forall2_cons; [|exact G]. exists ft. split; [exact FG|reflexivity].
      + cbn [concat]. rewrite !concat_app. cbn [concat]. rewrite app_nil_r.
        apply coloured_app; [|exact C]. rewrite app_assoc.
        apply coloured_app; [|exact FC].
        apply coloured_app; [apply fg_coloured; unfold Red; lia|apply coloured_refl].
  Qed.

  (** With a writer that never fails, the whole answer; otherwise its beginning. *)
  Theorem present_writes : forall ctx repos names src results,
    Forall (fun r => repoNameFor repos (fst r) = Some (names (fst r))) results -> sound_results src results ->
    exists pieces, (exists plain, answer_text ctx src names results plain /\ coloured plain (concat pieces)) /\
      forall fails, let '(out, s) := Present en find fails ctx repos results in
        (s = Done /\ out = pieces) \/
        (s = Failed /\ exists next rest, pieces = out ++ next :: rest /\ fails out next = true).
  Proof.
    intros ctx repos names src results N A.
    destruct (repos_emit ctx repos names src results N A) as (ls & ts & E & G & C).
    exists (concat ls). split.
    - exists (concat ts). split; [|exact C]. exists ts. split; [exact G|reflexivity].
    - intros fails. unfold Present.
      destruct (emits_each (fun b fl => present_repo en find fl ctx repos b) _ _ E fails []) as (b & EE & _).
      change (each (present_repo en find fails ctx repos) results (mkP [] []) =
        (mkP (fst (walk fails [] (concat ls))) b, snd (walk fails [] (concat ls)))) in EE.
      rewrite EE. cbn [p_out].
      assert (W : forall l o, (snd (walk fails o l) = Done /\ fst (walk fails o l) = o ++ l) \/
        (snd (walk fails o l) = Failed /\ exists next rest, o ++ l = fst (walk fails o l) ++ next :: rest /\
           fails (fst (walk fails o l)) next = true)).
      { induction l as [|x l IH]; intros o; cbn [walk].
        - left. split; [reflexivity|]. symmetry. apply app_nil_r.
        - destruct (fails o x) eqn:FX.
          + right. split; [reflexivity|]. exists x, l. split; [reflexivity|exact FX].
          + specialize (IH (o ++ [x])). rewrite <- app_assoc in IH. exact IH. }
      exact (W (concat ls) []).
  Qed.
End Pieces.
