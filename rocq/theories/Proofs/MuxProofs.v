From Verif Require Import Model.Base Model.GoStr Model.Mux Spec.Names Spec.MuxSpec Proofs.StrLemmas Proofs.GoStrProofs.
Local Open Scope N_scope.

(** * path.Clean *)
(** The names written so far, the last first, and their text backwards. *)
Fixpoint body (st : list str) : str := match st with [] => [] | c :: r => rev c ++ slash :: body r end.
Definition out_of (st : list str) : str := match st with [] => [slash] | _ => body st end.
Definition is_dd (c : str) : bool := str_eqb c [dot; dot].
Definition go (st : list str) (c : str) : list str :=
  if str_eqb c [] || str_eqb c [dot] then st
  else if is_dd c then tl st else c :: st.
Definition okname (c : str) : Prop := c <> [] /\ no_slash c.

Lemma body_rev : forall st, rev (body st) = path_of (rev st).
Proof.
  induction st as [|c r IH]; [reflexivity|]. cbn [body rev]. rewrite rev_app_distr, rev_involutive. cbn [rev].
  rewrite IH. unfold path_of. rewrite map_app, concat_app. cbn [map concat]. rewrite app_nil_r, <- app_assoc. reflexivity.
Qed.
Lemma body_long : forall st, Forall okname st -> st <> [] -> (1 < length (body st))%nat.
Proof.
  intros [|c r] F N; [congruence|]. cbn [body]. rewrite app_length. cbn [length].
  destruct (Forall_inv F) as [NE _]. destruct c; [congruence|]. rewrite rev_length. cbn [length]. lia.
Qed.
Lemma back_name : forall x b, x <> [] -> no_slash x -> (b = [] \/ (1 < length b)%nat) ->
  back 1 (x ++ slash :: b) = match b with [] => [slash] | _ => b end.
Proof.
  induction x as [|c x IH]; intros b N NS B; [congruence|].
  assert (C : (c =? slash) = false). { apply N.eqb_neq. intros E. apply NS. left. rewrite E. reflexivity. }
  cbn [app back]. rewrite C. cbn [negb]. rewrite andb_true_r.
  destruct x as [|d x].
  - cbn [app length]. destruct B as [->|B]; [reflexivity|].
    replace (1 <? S (length b))%nat with true by (symmetry; apply Nat.ltb_lt; lia).
    cbn [back]. rewrite N.eqb_refl, andb_false_r. destruct b; [cbn in B; lia|reflexivity].
  - replace (1 <? length ((d :: x) ++ slash :: b))%nat with true.
    + apply IH; [congruence| |exact B]. intros I. apply NS. right. exact I.
    + symmetry. apply Nat.ltb_lt. rewrite app_length. cbn [length]. lia.
Qed.
Lemma element_all : forall c r out, no_slash c -> ends r = true -> element (c ++ r) out = (r, rev c ++ out).
Proof.
  induction c as [|x c IH]; intros r out NS E.
  - cbn [app rev]. destruct r as [|y r]; [reflexivity|]. cbn [ends] in E. cbn [element]. rewrite E. reflexivity.
  - cbn [app element]. destruct (x =? slash) eqn:X.
    + apply N.eqb_eq in X. destruct NS. left. rewrite X. reflexivity.
    + rewrite IH; [|intros I; apply NS; right; exact I|exact E]. cbn [rev]. rewrite <- app_assoc. reflexivity.
Qed.
Lemma path_ends : forall cs, ends (path_of cs) = true.
Proof. destruct cs; reflexivity. Qed.
Lemma no_slash_rev : forall c, no_slash c -> no_slash (rev c).
Proof. intros c H I. apply in_rev in I. exact (H I). Qed.
Lemma out_pushed : forall st c, Forall okname st ->
  rev c ++ (if negb (Nat.eqb (length (out_of st)) 1) then slash :: out_of st else out_of st) = out_of (c :: st).
Proof.
  intros [|s r] c F; [reflexivity|]. cbn [out_of].
  assert (B := body_long (s :: r) F ltac:(congruence)).
  replace (Nat.eqb (length (body (s :: r))) 1) with false by (symmetry; apply Nat.eqb_neq; lia). reflexivity.
Qed.
Lemma go_ok : forall st c, Forall okname st -> no_slash c -> Forall okname (go st c).
Proof.
  intros st c F NS. unfold go. destruct (str_eqb c [] || str_eqb c [dot]) eqn:E; [exact F|].
  destruct (is_dd c). { destruct F; [constructor|assumption]. }
  constructor; [|exact F]. split; [|exact NS]. intros ->. discriminate E.
Qed.
(** One name, if the loop does well on what follows it. *)
Lemma clean_name : forall cs c st fuel, no_slash c -> Forall okname st ->
  (forall st' f, Forall okname st' -> (length (path_of cs) < f)%nat ->
     clean_loop f true 1 (path_of cs) (out_of st') = Some (out_of (fold_left go cs st'))) ->
  (length (c ++ path_of cs) < fuel)%nat ->
  clean_loop fuel true 1 (c ++ path_of cs) (out_of st) = Some (out_of (fold_left go (c :: cs) st)).
Proof.
  intros cs c st fuel NS F REST L. assert (PE := path_ends cs). set (r := path_of cs) in *. clearbody r.
  assert (F' : Forall okname (go st c)) by (apply go_ok; assumption).
  destruct c as [|x c]; [apply REST; assumption|].
  destruct fuel as [|fuel]; [lia|]. cbn [app length] in L. rewrite app_length in L.
  assert (X : (x =? slash) = false) by (apply N.eqb_neq; intros E; apply NS; left; rewrite E; reflexivity).
  assert (NAME : go st (x :: c) = (x :: c) :: st ->
    (let out := if negb (Nat.eqb (length (out_of st)) 1) then slash :: out_of st else out_of st in
     let '(p', out) := element (x :: c ++ r) out in clean_loop fuel true 1 p' out) =
    Some (out_of (fold_left go ((x :: c) :: cs) st))).
  { intros G. cbv zeta. rewrite (element_all (x :: c) r _ NS PE). rewrite out_pushed by exact F. rewrite <- G.
    apply REST; [exact F'|lia]. }
  cbn [app clean_loop]. rewrite X.
  destruct ((x =? dot) && ends (c ++ r)) eqn:D.
  - apply andb_true_iff in D. destruct D as [D E]. apply N.eqb_eq in D. subst x.
    destruct c as [|y c].
    + apply REST; [exact F|lia].
    + cbn [app ends] in E. apply N.eqb_eq in E. subst y. destruct NS. right. left. reflexivity.
  - destruct c as [|y c].
    { cbn [app] in *. rewrite PE, andb_true_r in D.
      assert (G : go st [x] = [x] :: st). { unfold go, is_dd. cbn [str_eqb]. rewrite D. reflexivity. }
      destruct r as [|z r]; [exact (NAME G)|]. rewrite D. cbn [andb]. exact (NAME G). }
    cbn [app] in *.
    destruct ((x =? dot) && (y =? dot) && ends (c ++ r)) eqn:DD.
    + apply andb_true_iff in DD. destruct DD as [DD E]. apply andb_true_iff in DD. destruct DD as [DX DY].
      apply N.eqb_eq in DX, DY. subst x y.
      destruct c as [|z c].
      2:{ cbn [app ends] in E. apply N.eqb_eq in E. subst z. destruct NS. right. right. left. reflexivity. }
      assert (G : go st [dot; dot] = tl st) by reflexivity. cbn [app fold_left]. rewrite G in *.
      destruct st as [|s st].
      * cbn [out_of length]. cbn [Nat.ltb Nat.leb]. apply (REST []); [exact F'|cbn [length] in L; lia].
      * cbn [out_of tl]. cbn [tl] in F'.
        assert (B := body_long (s :: st) F ltac:(congruence)).
        replace (1 <? length (body (s :: st)))%nat with true by (symmetry; apply Nat.ltb_lt; exact B).
        destruct (Forall_inv F) as [NE SL].
        cbn [body]. rewrite back_name.
        -- replace (match body st with [] => [slash] | _ => body st end) with (out_of st).
           ++ apply REST; [exact F'|cbn [length] in L; lia].
           ++ destruct st as [|s' st]; [reflexivity|]. unfold out_of.
              assert (B' := body_long _ F' ltac:(congruence)). destruct (body (s' :: st)); [cbn in B'; lia|reflexivity].
        -- intros E'. apply (f_equal (@rev N)) in E'. rewrite rev_involutive in E'. exact (NE E').
        -- apply no_slash_rev. exact SL.
        -- destruct st as [|s' st]; [left; reflexivity|right]. apply body_long; [exact F'|congruence].
    + apply NAME. unfold go, is_dd. cbn [str_eqb]. rewrite andb_false_r. cbn [orb].
      destruct c as [|z c].
      * cbn [app] in DD. rewrite PE, andb_true_r in DD. rewrite andb_true_r, DD. reflexivity.
      * cbn [str_eqb]. rewrite !andb_false_r. reflexivity.
Qed.
Lemma clean_rest : forall cs st fuel, Forall no_slash cs -> Forall okname st -> (length (path_of cs) < fuel)%nat ->
  clean_loop fuel true 1 (path_of cs) (out_of st) = Some (out_of (fold_left go cs st)).
Proof.
  induction cs as [|c cs IH]; intros st fuel NS F L.
  - destruct fuel; [cbn in L; lia|]. reflexivity.
  - inversion NS as [|? ? NC NS']; subst. destruct fuel as [|fuel]; [lia|].
    change (path_of (c :: cs)) with (slash :: c ++ path_of cs) in *. cbn [clean_loop]. rewrite N.eqb_refl.
    apply clean_name; [exact NC|exact F| |cbn [length] in L; lia]. intros st' f F' L'. apply IH; assumption.
Qed.
Lemma path_clean_ok : forall c cs, Forall no_slash (c :: cs) ->
  path_clean (path_of (c :: cs)) = Some (rev (out_of (fold_left go (c :: cs) []))).
Proof.
  intros c cs NS. change (path_of (c :: cs)) with (slash :: c ++ path_of cs). unfold path_clean. rewrite N.eqb_refl.
  inversion NS as [|? ? NC NS']; subst.
  change [slash] with (out_of []) at 1.
  rewrite (clean_name cs c []); [|exact NC|constructor| |cbn [length]; lia].
  - cbn [bind]. destruct (out_of (fold_left go (c :: cs) [])) eqn:E; [|reflexivity].
    destruct (fold_left go (c :: cs) []) as [|s st]; [discriminate E|]. cbn [out_of body] in E. destruct (rev s); discriminate E.
  - intros st' f F' L'. apply clean_rest; assumption.
Qed.

(** * Where names lead *)
Lemma fold_last : forall cs c st, fold_left go (cs ++ [c]) st = go (fold_left go cs st) c.
Proof. intros. rewrite fold_left_app. reflexivity. Qed.
Lemma leads_go : forall cs ms, leads cs ms <-> ms = rev (fold_left go cs []).
Proof.
  intros cs ms. split.
  - induction 1 as [|cs ms c _ IH D|cs ms m _ IH|cs _ IH|cs ms c _ IH N1 N2 N3]; [reflexivity| | | |]; rewrite fold_last.
    + destruct D as [-> | ->]; exact IH.
    + change (go (fold_left go cs []) (text "..")) with (tl (fold_left go cs [])).
      apply (f_equal (@rev str)) in IH. rewrite rev_involutive, rev_app_distr in IH. rewrite <- IH. cbn [rev app tl].
      symmetry. apply rev_involutive.
    + change (go (fold_left go cs []) (text "..")) with (tl (fold_left go cs [])).
      apply (f_equal (@rev str)) in IH. rewrite rev_involutive in IH. rewrite <- IH. reflexivity.
    + unfold go at 1, is_dd.
      apply str_eqb_neq in N1, N2, N3. change (text "") with (@nil N) in N1. change (text ".") with [dot] in N2.
      change (text "..") with [dot; dot] in N3. rewrite N1, N2, N3. cbn [orb rev]. rewrite <- IH. reflexivity.
  - intros ->. induction cs as [|c cs IH] using rev_ind; [constructor|]. rewrite fold_last. unfold go at 1.
    destruct (str_eqb c [] || str_eqb c [dot]) eqn:E.
    + apply l_stay; [exact IH|]. apply orb_true_iff in E. destruct E as [E|E]; apply str_eqb_eq in E; [left|right]; exact E.
    + apply orb_false_iff in E. destruct E as [E1 E2]. destruct (is_dd c) eqn:E3.
      * apply str_eqb_eq in E3. subst c. destruct (fold_left go cs []) as [|s st]; [exact (l_top cs IH)|].
        apply (l_up cs _ s). exact IH.
      * cbn [rev]. apply l_down; [exact IH| | |]; apply str_eqb_neq; [exact E1|exact E2|exact E3].
Qed.

(** * cleanPath *)
Lemma split_path : forall x, exists c cs, Forall no_slash (c :: cs) /\ x = c ++ path_of cs.
Proof.
  induction x as [|a x (c & cs & F & ->)].
  - exists [], []. split; [constructor; [intros []|constructor]|reflexivity].
  - destruct (N.eq_dec a slash) as [-> |N].
    + exists [], (c :: cs). split; [constructor; [intros []|exact F]|reflexivity].
    + exists (a :: c), cs. split; [|reflexivity]. inversion F as [|? ? NC F']; subst. constructor; [|exact F'].
      intros [E|I]; [exact (N E)|exact (NC I)].
Qed.
Definition result_of (cs ms : list str) : str :=
  match ms with
  | [] => text "/"
  | _ => path_of (ms ++ (if list_eq_dec N.eq_dec (last cs []) [] then [text ""] else []))
  end.
Lemma path_app : forall a b, path_of (a ++ b) = path_of a ++ path_of b.
Proof. intros. unfold path_of. rewrite map_app, concat_app. reflexivity. Qed.
Lemma last_path : forall cs, cs <> [] -> Forall no_slash cs ->
  exists l, last_byte (path_of cs) = Some l /\ (l = slash <-> last cs [] = []).
Proof.
  intros cs NE F. destruct (exists_last NE) as (cs' & c & ->). rewrite last_last, path_app.
  unfold path_of at 2. cbn [map concat]. rewrite app_nil_r. unfold last_byte. rewrite rev_app_distr.
  apply Forall_app in F. destruct F as [_ F]. assert (NS := Forall_inv F).
  destruct (rev (text "/" ++ c)) as [|l t] eqn:E.
  { apply (f_equal (@length N)) in E. rewrite rev_length in E. discriminate E. }
  exists l. split; [reflexivity|]. change (text "/" ++ c) with (slash :: c) in E. cbn [rev] in E.
  destruct (rev c) as [|y r] eqn:R.
  - cbn [app] in E. split; intros _; [|congruence]. apply (f_equal (@rev N)) in R. rewrite rev_involutive in R. exact R.
  - cbn [app] in E. assert (y = l) by congruence. subst y. split; intros H.
    + destruct NS. apply in_rev. rewrite R. left. exact H.
    + subst c. discriminate R.
Qed.
Lemma folded_ok : forall cs st, Forall no_slash cs -> Forall okname st -> Forall okname (fold_left go cs st).
Proof.
  induction cs as [|c cs IH]; intros st F S; [exact S|]. inversion F; subst. cbn [fold_left]. apply IH; [assumption|].
  apply go_ok; assumption.
Qed.
Lemma cleaned_names : forall cs, cs <> [] -> Forall no_slash cs -> 
  (np <- path_clean (path_of cs) ;;
   match last_byte (path_of cs) with
   | Some l =>
       if (l =? slash) && negb (str_eqb np [slash]) then
         if Nat.eqb (length (path_of cs)) (S (length np)) && has_prefix (path_of cs) np then Some (path_of cs) else Some (np ++ [slash])
       else Some np
   | None => None
   end) = Some (result_of cs (rev (fold_left go cs []))).
Proof.
  intros cs NE F. destruct (last_path cs NE F) as (l & L & LS). rewrite L.
  destruct cs as [|c cs]; [congruence|]. rewrite path_clean_ok by exact F. cbn [bind].
  assert (FS : Forall okname (fold_left go (c :: cs) [])) by (apply folded_ok; [exact F|constructor]).
  set (st := fold_left go (c :: cs) []) in *. set (all := c :: cs) in *. clearbody st all.
  destruct st as [|s st].
  { cbn [out_of rev app]. rewrite str_eqb_refl. cbn [negb]. rewrite andb_false_r. reflexivity. }
  cbn [out_of]. rewrite body_rev.
  assert (NN : rev (s :: st) <> []). { intros E. apply (f_equal (@length str)) in E. rewrite rev_length in E. discriminate E. }
  remember (rev (s :: st)) as ms eqn:MS.
  assert (R : result_of all ms = if l =? slash then path_of ms ++ [slash] else path_of ms).
  { unfold result_of. destruct ms as [|m0 ms]; [congruence|].
    destruct (list_eq_dec N.eq_dec (last all []) []) as [e|n].
    - apply LS in e. subst l. rewrite N.eqb_refl. apply path_app.
    - replace (l =? slash) with false. 2:{ symmetry. apply N.eqb_neq. intros E. exact (n (proj1 LS E)). }
      rewrite app_nil_r. reflexivity. }
  rewrite R. destruct (l =? slash) eqn:LE; [|reflexivity]. cbn [andb].
  replace (str_eqb (path_of ms) [slash]) with false; cbn [negb].
  2:{ symmetry. apply str_eqb_neq. intros E. rewrite MS, <- body_rev in E.
      apply (f_equal (@length N)) in E. rewrite rev_length in E. cbn [length] in E.
      assert (B := body_long (s :: st) FS ltac:(congruence)). lia. }
  destruct (Nat.eqb (length (path_of all)) (S (length (path_of ms))) && has_prefix (path_of all) (path_of ms)) eqn:Q; [|reflexivity].
  apply andb_true_iff in Q. destruct Q as [Q1 Q2]. apply Nat.eqb_eq in Q1. apply has_prefix_iff in Q2. destruct Q2 as [x Q2].
  f_equal. rewrite Q2 in L, Q1 |- *. rewrite app_length in Q1.
  destruct x as [|y [|z x]]; cbn [length] in Q1; try lia.
  unfold last_byte in L. rewrite rev_app_distr in L. cbn [rev app] in L. apply N.eqb_eq in LE. congruence.
Qed.
Lemma cleanPath_ok : forall p cs, names_of p cs -> cleanPath p = Some (result_of cs (rev (fold_left go cs []))).
Proof.
  intros p cs [F [E|[N E]]].
  - destruct cs as [|c cs]; [subst p; reflexivity|]. 
    change (path_of (c :: cs)) with (slash :: c ++ path_of cs) in E. unfold cleanPath. rewrite E at 1. rewrite N.eqb_refl.
    rewrite E. change (slash :: c ++ path_of cs) with (path_of (c :: cs)). apply cleaned_names; [congruence|exact F].
  - assert (NE : cs <> []) by (intros ->; discriminate E).
    destruct p as [|a p].
    { destruct cs as [|c cs]; [congruence|]. change (path_of (c :: cs)) with (slash :: c ++ path_of cs) in E.
      change (text "/" ++ []) with [slash] in E.
      destruct c as [|x c]; [|discriminate E]. destruct cs as [|d cs]; [reflexivity|discriminate E]. }
    unfold cleanPath. replace (a =? slash) with false.
    2:{ symmetry. apply N.eqb_neq. intros ->. apply N. exists p. reflexivity. }
    change (slash :: a :: p) with (text "/" ++ a :: p). rewrite E. apply cleaned_names; assumption.
Qed.
Lemma names_exist : forall p, exists cs, names_of p cs.
Proof.
  intros [|a p].
  - exists []. split; [constructor|left; reflexivity].
  - destruct (N.eq_dec a slash) as [-> |N].
    + destruct (split_path p) as (c & cs & F & ->). exists (c :: cs). split; [exact F|left; reflexivity].
    + destruct (split_path (a :: p)) as (c & cs & F & E). exists (c :: cs). split; [exact F|right].
      split; [intros [x X]; apply N; change (text "/" ++ x) with (slash :: x) in X; congruence|]. rewrite E. reflexivity.
Qed.
Lemma proper_result : forall p q, proper p q <-> exists cs, names_of p cs /\ q = result_of cs (rev (fold_left go cs [])).
Proof.
  intros p q. split.
  - intros (cs & ms & NM & L & Q). apply leads_go in L. exists cs. split; [exact NM|]. rewrite <- L.
    destruct ms; exact Q.
  - intros (cs & NM & Q). exists cs, (rev (fold_left go cs [])). split; [exact NM|]. split; [apply leads_go; reflexivity|].
    unfold result_of in Q. destruct (rev (fold_left go cs [])); exact Q.
Qed.
Lemma proper_clean : forall p q, proper p q <-> cleanPath p = Some q.
Proof.
  intros p q. rewrite proper_result. split.
  - intros (cs & NM & ->). apply cleanPath_ok. exact NM.
  - intros C. destruct (names_exist p) as [cs NM]. exists cs. split; [exact NM|].
    rewrite (cleanPath_ok p cs NM) in C. congruence.
Qed.
Lemma clean_total : forall p, exists q, cleanPath p = Some q.
Proof. intros p. destruct (names_exist p) as [cs NM]. eexists. apply cleanPath_ok. exact NM. Qed.

(** Names that lead to themselves. *)
Lemma go_kept : forall st c, okname c -> c <> [dot] -> is_dd c = false -> go st c = c :: st.
Proof.
  intros st c [NE _] ND NDD. unfold go. apply str_eqb_neq in NE, ND. rewrite NE, ND, NDD. reflexivity.
Qed.
Definition kept (c : str) : Prop := okname c /\ c <> [dot] /\ is_dd c = false.
Lemma go_kepts : forall st c, Forall kept st -> no_slash c -> Forall kept (go st c).
Proof.
  intros st c F NS. unfold go. destruct (str_eqb c [] || str_eqb c [dot]) eqn:E; [exact F|].
  apply orb_false_iff in E. destruct E as [E1 E2]. destruct (is_dd c) eqn:D. { destruct F; [constructor|assumption]. }
  constructor; [|exact F]. apply str_eqb_neq in E1, E2. split; [split; assumption|]. split; assumption.
Qed.
Lemma folded_kept : forall cs st, Forall no_slash cs -> Forall kept st -> Forall kept (fold_left go cs st).
Proof.
  induction cs as [|c cs IH]; intros st F S; [exact S|]. inversion F; subst. cbn [fold_left]. apply IH; [assumption|].
  apply go_kepts; assumption.
Qed.
Lemma fold_kept : forall ms st, Forall kept ms -> fold_left go ms st = rev ms ++ st.
Proof.
  induction ms as [|m ms IH]; intros st F; [reflexivity|]. inversion F as [|? ? (K1 & K2 & K3) F']; subst.
  cbn [fold_left rev]. rewrite go_kept by assumption. rewrite IH by exact F'. rewrite <- app_assoc. reflexivity.
Qed.
Lemma clean_again : forall p q, cleanPath p = Some q -> cleanPath q = Some q.
Proof.
  intros p q C. apply proper_clean in C. apply proper_result in C. destruct C as (cs & [FN _] & ->).
  assert (FK := folded_kept cs [] FN ltac:(constructor)).
  set (st := fold_left go cs []) in *. clearbody st.
  apply Forall_rev in FK. set (ms := rev st) in *. clearbody ms.
  destruct ms as [|m ms]; [reflexivity|].
  set (tail := if list_eq_dec N.eq_dec (last cs []) [] then [text ""] else []).
  assert (T : tail = [] \/ tail = [[]]) by (unfold tail; destruct (list_eq_dec N.eq_dec (last cs []) []); [right|left]; reflexivity).
  change (result_of cs (m :: ms)) with (path_of ((m :: ms) ++ tail)). clearbody tail.
  assert (NM : names_of (path_of ((m :: ms) ++ tail)) ((m :: ms) ++ tail)).
  { split; [|left; reflexivity]. apply Forall_app. split.
    - refine (Forall_impl _ _ FK). intros c ((_ & K) & _). exact K.
    - destruct T as [-> | ->]; [constructor|constructor; [intros []|constructor]]. }
  rewrite (cleanPath_ok _ _ NM). f_equal.
  assert (R : rev (fold_left go ((m :: ms) ++ tail) []) = m :: ms).
  { rewrite fold_left_app, (fold_kept (m :: ms) [] FK), app_nil_r.
    destruct T as [-> | ->]; [apply rev_involutive|apply (rev_involutive (m :: ms))]. }
  rewrite R. unfold result_of. f_equal. f_equal.
  destruct T as [-> | ->].
  - rewrite app_nil_r. destruct (list_eq_dec N.eq_dec (last (m :: ms) []) []) as [e|]; [|reflexivity].
    exfalso. assert (I : In (last (m :: ms) []) (m :: ms)).
    { destruct (exists_last (l := m :: ms) ltac:(congruence)) as (a & b & ->). rewrite last_last. apply in_or_app. right. left. reflexivity. }
    rewrite Forall_forall in FK. destruct (FK _ I) as ((K & _) & _). exact (K e).
  - rewrite last_last. destruct (list_eq_dec N.eq_dec [] []) as [|n]; [reflexivity|congruence].
Qed.

(** * Dispatch *)
Lemma lookup_in : forall {A} (l : list (str * A)) p x, NoDup (map fst l) -> (lookup l p = Some x <-> In (p, x) l).
Proof.
  induction l as [|[q h] l IH]; intros p x N; [split; [discriminate|intros []]|].
  cbn [map fst] in N. inversion N as [|? ? NI N']; subst. cbn [lookup In]. destruct (str_eqb p q) eqn:E.
  - apply str_eqb_eq in E. subst q. split; [intros X; left; congruence|]. intros [X|I]; [congruence|].
    destruct NI. change p with (fst (p, x)). apply in_map. exact I.
  - apply str_eqb_neq in E. rewrite (IH p x N'). split; [intros I; right; exact I|]. intros [X|I]; [congruence|exact I].
Qed.
Lemma lookup_none : forall {A} (l : list (str * A)) p, lookup l p = None <-> ~ In p (map fst l).
Proof.
  induction l as [|[q h] l IH]; intros p; [split; [intros _ []|reflexivity]|].
  cbn [lookup map fst In]. destruct (str_eqb p q) eqn:E.
  - apply str_eqb_eq in E. subst q. split; [discriminate|]. intros N. destruct N. left. reflexivity.
  - apply str_eqb_neq in E. rewrite IH. split; [intros N [X|I]; [congruence|exact (N I)]|]. intros N I. apply N. right. exact I.
Qed.
Lemma open_lookup : forall (t : tree_files) n, open t n = lookup t n.
Proof. induction t as [|[q h] t IH]; intros n; [reflexivity|]. cbn [open lookup]. rewrite IH. reflexivity. Qed.

Definition api_table : list (str * handler) := map (fun e => (fst e, Api (snd e))) api_paths.
Definition the_mux : mux handler := mkMux ((text "/", Ui) :: api_table) [(text "/", Ui)].
Lemma setup_ok : setup = Some the_mux.
Proof. reflexivity. Qed.
Lemma api_nodup : NoDup (map fst api_paths).
Proof. cbn [api_paths map fst]. repeat constructor; cbn [In]; intuition discriminate. Qed.
Lemma pages_nodup : NoDup (map fst pages).
Proof. cbn [pages map fst]. repeat constructor; cbn [In]; intuition discriminate. Qed.
Lemma lookup_table : forall l p, lookup (map (fun e => (fst e, Api (snd e))) l) p =
  match lookup l p with Some e => Some (Api e) | None => None end.
Proof. induction l as [|[q e] l IH]; intros p; [reflexivity|]. cbn [map lookup fst snd]. rewrite IH. destruct (str_eqb p q); reflexivity. Qed.

Lemma never_to_slash : forall p, to_slash the_mux p = false.
Proof.
  intros p. unfold to_slash. destruct (lookup (m_table the_mux) p); [reflexivity|].
  destruct (last_byte p) eqn:L; [|reflexivity].
  destruct (lookup (m_table the_mux) (p ++ [slash])) eqn:E; [|reflexivity]. exfalso.
  assert (I : In (p ++ [slash]) (map fst (m_table the_mux))).
  { destruct (in_dec (list_eq_dec N.eq_dec) (p ++ [slash]) (map fst (m_table the_mux))) as [I|N]; [exact I|].
    apply lookup_none in N. congruence. }
  assert (K : Forall (fun q => last q 0 = slash -> q = [slash]) (map fst (m_table the_mux))).
  { cbn [the_mux m_table map fst api_table api_paths]. repeat constructor; cbv; intros X; try discriminate X; reflexivity. }
  rewrite Forall_forall in K. specialize (K _ I). rewrite last_last in K. specialize (K eq_refl).
  destruct p as [|a p]; [discriminate L|]. destruct p; discriminate K.
Qed.

(** What is found at a path that does not lack its first slash. *)
Definition at_path (files : tree_files) (p : str) : option answer :=
  match mux_match the_mux p with
  | None => Some NotFound
  | Some (Api e) => Some (Endpoint e)
  | Some Ui => prd_ServeHTTP files p
  end.
Lemma at_path_ok : forall files p a, NoDup (map fst files) -> (at_path files p = Some a <-> found_at files p a).
Proof.
  intros files p a ND.
  assert (PG : forall g, lookup pages p = Some g <-> In (p, g) pages) by (intros; apply lookup_in; exact pages_nodup).
  assert (AG : forall g, lookup api_paths p = Some g <-> In (p, g) api_paths) by (intros; apply lookup_in; exact api_nodup).
  assert (DIS : forall e g, In (p, e) api_paths -> In (p, g) pages -> False).
  { intros e g I J. vm_compute in I, J.
    repeat match goal with H : _ \/ _ |- _ => destruct H as [H|H] end; try contradiction; congruence. }
  assert (SP : special p <-> lookup api_paths p <> None \/ lookup pages p <> None).
  { unfold special. split.
    - intros [I|I]; [left|right]; intros N; apply lookup_none in N; exact (N I).
    - intros [N|N]; [left|right].
      + destruct (in_dec (list_eq_dec N.eq_dec) p (map fst api_paths)) as [I|X]; [exact I|]. apply lookup_none in X. congruence.
      + destruct (in_dec (list_eq_dec N.eq_dec) p (map fst pages)) as [I|X]; [exact I|]. apply lookup_none in X. congruence. }
  assert (FUN : forall a b, found_at files p a -> found_at files p b -> a = b).
  { intros a1 a2 H1 H2. destruct H1 as [e I|g I|n x E S I|S I]; destruct H2 as [e' I'|g' I'|n' x' E' S' I'|S' I'].
    all: try reflexivity.
    all: try (exfalso; eapply DIS; eassumption).
    all: try (exfalso; match goal with S : ~ special _ |- _ => apply S end; first
      [left; match goal with I : In (_, _) api_paths |- _ => exact (in_map fst _ _ I) end
      |right; match goal with I : In (_, _) pages |- _ => exact (in_map fst _ _ I) end]).
    - apply AG in I, I'. congruence.
    - apply PG in I, I'. congruence.
    - assert (n = n') by (rewrite E in E'; change (text "/" ++ n) with (slash :: n) in E'; change (text "/" ++ n') with (slash :: n') in E'; congruence).
      subst n'. apply (lookup_in files n _ ND) in I, I'. congruence.
    - exfalso. exact (I' n x E I).
    - exfalso. exact (I n' x' E' I'). }
  assert (EX : exists b, at_path files p = Some b /\ found_at files p b).
  { unfold at_path, mux_match. cbn [the_mux m_table m_es find lookup fst snd]. change (contents) with pages.
    destruct (str_eqb p (text "/")) eqn:ES.
    - apply str_eqb_eq in ES. subst p. eexists. split; [reflexivity|]. apply f_page. left. reflexivity.
    - unfold api_table. rewrite lookup_table.
      destruct (lookup api_paths p) as [e|] eqn:EA.
      + eexists. split; [reflexivity|]. apply f_api. apply AG. exact EA || reflexivity.
      + destruct (has_prefix p (text "/")) eqn:HP.
        * apply has_prefix_iff in HP. destruct HP as [n HP]. unfold prd_ServeHTTP. change contents with pages.
          destruct (lookup pages p) as [g|] eqn:EP.
          -- eexists. split; [reflexivity|]. apply f_page. apply PG. reflexivity.
          -- assert (NSP : ~ special p) by (rewrite SP; intros [X|X]; congruence).
             assert (SV : match p with [] => None | _ :: name => Some (serveAsset files name) end = Some (serveAsset files n))
               by (rewrite HP; reflexivity).
             eexists. split; [exact SV|]. unfold serveAsset. rewrite open_lookup.
             assert (SAME : forall n', p = text "/" ++ n' -> n' = n).
             { intros n' E'. rewrite HP in E'. change (text "/" ++ n) with (slash :: n) in E'. change (text "/" ++ n') with (slash :: n') in E'. congruence. }
             destruct (lookup files n) as [[x|]|] eqn:EF.
             ++ apply (f_file files p n x HP NSP). apply (lookup_in files n _ ND). exact EF.
             ++ apply f_none; [exact NSP|]. intros n' x E' I. rewrite (SAME n' E') in I. apply (lookup_in files n _ ND) in I. congruence.
             ++ apply f_none; [exact NSP|]. intros n' x E' I. rewrite (SAME n' E') in I. apply (lookup_in files n _ ND) in I. congruence.
        * assert (NP : forall n, p <> text "/" ++ n).
          { intros n E. assert (X : has_prefix p (text "/") = true) by (apply has_prefix_iff; exists n; exact E). congruence. }
          eexists. split; [reflexivity|]. apply f_none.
          -- rewrite SP. intros [X|X]; [congruence|]. destruct (lookup pages p) as [g|] eqn:EP; [|congruence]. assert (EP' := proj1 (PG g) eq_refl).
             cbn [pages In] in EP'. clear - NP EP'. repeat destruct EP' as [EP'|EP']; try contradiction.
             all: apply (NP (tl p)); apply (f_equal fst) in EP'; cbn [fst] in EP'; rewrite <- EP'; reflexivity.
          -- intros n x E. exact (False_ind _ (NP n E)). }
  destruct EX as (b & EB & FB). split.
  - intros E. congruence.
  - intros F. rewrite EB. f_equal. exact (FUN _ _ FB F).
Qed.
Lemma at_path_total : forall files p, NoDup (map fst files) -> exists a, at_path files p = Some a.
Proof.
  intros files p ND. unfold at_path, mux_match. cbn [the_mux m_table m_es find lookup fst snd].
  destruct (str_eqb p (text "/")) eqn:ES.
  - apply str_eqb_eq in ES. subst p. eexists. reflexivity.
  - unfold api_table. rewrite lookup_table. destruct (lookup api_paths p); [eexists; reflexivity|].
    destruct (has_prefix p (text "/")) eqn:HP; [|eexists; reflexivity].
    apply has_prefix_iff in HP. destruct HP as [n ->]. unfold prd_ServeHTTP. destruct (lookup contents _); eexists; reflexivity.
Qed.

Lemma serve_eq : forall health ready files r, ServeHTTP health ready files r =
  if str_eqb (q_path r) health then Some Health
  else if negb ready then Some NotReady
  else if q_star r then Some BadRequest
  else if q_connect r then at_path files (q_path r)
  else path <- cleanPath (q_path r) ;;
       if str_eqb path (q_path r) then at_path files (q_path r) else Some (MovedTo path (q_query r)).
Proof.
  intros health ready files r. unfold ServeHTTP. rewrite setup_ok. cbn [bind].
  destruct (str_eqb (q_path r) health); [reflexivity|]. destruct ready; [|reflexivity]. cbn [negb].
  unfold dispatch. destruct (q_star r); [reflexivity|]. unfold at_path.
  destruct (q_connect r).
  - rewrite never_to_slash. cbn [bind]. destruct (mux_match the_mux (q_path r)) as [[|e]|]; reflexivity.
  - destruct (cleanPath (q_path r)) as [p|]; [|reflexivity]. cbn [bind]. rewrite never_to_slash.
    destruct (str_eqb p (q_path r)); [|reflexivity]. destruct (mux_match the_mux (q_path r)) as [[|e]|]; reflexivity.
Qed.

Lemma served : forall health ready files r a, NoDup (map fst files) ->
  (ServeHTTP health ready files r = Some a <-> routed health ready files r a).
Proof.
  intros health ready files r a ND. rewrite serve_eq. split.
  - destruct (str_eqb (q_path r) health) eqn:H.
    { intros E. apply str_eqb_eq in H. replace a with Health by congruence. apply r_health. exact H. }
    apply str_eqb_neq in H. destruct ready eqn:RD; cbn [negb].
    2:{ intros E. replace a with NotReady by congruence. apply r_wait; [exact H|reflexivity]. }
    destruct (q_star r) eqn:S.
    { intros E. replace a with BadRequest by congruence. apply r_star; [exact H|reflexivity|exact S]. }
    destruct (q_connect r) eqn:C.
    { intros E. apply at_path_ok in E; [|exact ND]. apply r_there; [exact H|reflexivity|exact S|left; exact C|exact E]. }
    destruct (cleanPath (q_path r)) as [p|] eqn:P; [|discriminate]. cbn [bind].
    destruct (str_eqb p (q_path r)) eqn:Q.
    + apply str_eqb_eq in Q. subst p. intros E. apply at_path_ok in E; [|exact ND].
      apply r_there; [exact H|reflexivity|exact S|right; apply proper_clean; exact P|exact E].
    + apply str_eqb_neq in Q. intros E. replace a with (MovedTo p (q_query r)) by congruence.
      apply r_moved; [exact H|reflexivity|exact S|exact C|apply proper_clean; exact P|exact Q].
  - intros R. destruct R as [H|H RD|H RD S|p H RD S C P Q|a H RD S C F].
    + apply str_eqb_eq in H. rewrite H. reflexivity.
    + apply str_eqb_neq in H. rewrite H, RD. reflexivity.
    + apply str_eqb_neq in H. rewrite H, RD, S. reflexivity.
    + apply str_eqb_neq in H, Q. apply proper_clean in P. rewrite H, RD, S, C, P. cbn [negb bind]. rewrite Q. reflexivity.
    + apply str_eqb_neq in H. rewrite H, RD, S. cbn [negb]. apply (at_path_ok _ _ _ ND) in F.
      destruct (q_connect r); [exact F|]. destruct C as [C|P]; [discriminate C|]. apply proper_clean in P. rewrite P. cbn [bind].
      rewrite str_eqb_refl. exact F.
Qed.
(** Every request is answered. *)
Lemma serve_total : forall health ready files r, NoDup (map fst files) -> exists a, ServeHTTP health ready files r = Some a.
Proof.
  intros health ready files r ND. rewrite serve_eq.
  destruct (str_eqb (q_path r) health); [eexists; reflexivity|]. destruct ready; [|eexists; reflexivity]. cbn [negb].
  destruct (q_star r); [eexists; reflexivity|]. destruct (q_connect r); [apply at_path_total; exact ND|].
  destruct (clean_total (q_path r)) as [p P]. rewrite P. cbn [bind].
  destruct (str_eqb p (q_path r)); [apply at_path_total; exact ND|eexists; reflexivity].
Qed.
(** Whoever follows the redirect is not redirected again. *)
Lemma moved_once : forall health ready files r p q, ServeHTTP health ready files r = Some (MovedTo p q) ->
  forall ready' r' p' q', q_path r' = p -> q_connect r' = false -> ServeHTTP health ready' files r' <> Some (MovedTo p' q').
Proof.
  intros health ready files r p q E ready' r' p' q' EP NC E'. rewrite serve_eq in E, E'.
  destruct (str_eqb (q_path r) health); [discriminate E|]. destruct ready; [|discriminate E]. cbn [negb] in E.
  destruct (q_star r); [discriminate E|].
  assert (NA : forall x, at_path files x <> Some (MovedTo p q) /\ at_path files x <> Some (MovedTo p' q')).
  { intros x. unfold at_path, prd_ServeHTTP, serveAsset. destruct (mux_match the_mux x) as [[|e]|]; [|split; discriminate|split; discriminate].
    destruct (lookup contents x); [split; discriminate|]. destruct x; [split; discriminate|].
    destruct (open files x) as [[y|]|]; split; discriminate. }
  destruct (q_connect r); [exact (proj1 (NA _) E)|].
  destruct (cleanPath (q_path r)) as [c|] eqn:C; [|discriminate E]. cbn [bind] in E.
  destruct (str_eqb c (q_path r)); [exact (proj1 (NA _) E)|]. assert (c = p) by congruence. subst c.
  destruct (str_eqb (q_path r') health); [discriminate E'|]. destruct ready'; [|discriminate E']. cbn [negb] in E'.
  destruct (q_star r'); [discriminate E'|]. rewrite NC, EP, (clean_again _ _ C) in E'. cbn [bind] in E'.
  rewrite str_eqb_refl in E'. exact (proj2 (NA _) E').
Qed.
