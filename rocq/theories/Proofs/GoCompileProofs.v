(** syntax.Compile (Model/GoRegexp.v): the program matches what the expression matches. *)
From Verif Require Import Model.Base Model.Utf8 Model.Syntax Model.Matcher Model.Utf Model.GoRegexp Spec.Utf8Spec Spec.RegexSpec Spec.MatchSpec
  Spec.RuneProgSpec Spec.ExprSpec Spec.ParsedSpec Proofs.ExprLines Proofs.AnalyzeSound Proofs.Thompson Proofs.FragProofs.
From Coq Require Import Relations.
Local Open Scope N_scope.

(** ** Holes *)
Definition has_field (x : xinst) (arg : bool) : Prop :=
  match x with
  | XB (IAlt _ _) => True
  | XB (INop _) | XB (IEmpty _ _) | XRune _ _ _ _ | XAny _ | XAnyNotNL _ => arg = false
  | _ => False
  end.
Lemma get_set : forall x b v, has_field x b -> get_field (set_field x b v) b = v.
Proof. intros [[]|one rs fd o|o|o] b v H; try destruct H; destruct b; try reflexivity; discriminate. Qed.
Lemma get_set_other : forall x b b' v, has_field x b -> has_field x b' -> b <> b' -> get_field (set_field x b v) b' = get_field x b'.
Proof. intros [[]|one rs fd o|o|o] b b' v H H' D; destruct b, b'; cbn in *; try congruence; contradiction. Qed.
Lemma set_set : forall x b v w, set_field (set_field x b w) b v = set_field x b v.
Proof. intros [[]|one rs fd o|o|o] [|] v w; reflexivity. Qed.
Lemma set_comm : forall x b b' v w, has_field x b -> has_field x b' -> b <> b' -> set_field (set_field x b w) b' v = set_field (set_field x b' v) b w.
Proof. intros [[]|one rs fd o|o|o] [|] [|] v w H H' D; cbn in *; try congruence; contradiction. Qed.
Lemma field_set : forall x b v b', has_field (set_field x b v) b' <-> has_field x b'.
Proof. intros [[]|one rs fd o|o|o] [|] v b'; reflexivity. Qed.

Lemma nth_change : forall p n f k, nth_error (change p n f) k = option_map (fun x => if Nat.eqb k n then f x else x) (nth_error p k).
Proof.
  induction p as [|x p IH]; intros n f k; [destruct k; reflexivity|]. destruct n as [|n], k as [|k]; cbn [change nth_error Nat.eqb option_map]; try reflexivity.
  - destruct (nth_error p k); reflexivity.
  - apply IH.
Qed.
Lemma change_length : forall p n f, length (change p n f) = length p.
Proof. induction p as [|x p IH]; intros [|n] f; cbn [change length]; try rewrite IH; reflexivity. Qed.
Lemma set_hole_length : forall p h v, length (set_hole p h v) = length p.
Proof. intros p h v. apply change_length. Qed.
Definition set_at (h v : N) (n : nat) (x : xinst) : xinst := if Nat.eqb n (N.to_nat (h / 2)) then set_field x (N.odd h) v else x.
Lemma nth_set : forall p h v n, nth_error (set_hole p h v) n = option_map (set_at h v n) (nth_error p n).
Proof. intros p h v n. apply nth_change. Qed.

Definition hole_ok (p : list xinst) (h : N) : Prop := exists x, nth_error p (N.to_nat (h / 2)) = Some x /\ has_field x (N.odd h).
Lemma half : forall h h' : N, h / 2 = h' / 2 -> N.odd h = N.odd h' -> h = h'.
Proof.
  intros h h' E O. rewrite (N.div_mod h 2), (N.div_mod h' 2) by lia. rewrite E, <- !N.bit0_mod, !N.bit0_odd, O. reflexivity.
Qed.
Lemma hole_ok_set : forall p h v g, hole_ok p g -> hole_ok (set_hole p h v) g.
Proof.
  intros p h v g (x & X & F). exists (set_at h v (N.to_nat (g / 2)) x). split; [rewrite nth_set, X; reflexivity|].
  unfold set_at. destruct Nat.eqb; [apply field_set|]; exact F.
Qed.
Lemma get_set_hole : forall p h v, hole_ok p h -> get_hole (set_hole p h v) h = v.
Proof.
  intros p h v (x & X & F). unfold get_hole. rewrite nth_set, X. cbn [option_map]. unfold set_at. rewrite Nat.eqb_refl. apply get_set, F.
Qed.
Lemma get_set_hole_other : forall p h v g, hole_ok p h -> hole_ok p g -> h <> g -> get_hole (set_hole p h v) g = get_hole p g.
Proof.
  intros p h v g (x & X & F) (y & Y & G) D. unfold get_hole. rewrite nth_set, Y. cbn [option_map]. unfold set_at.
  destruct (Nat.eqb_spec (N.to_nat (g / 2)) (N.to_nat (h / 2))) as [E|E]; [|reflexivity].
  rewrite E, X in Y. injection Y as <-. apply get_set_other; [exact F|exact G|]. intros O. apply D, half; [lia|exact O].
Qed.

Definition fill (p : list xinst) (L : list N) (v : N) : list xinst := fold_left (fun p h => set_hole p h v) L p.
Definition fill1 (L : list N) (v : N) (n : nat) (x : xinst) : xinst := fold_left (fun x h => set_at h v n x) L x.
Lemma nth_fill : forall L p v n, nth_error (fill p L v) n = option_map (fill1 L v n) (nth_error p n).
Proof.
  induction L as [|h L IH]; intros p v n; cbn [fill fill1 fold_left]; [destruct (nth_error p n); reflexivity|].
  change (fold_left (fun p h => set_hole p h v) L (set_hole p h v)) with (fill (set_hole p h v) L v). rewrite IH, nth_set.
  destruct (nth_error p n); reflexivity.
Qed.
Lemma fill_length : forall L p v, length (fill p L v) = length p.
Proof. induction L as [|h L IH]; intros p v; [reflexivity|]. cbn [fill fold_left]. etransitivity; [apply IH|apply set_hole_length]. Qed.
Lemma fill1_app : forall L1 L2 v n x, fill1 (L1 ++ L2) v n x = fill1 L2 v n (fill1 L1 v n x).
Proof. intros. unfold fill1. apply fold_left_app. Qed.
Lemma fill1_none : forall L v n x, Forall (fun h => N.to_nat (h / 2) <> n) L -> fill1 L v n x = x.
Proof.
  induction 1 as [|h L H _ IH]; [reflexivity|]. cbn [fill1 fold_left]. unfold set_at at 2. destruct (Nat.eqb_spec n (N.to_nat (h / 2))); [congruence|]. exact IH.
Qed.
Lemma fill1_field : forall L v n x b, has_field (fill1 L v n x) b <-> has_field x b.
Proof.
  induction L as [|h L IH]; intros v n x b; [reflexivity|]. cbn [fill1 fold_left].
  etransitivity; [apply IH|]. unfold set_at. destruct Nat.eqb; [apply field_set|reflexivity].
Qed.
(** What is in a hole does not matter. *)
Lemma fill1_set : forall L v h w n x, In h L -> Forall (fun g => N.to_nat (g / 2) = n -> has_field x (N.odd g)) L ->
  fill1 L v n (set_at h w n x) = fill1 L v n x.
Proof.
  intros L v h w n. induction L as [|g L IH]; intros x I F; [destruct I|]. cbn [fill1 fold_left].
  apply Forall_cons_iff in F. destruct F as (Fg & F).
  assert (Forall (fun g0 => N.to_nat (g0 / 2) = n -> has_field (set_at g v n x) (N.odd g0)) L) as F'.
  { eapply Forall_impl; [|exact F]. cbn beta. intros a H E. unfold set_at. destruct Nat.eqb; [apply field_set|]; apply H, E. }
  destruct (N.eq_dec g h) as [->|D].
  - f_equal. unfold set_at. destruct Nat.eqb; [apply set_set|reflexivity].
  - destruct I as [I|I]; [congruence|]. change (fill1 L v n (set_at g v n (set_at h w n x)) = fill1 L v n (set_at g v n x)).
    rewrite <- (IH (set_at g v n x) I F'). f_equal. unfold set_at.
    destruct (Nat.eqb_spec n (N.to_nat (g / 2))) as [Eg|]; [|reflexivity]. destruct (Nat.eqb_spec n (N.to_nat (h / 2))) as [Eh|]; [|reflexivity].
    apply set_comm; [rewrite Forall_forall in F; apply (F h I); auto|apply Fg; auto|]. intros O. apply D, half; [lia|congruence].
Qed.

(** ** Patch lists *)
Fixpoint chain (p : list xinst) (h t : N) (L : list N) : Prop :=
  match L with
  | [] => False
  | x :: r => h = x /\ match r with [] => t = x /\ get_hole p x = 0 | _ :: _ => chain p (get_hole p x) t r end
  end.
Lemma chain_frame : forall L p p' h t, (forall g, In g L -> get_hole p' g = get_hole p g) -> chain p h t L -> chain p' h t L.
Proof.
  induction L as [|x [|y r] IH]; intros p p' h t F C; [exact C| |].
  - destruct C as (-> & -> & G). split; [reflexivity|]. split; [reflexivity|]. rewrite (F x (or_introl eq_refl)). exact G.
  - destruct C as (-> & C). split; [reflexivity|]. rewrite (F x (or_introl eq_refl)). apply (IH p); [|exact C]. intros g I. apply F. right. exact I.
Qed.
Lemma chain_last : forall L p h t, chain p h t L -> In t L /\ get_hole p t = 0.
Proof.
  induction L as [|x [|y r] IH]; intros p h t C; [destruct C| |].
  - destruct C as (-> & -> & G). split; [left; reflexivity|exact G].
  - destruct C as (_ & C). destruct (IH _ _ _ C) as (I & G). split; [right; exact I|exact G].
Qed.
Lemma chain_head : forall L p h t, chain p h t L -> In h L.
Proof. intros [|x r] p h t C; [destruct C|]. destruct C as (-> & _). left. reflexivity. Qed.
Lemma chain_app : forall L1 L2 p h1 t1 h2 t2, chain p h1 t1 L1 -> chain p h2 t2 L2 -> Forall (hole_ok p) (L1 ++ L2) -> NoDup (L1 ++ L2) ->
  chain (set_hole p t1 h2) h1 t2 (L1 ++ L2).
Proof.
  intros L1 L2 p h1 t1 h2 t2 C1 C2 F ND. destruct (chain_last _ _ _ _ C1) as (T1 & _).
  assert (chain (set_hole p t1 h2) h2 t2 L2) as C2'.
  { apply (chain_frame L2 p); [|exact C2]. intros g I. rewrite Forall_forall in F. apply get_set_hole_other; [apply F, in_or_app; auto|apply F, in_or_app; auto|].
    intros <-. revert ND. clear -T1 I. induction L1 as [|a L1 IH]; [destruct T1|]. intros ND. inversion ND as [|? ? NI ND']; subst.
    destruct T1 as [->|T1]; [apply NI, in_or_app; auto|apply IH; assumption]. }
  clear C2. revert h1 C1 F ND T1. induction L1 as [|x [|y r] IH]; intros h1 C1 F ND T1; [destruct C1| |].
  - destruct C1 as (-> & -> & _). cbn [app]. destruct L2 as [|z L2]; [destruct C2'|]. split; [reflexivity|].
    rewrite get_set_hole; [exact C2'|]. apply Forall_inv in F. exact F.
  - destruct C1 as (-> & C1). cbn [app] in *. split; [reflexivity|]. apply Forall_cons_iff in F. destruct F as (Fx & F).
    inversion ND as [|? ? NI ND']; subst. destruct (chain_last _ _ _ _ C1) as (T1' & _).
    rewrite get_set_hole_other; [| |exact Fx|].
    + apply IH; [exact C1|exact F|exact ND'|exact T1'].
    + rewrite Forall_forall in F. apply F. change (y :: r ++ L2) with ((y :: r) ++ L2). apply in_or_app. left. exact T1'.
    + intros ->. apply NI. change (y :: r ++ L2) with ((y :: r) ++ L2). apply in_or_app. left. exact T1'.
Qed.
Lemma patch_chain : forall L p h t v fuel, chain p h t L -> NoDup L -> Forall (hole_ok p) L -> Forall (fun x => x <> 0) L -> (length L <= fuel)%nat ->
  patch_loop fuel p h v = Some (fill p L v).
Proof.
  induction L as [|x r IH]; intros p h t v fuel C ND F Z LF; [destruct C|]. destruct C as (-> & C).
  apply Forall_cons_iff in F. destruct F as (Fx & F). apply Forall_cons_iff in Z. destruct Z as (Zx & Z). inversion ND as [|? ? NI ND']; subst.
  destruct fuel as [|fuel]; [cbn [length] in LF; lia|]. cbn [patch_loop]. rewrite (proj2 (N.eqb_neq x 0) Zx).
  destruct r as [|y r].
  - destruct C as (-> & G). rewrite G. destruct fuel; reflexivity.
  - cbn [fill fold_left]. change (fold_left (fun p h => set_hole p h v) r (set_hole (set_hole p x v) y v)) with (fill (set_hole p x v) (y :: r) v).
    apply (IH _ _ t); [|exact ND'| |exact Z|cbn [length] in *; lia].
    + apply (chain_frame _ p); [|exact C]. intros g I. apply get_set_hole_other; [exact Fx|rewrite Forall_forall in F; apply F, I|]. intros <-. exact (NI I).
    + eapply Forall_impl; [|exact F]. intros g. apply hole_ok_set.
Qed.
Lemma holes_bound : forall p L, NoDup L -> Forall (hole_ok p) L -> (length L <= 2 * length p)%nat.
Proof.
  intros p L ND F. rewrite <- (seq_length (2 * length p) 0), <- (map_length N.to_nat L). apply NoDup_incl_length.
  - apply FinFun.Injective_map_NoDup; [|exact ND]. intros a b E. lia.
  - intros a I. apply in_map_iff in I. destruct I as (h & <- & I). rewrite Forall_forall in F. destruct (F h I) as (x & X & _).
    assert (N.to_nat (h / 2) < length p)%nat by (apply nth_error_Some; congruence). apply in_seq.
    pose proof (N.div_mod h 2 ltac:(lia)). pose proof (N.mod_lt h 2 ltac:(lia)). lia.
Qed.

(** ** Fragments *)
Section Good.
Variable sf : N -> N.
Variable om : nat.

Definition inst_ok (lo hi : nat) (nx : N) (y : xinst) : Prop :=
  wf_rune sf om y /\ y <> XB IMatch /\
  Forall (fun t => (N.of_nat lo <= t /\ t < N.of_nat hi) \/ t = nx) (xtargets y).
Definition agrees (P : xprog) (p : list xinst) (L : list N) (nx : N) (lo : nat) : Prop :=
  forall n x, (lo <= n)%nat -> nth_error p n = Some x -> xinstr P (N.of_nat n) (fill1 L nx n x).
Definition hole_in (p : list xinst) (lo : nat) (h : N) : Prop := hole_ok p h /\ (lo <= N.to_nat (h / 2))%nat.

Record frag_ok (M : lang) (lo : nat) (p : list xinst) (f : frag) (L : list N) : Prop := mkFO {
  fo_entry : N.of_nat lo <= f_i f /\ f_i f < N.of_nat (length p);
  fo_chain : chain p (f_head f) (f_tail f) L;
  fo_nodup : NoDup L;
  fo_holes : Forall (hole_in p lo) L;
  fo_sem : forall nx P line bot eot, ~ In 10 line -> agrees P p L nx lo ->
             sem sf P line bot eot (N.of_nat lo) (N.of_nat (length p)) (f_i f) nx M;
  fo_insts : forall nx n x, (lo <= n)%nat -> nth_error p n = Some x -> inst_ok lo (length p) nx (fill1 L nx n x) }.
(** From [p], which has its first instruction, the code [p'] was made. *)
Definition good (M : lang) (p p' : list xinst) (f : frag) : Prop :=
  (length p < length p')%nat /\ firstn (length p) p' = p /\ exists L, frag_ok M (length p) p' f L.

Lemma good_same : forall M M' p p' f, same M M' -> good M p p' f -> good M' p p' f.
Proof.
  intros M M' p p' f S (L & F & H & [E C ND HO SE IN]). split; [exact L|]. split; [exact F|]. exists H.
  constructor; try assumption. intros nx P line bot eot NL A. apply (sem_same _ _ _ _ _ _ _ _ _ _ _ S). apply SE; assumption.
Qed.
Lemma double : forall i, 2 * N.of_nat i / 2 = N.of_nat i.
Proof. intros i. rewrite N.mul_comm. apply N.div_mul. lia. Qed.
Lemma double1 : forall i, (2 * N.of_nat i + 1) / 2 = N.of_nat i.
Proof. intros i. symmetry. apply (N.div_unique _ 2 _ 1); lia. Qed.
Lemma odd_double : forall i, N.odd (2 * i) = false.
Proof. intros i. rewrite N.odd_mul. reflexivity. Qed.
Lemma odd_double1 : forall i, N.odd (2 * i + 1) = true.
Proof. intros i. rewrite N.add_comm, N.odd_add_mul_2. reflexivity. Qed.
Lemma firstn_extend : forall {A} (p s : list A), firstn (length p) (p ++ s) = p.
Proof. intros A p s. rewrite firstn_app, Nat.sub_diag, firstn_O, app_nil_r. apply firstn_all. Qed.
Lemma nth_extend : forall {A} (p : list A) x, nth_error (p ++ [x]) (length p) = Some x.
Proof. intros A p x. rewrite nth_error_app2, Nat.sub_diag by lia. reflexivity. Qed.

(** One instruction. *)
Lemma good_emit : forall M p x nullable, has_field x false -> get_field x false = 0 ->
  (forall nx, inst_ok (length p) (length p) nx (set_field x false nx)) ->
  (forall nx P line bot eot h, ~ In 10 line -> xinstr P h (set_field x false nx) -> sem sf P line bot eot h (h + 1) h nx M) ->
  good M p (fst (emit p x nullable)) (snd (emit p x nullable)).
Proof.
  intros M p x nullable HF GZ IO SE. cbn [emit fst snd]. assert (length (p ++ [x]) = S (length p)) as LN by (rewrite app_length; cbn; lia).
  split; [lia|]. split; [apply firstn_extend|]. exists [2 * N.of_nat (length p)].
  assert (forall n y, (length p <= n)%nat -> nth_error (p ++ [x]) n = Some y -> n = length p /\ y = x) as AT.
  { intros n y Ln X. assert (n < length (p ++ [x]))%nat by (apply nth_error_Some; congruence). assert (n = length p) as -> by lia.
    rewrite nth_extend in X. injection X as <-. auto. }
  assert (forall nx, fill1 [2 * N.of_nat (length p)] nx (length p) x = set_field x false nx) as FE.
  { intros nx. cbn [fill1 fold_left]. unfold set_at. rewrite double, Nat2N.id, Nat.eqb_refl, odd_double. reflexivity. }
  constructor; cbn [f_i f_head f_tail].
  - lia.
  - split; [reflexivity|]. split; [reflexivity|]. unfold get_hole. rewrite double, Nat2N.id, nth_extend, odd_double. exact GZ.
  - constructor; [intros []|constructor].
  - constructor; [|constructor]. split; [|rewrite double; lia]. exists x. rewrite double, Nat2N.id, nth_extend, odd_double. auto.
  - intros nx P line bot eot NL A. rewrite LN. replace (N.of_nat (S (length p))) with (N.of_nat (length p) + 1) by lia.
    apply SE; [exact NL|]. rewrite <- FE. apply A; [lia|apply nth_extend].
  - intros nx n y Ln X. destruct (AT n y Ln X) as (-> & ->). rewrite FE. destruct (IO nx) as (W & NM & T). split; [exact W|]. split; [exact NM|].
    eapply Forall_impl; [|exact T]. cbn beta. lia.
Qed.

Lemma hole_in_ok : forall p lo L, Forall (hole_in p lo) L -> Forall (hole_ok p) L.
Proof. intros p lo L F. eapply Forall_impl; [|exact F]. intros h (H & _). exact H. Qed.
Lemma holes_nonzero : forall p lo L, (0 < lo)%nat -> Forall (hole_in p lo) L -> Forall (fun h => h <> 0) L.
Proof. intros p lo L Z F. eapply Forall_impl; [|exact F]. intros h (_ & H) ->. cbn in H. lia. Qed.
Lemma nth_prefix : forall (p p' : list xinst) n, firstn (length p) p' = p -> (n < length p)%nat -> nth_error p' n = nth_error p n.
Proof.
  intros p p' n F L. rewrite <- (firstn_skipn (length p) p') at 1. rewrite F. apply nth_error_app1, L.
Qed.
Lemma hole_lt : forall p h, hole_ok p h -> (N.to_nat (h / 2) < length p)%nat.
Proof. intros p h (x & X & _). apply nth_error_Some. congruence. Qed.
Lemma no_hole_above : forall p L n, Forall (hole_ok p) L -> (length p <= n)%nat -> Forall (fun h => N.to_nat (h / 2) <> n) L.
Proof. intros p L n F Ln. eapply Forall_impl; [|exact F]. intros h H. apply hole_lt in H. lia. Qed.
Lemma no_hole_below : forall p lo L n, Forall (hole_in p lo) L -> (n < lo)%nat -> Forall (fun h => N.to_nat (h / 2) <> n) L.
Proof. intros p lo L n F Ln. eapply Forall_impl; [|exact F]. intros h (_ & H). lia. Qed.
Lemma fill_prefix : forall p L v m, Forall (fun h => (m <= N.to_nat (h / 2))%nat) L -> firstn m (fill p L v) = firstn m p.
Proof.
  intros p L v m F. apply nth_ext with (d := XB IFail) (d' := XB IFail); [rewrite !firstn_length, fill_length; reflexivity|].
  intros n Ln. rewrite firstn_length, fill_length in Ln. assert (n < m)%nat as Lm by lia.
  assert (forall (q : list xinst), nth n (firstn m q) (XB IFail) = nth n q (XB IFail)) as NF.
  { intros q. rewrite <- (firstn_skipn m q) at 2. destruct (Nat.lt_ge_cases n (length (firstn m q))) as [X|X].
    - rewrite app_nth1 by exact X. reflexivity.
    - rewrite firstn_length in X. rewrite (nth_overflow (firstn m q)) by (rewrite firstn_length; lia). rewrite skipn_all2 by lia.
      rewrite app_nil_r. rewrite nth_overflow by (rewrite firstn_length; lia). reflexivity. }
  rewrite !NF. assert (nth_error (fill p L v) n = nth_error p n) as E.
  { rewrite nth_fill. destruct (nth_error p n) as [x|]; [|reflexivity]. cbn [option_map]. f_equal. apply fill1_none.
    eapply Forall_impl; [|exact F]. cbn beta. intros h H. lia. }
  destruct (nth_error p n) as [x|] eqn:X.
  - rewrite (nth_error_nth _ _ _ X), (nth_error_nth _ _ _ E). reflexivity.
  - apply nth_error_None in X. rewrite !nth_overflow by (rewrite ?fill_length; lia). reflexivity.
Qed.
Lemma firstn_firstn_le : forall {A} (l : list A) a b, (a <= b)%nat -> firstn a l = firstn a (firstn b l).
Proof. intros A l a b L. rewrite firstn_firstn, Nat.min_l by lia. reflexivity. Qed.
Lemma two_prefixes : forall (p p1 p2 : list xinst), firstn (length p) p1 = p -> firstn (length p1) p2 = p1 -> (length p <= length p1)%nat ->
  firstn (length p) p2 = p.
Proof. intros p p1 p2 F1 F2 L. rewrite (firstn_firstn_le p2 _ _ L), F2. exact F1. Qed.
Lemma hole_ok_prefix : forall p p' h, firstn (length p) p' = p -> hole_ok p h -> hole_ok p' h.
Proof. intros p p' h F H. pose proof (hole_lt _ _ H) as L. destruct H as (x & X & HF). exists x. rewrite (nth_prefix p p' _ F L). auto. Qed.
Lemma get_hole_prefix : forall p p' h, firstn (length p) p' = p -> hole_ok p h -> get_hole p' h = get_hole p h.
Proof. intros p p' h F H. unfold get_hole. rewrite (nth_prefix p p' _ F (hole_lt _ _ H)). reflexivity. Qed.
Lemma chain_prefix : forall p p' h t L, firstn (length p) p' = p -> Forall (hole_ok p) L -> chain p h t L -> chain p' h t L.
Proof. intros p p' h t L F H. apply chain_frame. intros g I. rewrite Forall_forall in H. apply get_hole_prefix; [exact F|apply H, I]. Qed.
Lemma get_hole_fill : forall L p v g, Forall (hole_ok p) L -> hole_ok p g -> ~ In g L -> get_hole (fill p L v) g = get_hole p g.
Proof.
  induction L as [|h L IH]; intros p v g F G NI; [reflexivity|]. apply Forall_cons_iff in F. destruct F as (Fh & F). cbn [fill fold_left].
  etransitivity; [apply (IH (set_hole p h v))|].
  - eapply Forall_impl; [|exact F]. intros a. apply hole_ok_set.
  - apply hole_ok_set, G.
  - intros I. apply NI. right. exact I.
  - apply get_set_hole_other; [exact Fh|exact G|]. intros ->. apply NI. left. reflexivity.
Qed.
Lemma hole_ok_fill : forall L p v g, hole_ok p g -> hole_ok (fill p L v) g.
Proof. induction L as [|h L IH]; intros p v g G; [exact G|]. cbn [fill fold_left]. apply IH, hole_ok_set, G. Qed.
Lemma patch_good : forall p1 p2 h t L v, chain p1 h t L -> NoDup L -> Forall (hole_ok p1) L -> Forall (fun h => h <> 0) L -> firstn (length p1) p2 = p1 ->
  (length p1 <= length p2)%nat -> patch_loop (S (2 * length p2)) p2 h v = Some (fill p2 L v).
Proof.
  intros p1 p2 h t L v C ND F Z PF LE. apply patch_chain with (t := t); [apply (chain_prefix p1); assumption|exact ND| |exact Z|].
  - eapply Forall_impl; [|exact F]. intros g. apply hole_ok_prefix, PF.
  - pose proof (holes_bound _ _ ND F). lia.
Qed.
Lemma inst_ok_wider : forall lo hi nx lo' hi' nx' y, inst_ok lo hi nx y -> (lo' <= lo)%nat -> (hi <= hi')%nat ->
  (nx = nx' \/ (N.of_nat lo' <= nx /\ nx < N.of_nat hi')) -> inst_ok lo' hi' nx' y.
Proof.
  intros lo hi nx lo' hi' nx' y (W & NM & T) L1 L2 N'. split; [exact W|]. split; [exact NM|]. eapply Forall_impl; [|exact T]. cbn beta. lia.
Qed.

Lemma change_app : forall p s n f, (n < length p)%nat -> change (p ++ s) n f = change p n f ++ s.
Proof. induction p as [|x p IH]; intros s [|n] f L; cbn [length app change] in *; try lia; [reflexivity|]. rewrite IH by lia. reflexivity. Qed.
Lemma fill_app : forall L p s v, Forall (hole_ok p) L -> fill (p ++ s) L v = fill p L v ++ s.
Proof.
  induction L as [|h L IH]; intros p s v F; [reflexivity|]. apply Forall_cons_iff in F. destruct F as (Fh & F). cbn [fill fold_left].
  unfold set_hole at 2. rewrite change_app by (apply hole_lt, Fh). apply (IH (set_hole p h v)). eapply Forall_impl; [|exact F]. intros g. apply hole_ok_set.
Qed.
(** compiler.cat; more code may follow. *)
Lemma good_cat : forall M1 M2 p p1 p2 f1 f2, (0 < length p)%nat -> good M1 p p1 f1 -> good M2 p1 p2 f2 ->
  exists p3 f, c_cat p2 f1 f2 = Some (p3, f) /\ good (l_seq M1 M2) p p3 f /\ length p3 = length p2 /\
    forall s, c_cat (p2 ++ s) f1 f2 = Some (p3 ++ s, f).
Proof.
  intros M1 M2 p p1 p2 f1 f2 Z (LE1 & PF1 & L1 & [E1 C1 ND1 HO1 SE1 IN1]) (LE2 & PF2 & L2 & [E2 C2 ND2 HO2 SE2 IN2]).
  pose proof (hole_in_ok _ _ _ HO1) as HK1. pose proof (hole_in_ok _ _ _ HO2) as HK2.
  assert (Forall (hole_ok p2) L1) as HK1' by (eapply Forall_impl; [|exact HK1]; intros h; apply hole_ok_prefix, PF2).
  unfold c_cat. rewrite (proj2 (N.eqb_neq (f_i f1) 0)), (proj2 (N.eqb_neq (f_i f2) 0)) by lia. cbn [orb].
  unfold patch. rewrite (patch_good p1 p2 _ _ L1 _ C1 ND1 HK1 (holes_nonzero _ _ _ Z HO1) PF2 ltac:(lia)). cbn [bind].
  eexists _, _. split; [reflexivity|]. split; [|split; [apply fill_length|]].
  2:{ intros s. rewrite (patch_good p1 (p2 ++ s) _ _ L1 _ C1 ND1 HK1 (holes_nonzero _ _ _ Z HO1)); [|rewrite firstn_app; replace (length p1 - length p2)%nat with O by lia; rewrite firstn_O, app_nil_r; exact PF2|rewrite app_length; lia].
      cbn [bind]. rewrite fill_app by exact HK1'. reflexivity. }
  assert (Forall (fun h => (length p <= N.to_nat (h / 2))%nat) L1) as AB by (eapply Forall_impl; [|exact HO1]; intros h (_ & H); exact H).
  split; [rewrite fill_length; lia|]. split; [rewrite fill_prefix by exact AB; apply (two_prefixes p p1 p2 PF1 PF2); lia|].
  exists L2.
  assert (forall g, In g L2 -> ~ In g L1) as DJ.
  { intros g I2 I1. rewrite Forall_forall in HK1, HO2. apply HK1 in I1. apply hole_lt in I1. apply HO2 in I2. destruct I2. lia. }
  constructor; cbn [f_i f_head f_tail].
  - rewrite fill_length. lia.
  - apply (chain_frame L2 p2); [|exact C2]. intros g I. rewrite Forall_forall in HK2. apply get_hole_fill; [exact HK1'|apply HK2, I|apply DJ, I].
  - exact ND2.
  - eapply Forall_impl; [|exact HO2]. intros h (H & H'). split; [apply hole_ok_fill, H|lia].
  - intros nx P line bot eot NL A. rewrite fill_length. apply (sem_seq sf P line bot eot _ (N.of_nat (length p1)) _ _ (f_i f2)); [lia|lia| |].
    + apply SE1; [exact NL|]. intros n x Ln X. assert (n < length p1)%nat as Lt by (apply nth_error_Some; congruence).
      specialize (A n (fill1 L1 (f_i f2) n x) Ln). rewrite nth_fill, (nth_prefix _ _ _ PF2 Lt), X in A. specialize (A eq_refl).
      rewrite (fill1_none L2) in A by (apply (no_hole_below p2 (length p1)); [exact HO2|exact Lt]). exact A.
    + apply SE2; [exact NL|]. intros n x Ln X. specialize (A n x ltac:(lia)). rewrite nth_fill, X in A. cbn [option_map] in A.
      rewrite (fill1_none L1) in A by (apply (no_hole_above p1); [exact HK1|lia]). apply A. reflexivity.
  - intros nx n x Ln X. rewrite fill_length. rewrite nth_fill in X. destruct (Nat.lt_ge_cases n (length p1)) as [Lt|Lt].
    + rewrite (nth_prefix _ _ _ PF2 Lt) in X. destruct (nth_error p1 n) as [y|] eqn:Y; [|discriminate]. cbn [option_map] in X. injection X as <-.
      rewrite (fill1_none L2) by (apply (no_hole_below p2 (length p1)); [exact HO2|exact Lt]).
      eapply inst_ok_wider; [apply (IN1 (f_i f2) n y Ln Y)| | |]; [lia|lia|right; lia].
    + destruct (nth_error p2 n) as [y|] eqn:Y; [|discriminate]. cbn [option_map] in X. injection X as <-.
      rewrite (fill1_none L1) by (apply (no_hole_above p1); [exact HK1|lia]).
      eapply inst_ok_wider; [apply (IN2 nx n y Lt Y)| | |]; [lia|lia|left; reflexivity].
Qed.

Lemma holes_fields : forall p L n x, Forall (hole_ok p) L -> nth_error p n = Some x -> Forall (fun g => N.to_nat (g / 2) = n -> has_field x (N.odd g)) L.
Proof. intros p L n x F X. eapply Forall_impl; [|exact F]. intros g (y & Y & H) E. rewrite E, X in Y. injection Y as <-. exact H. Qed.
Lemma set_at_other : forall h v n x, N.to_nat (h / 2) <> n -> set_at h v n x = x.
Proof. intros h v n x D. unfold set_at. destruct (Nat.eqb_spec n (N.to_nat (h / 2))); [congruence|reflexivity]. Qed.
Lemma set_hole_prefix : forall p h v m, (m <= N.to_nat (h / 2))%nat -> firstn m (set_hole p h v) = firstn m p.
Proof. intros p h v m L. apply (fill_prefix p [h] v m). constructor; [exact L|constructor]. Qed.
Lemma nth_last : forall {A} (p : list A) x n y, nth_error (p ++ [x]) n = Some y -> (n < length p)%nat /\ nth_error p n = Some y \/ n = length p /\ y = x.
Proof.
  intros A p x n y E. destruct (Nat.lt_ge_cases n (length p)) as [L|L]; [left; split; [exact L|]; rewrite nth_error_app1 in E by exact L; exact E|].
  right. assert (n < length (p ++ [x]))%nat as B by (apply nth_error_Some; congruence). rewrite app_length in B. cbn [length] in B.
  assert (n = length p) as -> by lia. rewrite nth_extend in E. injection E as <-. auto.
Qed.
Lemma length_last : forall {A} (p : list A) x, length (p ++ [x]) = S (length p).
Proof. intros A p x. rewrite app_length. cbn [length]. lia. Qed.

(** compiler.alt *)
Lemma good_alt : forall M1 M2 p p1 p2 f1 f2, (0 < length p)%nat -> good M1 p p1 f1 -> good M2 p1 p2 f2 ->
  good (l_alt M1 M2) p (fst (c_alt p2 f1 f2)) (snd (c_alt p2 f1 f2)).
Proof.
  intros M1 M2 p p1 p2 f1 f2 Z (LE1 & PF1 & L1 & [E1 C1 ND1 HO1 SE1 IN1]) (LE2 & PF2 & L2 & [E2 C2 ND2 HO2 SE2 IN2]).
  pose proof (hole_in_ok _ _ _ HO1) as HK1. pose proof (hole_in_ok _ _ _ HO2) as HK2.
  pose proof (holes_nonzero _ _ _ Z HO1) as Z1. pose proof (holes_nonzero p2 (length p1) L2 ltac:(lia) HO2) as Z2.
  pose proof (chain_head _ _ _ _ C1) as H1. pose proof (chain_head _ _ _ _ C2) as H2. destruct (chain_last _ _ _ _ C1) as (T1 & _).
  unfold c_alt, append_lists. rewrite (proj2 (N.eqb_neq (f_i f1) 0)), (proj2 (N.eqb_neq (f_i f2) 0)) by lia.
  rewrite (proj2 (N.eqb_neq (f_head f1) 0)) by (rewrite Forall_forall in Z1; apply Z1, H1).
  rewrite (proj2 (N.eqb_neq (f_head f2) 0)) by (rewrite Forall_forall in Z2; apply Z2, H2). cbn [fst snd].
  set (x := XB (IAlt (f_i f1) (f_i f2))).
  assert (Forall (hole_ok p2) L1) as HK1' by (eapply Forall_impl; [|exact HK1]; intros h; apply hole_ok_prefix, PF2).
  assert (Forall (hole_ok (p2 ++ [x])) (L1 ++ L2)) as HK.
  { apply Forall_app. split; [eapply Forall_impl; [|exact HK1']|eapply Forall_impl; [|exact HK2]]; intros h; apply hole_ok_prefix, firstn_extend. }
  assert (forall g, In g L2 -> ~ In g L1) as DJ.
  { intros g I2 I1. rewrite Forall_forall in HK1, HO2. apply HK1 in I1. apply hole_lt in I1. apply HO2 in I2. destruct I2. lia. }
  assert (NoDup (L1 ++ L2)) as ND by (apply Proofs.ListLemmas.NoDup_app_intro; [exact ND1|exact ND2|intros g I1 I2; exact (DJ g I2 I1)]).
  assert (length p <= N.to_nat (f_tail f1 / 2) < length p1)%nat as TR.
  { rewrite Forall_forall in HO1. apply HO1 in T1. destruct T1 as (H & H'). apply hole_lt in H. lia. }
  assert (forall n, (n < length p1)%nat -> Forall (fun h => N.to_nat (h / 2) <> n) L2) as N2 by (intros n Ln; apply (no_hole_below p2 (length p1)); assumption).
  assert (forall n, (length p1 <= n)%nat -> Forall (fun h => N.to_nat (h / 2) <> n) L1) as N1 by (intros n Ln; apply (no_hole_above p1); assumption).
  assert (forall nx n y, nth_error (set_hole (p2 ++ [x]) (f_tail f1) (f_head f2)) n = Some y ->
    (n < length p1)%nat /\ (exists z, nth_error p1 n = Some z /\ fill1 (L1 ++ L2) nx n y = fill1 L1 nx n z) \/
    (length p1 <= n < length p2)%nat /\ (exists z, nth_error p2 n = Some z /\ fill1 (L1 ++ L2) nx n y = fill1 L2 nx n z) \/
    n = length p2 /\ fill1 (L1 ++ L2) nx n y = x) as CASES.
  { intros nx n y Y. rewrite nth_set in Y. destruct (nth_error (p2 ++ [x]) n) as [z|] eqn:X; [|discriminate]. cbn [option_map] in Y. injection Y as <-.
    rewrite fill1_app. destruct (nth_last _ _ _ _ X) as [(Ln & X')|(-> & ->)].
    - destruct (Nat.lt_ge_cases n (length p1)) as [L|L].
      + left. split; [exact L|]. rewrite (nth_prefix _ _ _ PF2 L) in X'. exists z. split; [exact X'|]. rewrite (fill1_none L2) by (apply N2, L).
        apply fill1_set; [exact T1|apply (holes_fields p1); assumption].
      + right. left. split; [lia|]. exists z. split; [exact X'|]. rewrite set_at_other by lia. rewrite (fill1_none L1) by (apply N1, L). reflexivity.
    - right. right. split; [reflexivity|]. rewrite set_at_other by lia. rewrite (fill1_none L1) by (apply N1; lia). apply fill1_none.
      apply (no_hole_above p2); [exact HK2|lia]. }
  assert (forall nx P n z, agrees P (set_hole (p2 ++ [x]) (f_tail f1) (f_head f2)) (L1 ++ L2) nx (length p) -> (length p <= n)%nat ->
    nth_error (p2 ++ [x]) n = Some z -> exists y, nth_error (set_hole (p2 ++ [x]) (f_tail f1) (f_head f2)) n = Some y /\ xinstr P (N.of_nat n) (fill1 (L1 ++ L2) nx n y)) as AT.
  { intros nx P n z A Ln X. exists (set_at (f_tail f1) (f_head f2) n z). rewrite nth_set, X. split; [reflexivity|]. apply A; [exact Ln|]. rewrite nth_set, X. reflexivity. }
  split; [rewrite set_hole_length, length_last; lia|].
  split; [rewrite set_hole_prefix by lia; rewrite firstn_app; replace (length p - length p2)%nat with O by lia; rewrite firstn_O, app_nil_r; apply (two_prefixes p p1 p2 PF1 PF2); lia|].
  exists (L1 ++ L2). constructor; cbn [f_i f_head f_tail].
  - rewrite set_hole_length, length_last. lia.
  - apply chain_app; [| |exact HK|exact ND].
    + apply (chain_prefix p2); [apply firstn_extend|exact HK1'|]. apply (chain_prefix p1); assumption.
    + apply (chain_prefix p2); [apply firstn_extend|exact HK2|exact C2].
  - exact ND.
  - apply Forall_forall. intros g I. split; [rewrite Forall_forall in HK; apply hole_ok_set, HK, I|].
    apply in_app_or in I. destruct I as [I|I]; [rewrite Forall_forall in HO1; apply (HO1 g I)|]. rewrite Forall_forall in HO2. destruct (HO2 g I). lia.
  - intros nx P line bot eot NL A. rewrite set_hole_length, length_last. replace (N.of_nat (S (length p2))) with (N.of_nat (length p2) + 1) by lia.
    apply (sem_alt sf P line bot eot _ (N.of_nat (length p1)) _ (f_i f1) (f_i f2)); [lia|lia| | |].
    + destruct (AT nx P (length p2) x A ltac:(lia) (nth_extend _ _)) as (y & Y & X). destruct (CASES nx _ _ Y) as [(L & _)|[(L & _)|(_ & E)]]; [lia|lia|].
      rewrite E in X. exact X.
    + apply SE1; [exact NL|]. intros n z Ln X. assert (n < length p1)%nat as Lt by (apply nth_error_Some; congruence).
      assert (nth_error (p2 ++ [x]) n = Some z) as X2 by (rewrite nth_error_app1 by lia; rewrite (nth_prefix _ _ _ PF2 Lt); exact X).
      destruct (AT nx P n z A Ln X2) as (y & Y & XI). destruct (CASES nx _ _ Y) as [(_ & z' & Z' & E)|[(L & _)|(L & _)]]; [|lia|lia].
      rewrite X in Z'. injection Z' as <-. rewrite E in XI. exact XI.
    + apply SE2; [exact NL|]. intros n z Ln X. assert (n < length p2)%nat as Lt by (apply nth_error_Some; congruence).
      assert (nth_error (p2 ++ [x]) n = Some z) as X2 by (rewrite nth_error_app1 by lia; exact X).
      destruct (AT nx P n z A ltac:(lia) X2) as (y & Y & XI). destruct (CASES nx _ _ Y) as [(L & _)|[(_ & z' & Z' & E)|(L & _)]]; [lia| |lia].
      rewrite X in Z'. injection Z' as <-. rewrite E in XI. exact XI.
  - intros nx n y Ln Y. rewrite set_hole_length, length_last. destruct (CASES nx _ _ Y) as [(L & z & X & ->)|[(L & z & X & ->)|(-> & ->)]].
    + eapply inst_ok_wider; [apply (IN1 nx n z Ln X)| | |]; [lia|lia|left; reflexivity].
    + eapply inst_ok_wider; [apply (IN2 nx n z ltac:(lia) X)| | |]; [lia|lia|left; reflexivity].
    + unfold x. split; [exact I|]. split; [discriminate|]. cbn [xtargets]. constructor; [left; lia|]. constructor; [left; lia|constructor].
Qed.

(** compiler.quest *)
Definition filled_branch (ng : bool) (to nx : N) : xinst := if ng then XB (IAlt nx to) else XB (IAlt to nx).
Lemma branch_hole_at : forall ng i, branch_hole ng (N.of_nat i) / 2 = N.of_nat i.
Proof. intros [|] i; [apply double|apply double1]. Qed.
Lemma branch_set : forall ng i to v, set_field (branch ng to) (N.odd (branch_hole ng i)) v = filled_branch ng to v.
Proof. intros [|] i to v; unfold branch_hole; [rewrite odd_double|rewrite odd_double1]; reflexivity. Qed.
Lemma branch_get : forall ng i to, get_field (branch ng to) (N.odd (branch_hole ng i)) = 0.
Proof. intros [|] i to; unfold branch_hole; [rewrite odd_double|rewrite odd_double1]; reflexivity. Qed.
Lemma branch_field : forall ng to b, has_field (branch ng to) b.
Proof. intros [|] to b; exact I. Qed.
Lemma filled_forks : forall P h ng to nx, xinstr P h (filled_branch ng to nx) -> forks P h to nx.
Proof. intros P h [|] to nx X; [right|left]; exact X. Qed.
Lemma branch_hole_ok : forall p ng to, hole_ok (p ++ [branch ng to]) (branch_hole ng (N.of_nat (length p))).
Proof. intros p ng to. exists (branch ng to). rewrite branch_hole_at, Nat2N.id, nth_extend. split; [reflexivity|apply branch_field]. Qed.
Lemma filled_ok : forall lo hi ng to nx, (N.of_nat lo <= to /\ to < N.of_nat hi) -> inst_ok lo hi nx (filled_branch ng to nx).
Proof.
  intros lo hi ng to nx T. split; [destruct ng; exact I|]. split; [destruct ng; discriminate|].
  destruct ng; cbn [filled_branch xtargets]; (constructor; [|constructor; [|constructor]]); auto.
Qed.

Lemma good_quest : forall M p p1 f1 ng, (0 < length p)%nat -> good M p p1 f1 -> good (l_opt M) p (fst (c_quest p1 f1 ng)) (snd (c_quest p1 f1 ng)).
Proof.
  intros M p p1 f1 ng Z (LE1 & PF1 & L1 & [E1 C1 ND1 HO1 SE1 IN1]).
  pose proof (hole_in_ok _ _ _ HO1) as HK1. pose proof (holes_nonzero _ _ _ Z HO1) as Z1. pose proof (chain_head _ _ _ _ C1) as H1.
  unfold c_quest, append_lists. set (x := branch ng (f_i f1)). set (h := branch_hole ng (N.of_nat (length p1))).
  assert (N.to_nat (h / 2) = length p1) as HA by (unfold h; rewrite branch_hole_at; lia).
  rewrite (proj2 (N.eqb_neq h 0)) by (intros E; rewrite E in HA; cbn in HA; lia).
  rewrite (proj2 (N.eqb_neq (f_head f1) 0)) by (rewrite Forall_forall in Z1; apply Z1, H1). cbn [fst snd].
  assert (hole_ok (p1 ++ [x]) h) as HH by apply branch_hole_ok.
  assert (Forall (hole_ok (p1 ++ [x])) (h :: L1)) as HK.
  { constructor; [exact HH|]. eapply Forall_impl; [|exact HK1]. intros g. apply hole_ok_prefix, firstn_extend. }
  assert (NoDup (h :: L1)) as ND.
  { constructor; [|exact ND1]. intros In1. rewrite Forall_forall in HK1. apply HK1, hole_lt in In1. lia. }
  assert (forall nx n y, nth_error (set_hole (p1 ++ [x]) h (f_head f1)) n = Some y ->
    (n < length p1)%nat /\ (exists z, nth_error p1 n = Some z /\ fill1 (h :: L1) nx n y = fill1 L1 nx n z) \/
    n = length p1 /\ fill1 (h :: L1) nx n y = filled_branch ng (f_i f1) nx) as CASES.
  { intros nx n y Y. rewrite nth_set in Y. destruct (nth_error (p1 ++ [x]) n) as [z|] eqn:X; [|discriminate]. cbn [option_map] in Y. injection Y as <-.
    destruct (nth_last _ _ _ _ X) as [(Ln & X')|(-> & ->)].
    - left. split; [exact Ln|]. exists z. split; [exact X'|]. change (fill1 (h :: L1) nx n ?y) with (fill1 L1 nx n (set_at h nx n y)). rewrite !set_at_other by lia. reflexivity.
    - right. split; [reflexivity|]. change (fill1 (h :: L1) nx ?n ?y) with (fill1 L1 nx n (set_at h nx n y)).
      rewrite fill1_none by (apply (no_hole_above p1); [exact HK1|lia]). unfold set_at. rewrite HA, Nat.eqb_refl, set_set. apply branch_set. }
  split; [rewrite set_hole_length, length_last; lia|].
  split; [rewrite set_hole_prefix by lia; rewrite firstn_app; replace (length p - length p1)%nat with O by lia; rewrite firstn_O, app_nil_r; exact PF1|].
  exists (h :: L1). constructor; cbn [f_i f_head f_tail].
  - rewrite set_hole_length, length_last. lia.
  - apply (chain_app [h] L1); [|apply (chain_prefix p1); [apply firstn_extend|exact HK1|exact C1]|exact HK|exact ND].
    split; [reflexivity|]. split; [reflexivity|]. unfold get_hole. rewrite HA, nth_extend. apply branch_get.
  - exact ND.
  - apply Forall_forall. intros g I. split; [rewrite Forall_forall in HK; apply hole_ok_set, HK, I|].
    destruct I as [<-|I]; [lia|]. rewrite Forall_forall in HO1. apply (HO1 g I).
  - intros nx P line bot eot NL A. rewrite set_hole_length, length_last. replace (N.of_nat (S (length p1))) with (N.of_nat (length p1) + 1) by lia.
    apply (sem_quest sf P line bot eot _ _ (f_i f1)); [lia| |].
    + apply (filled_forks P _ ng). pose proof (A (length p1) (set_at h (f_head f1) (length p1) x) ltac:(lia)) as X. rewrite nth_set, nth_extend in X. specialize (X eq_refl).
      destruct (CASES nx (length p1) (set_at h (f_head f1) (length p1) x)) as [(L & _)|(_ & E)]; [rewrite nth_set, nth_extend; reflexivity|lia|]. rewrite E in X. exact X.
    + apply SE1; [exact NL|]. intros n z Ln X. assert (n < length p1)%nat as Lt by (apply nth_error_Some; congruence).
      assert (nth_error (set_hole (p1 ++ [x]) h (f_head f1)) n = Some (set_at h (f_head f1) n z)) as Y by (rewrite nth_set, nth_error_app1, X by lia; reflexivity).
      pose proof (A n _ Ln Y) as XI. destruct (CASES nx _ _ Y) as [(_ & z' & Z' & E)|(L & _)]; [|lia]. rewrite X in Z'. injection Z' as <-. rewrite E in XI. exact XI.
  - intros nx n y Ln Y. rewrite set_hole_length, length_last. destruct (CASES nx _ _ Y) as [(L & z & X & ->)|(-> & ->)].
    + eapply inst_ok_wider; [apply (IN1 nx n z Ln X)| | |]; [lia|lia|left; reflexivity].
    + apply filled_ok. lia.
Qed.

(** compiler.loop, with its two entries *)
Lemma good_loop : forall M p p1 f1 ng, (0 < length p)%nat -> good M p p1 f1 ->
  exists p2 f, c_loop p1 f1 ng = Some (p2, f) /\ good (l_star M) p p2 f /\
    forall b, good (l_plus M) p p2 (mkFrag (f_i f1) (f_head f) (f_tail f) b).
Proof.
  intros M p p1 f1 ng Z (LE1 & PF1 & L1 & [E1 C1 ND1 HO1 SE1 IN1]).
  pose proof (hole_in_ok _ _ _ HO1) as HK1. pose proof (holes_nonzero _ _ _ Z HO1) as Z1.
  unfold c_loop. set (i := N.of_nat (length p1)). set (x := branch ng (f_i f1)). set (h := branch_hole ng i).
  assert (N.to_nat (h / 2) = length p1) as HA by (unfold h, i; rewrite branch_hole_at; lia).
  unfold patch. rewrite (patch_good p1 (p1 ++ [x]) _ _ L1 _ C1 ND1 HK1 Z1 (firstn_extend _ _)) by (rewrite length_last; lia). cbn [bind].
  eexists _, _. split; [reflexivity|].
  assert (Forall (fun g => (length p <= N.to_nat (g / 2))%nat) L1) as AB by (eapply Forall_impl; [|exact HO1]; intros g (_ & H); exact H).
  assert (Forall (fun g => N.to_nat (g / 2) <> length p1) L1) as NA by (apply (no_hole_above p1); [exact HK1|lia]).
  assert (nth_error (fill (p1 ++ [x]) L1 i) (length p1) = Some x) as HX by (rewrite nth_fill, nth_extend; cbn [option_map]; rewrite fill1_none by exact NA; reflexivity).
  assert (forall nx n y, nth_error (fill (p1 ++ [x]) L1 i) n = Some y ->
    (n < length p1)%nat /\ (exists z, nth_error p1 n = Some z /\ fill1 [h] nx n y = fill1 L1 i n z) \/
    n = length p1 /\ fill1 [h] nx n y = filled_branch ng (f_i f1) nx) as CASES.
  { intros nx n y Y. rewrite nth_fill in Y. destruct (nth_error (p1 ++ [x]) n) as [z|] eqn:X; [|discriminate]. cbn [option_map] in Y. injection Y as <-.
    destruct (nth_last _ _ _ _ X) as [(Ln & X')|(-> & ->)].
    - left. split; [exact Ln|]. exists z. split; [exact X'|]. cbn [fill1 fold_left]. rewrite set_at_other by lia. reflexivity.
    - right. split; [reflexivity|]. rewrite (fill1_none L1) by exact NA. cbn [fill1 fold_left]. unfold set_at. rewrite HA, Nat.eqb_refl. apply branch_set. }
  assert (length (fill (p1 ++ [x]) L1 i) = S (length p1)) as LN by (rewrite fill_length; apply length_last).
  assert (firstn (length p) (fill (p1 ++ [x]) L1 i) = p) as PF.
  { rewrite fill_prefix by exact AB. rewrite firstn_app. replace (length p - length p1)%nat with O by lia. rewrite firstn_O, app_nil_r. exact PF1. }
  assert (forall nx P, agrees P (fill (p1 ++ [x]) L1 i) [h] nx (length p) -> forks P i (f_i f1) nx /\ agrees P p1 L1 i (length p)) as AG.
  { intros nx P A. split.
    - apply (filled_forks P _ ng). pose proof (A (length p1) x ltac:(lia) HX) as X. destruct (CASES nx _ _ HX) as [(L & _)|(_ & E)]; [lia|]. rewrite E in X. exact X.
    - intros n z Ln X. assert (n < length p1)%nat as Lt by (apply nth_error_Some; congruence).
      assert (nth_error (fill (p1 ++ [x]) L1 i) n = Some (fill1 L1 i n z)) as Y by (rewrite nth_fill, nth_error_app1, X by lia; reflexivity).
      pose proof (A n _ Ln Y) as XI. destruct (CASES nx _ _ Y) as [(_ & z' & Z' & E)|(L & _)]; [|lia]. rewrite X in Z'. injection Z' as <-. rewrite E in XI. exact XI. }
  assert (forall nx n y, (length p <= n)%nat -> nth_error (fill (p1 ++ [x]) L1 i) n = Some y -> inst_ok (length p) (S (length p1)) nx (fill1 [h] nx n y)) as IO.
  { intros nx n y Ln Y. destruct (CASES nx _ _ Y) as [(L & z & X & ->)|(-> & ->)].
    - eapply inst_ok_wider; [apply (IN1 i n z Ln X)| | |]; [lia|lia|right; unfold i; lia].
    - apply filled_ok. lia. }
  assert (Forall (hole_in (fill (p1 ++ [x]) L1 i) (length p)) [h]) as HO.
  { constructor; [|constructor]. split; [|lia]. exists x. rewrite HA, HX. split; [reflexivity|apply branch_field]. }
  assert (chain (fill (p1 ++ [x]) L1 i) h h [h]) as CH.
  { split; [reflexivity|]. split; [reflexivity|]. unfold get_hole. rewrite HA, HX. apply branch_get. }
  split; [|intros b]; (split; [lia|]; split; [exact PF|]; exists [h]; constructor; cbn [f_i f_head f_tail];
    [rewrite LN; unfold i; lia|exact CH|constructor; [intros []|constructor]|exact HO| |rewrite LN; exact IO]);
  intros nx P line bot eot NL A; rewrite LN; replace (N.of_nat (S (length p1))) with (i + 1) by (unfold i; lia); destruct (AG nx P A) as (FK & A').
  - apply (sem_star sf P line bot eot _ _ (f_i f1)); [unfold i; lia|exact FK|]. apply SE1; assumption.
  - apply (sem_plus sf P line bot eot _ _ (f_i f1)); [unfold i; lia|exact FK|]. apply SE1; assumption.
Qed.
Lemma good_plus : forall M p p1 f1 ng, (0 < length p)%nat -> good M p p1 f1 -> exists p2 f, c_plus p1 f1 ng = Some (p2, f) /\ good (l_plus M) p p2 f.
Proof.
  intros M p p1 f1 ng Z G. destruct (good_loop M p p1 f1 ng Z G) as (p2 & f & E & _ & GP). unfold c_plus. rewrite E. cbn [bind].
  eexists _, _. split; [reflexivity|]. apply GP.
Qed.
Lemma good_star : forall M p p1 f1 ng, (0 < length p)%nat -> good M p p1 f1 -> exists p2 f, c_star p1 f1 ng = Some (p2, f) /\ good (l_star M) p p2 f.
Proof.
  intros M p p1 f1 ng Z G. unfold c_star. destruct (f_nullable f1).
  - destruct (good_plus M p p1 f1 ng Z G) as (p2 & f & E & GP). rewrite E. cbn [bind]. exists (fst (c_quest p2 f ng)), (snd (c_quest p2 f ng)).
    split; [rewrite <- surjective_pairing; reflexivity|]. eapply good_same; [apply same_sym, star_opt_plus|]. apply good_quest; assumption.
  - destruct (good_loop M p p1 f1 ng Z G) as (p2 & f & E & GS & _). exists p2, f. split; [exact E|exact GS].
Qed.

(** ** Single instructions *)
Lemma good_nop : forall p, good l_eps p (fst (c_nop p)) (snd (c_nop p)).
Proof.
  intros p. apply good_emit; [reflexivity|reflexivity| |].
  - intros nx. split; [exact I|]. split; [discriminate|]. constructor; [right; reflexivity|constructor].
  - intros nx P line bot eot h _ X. apply sem_nop, X.
Qed.
Lemma good_empty : forall p z, good (fun pre w post => w = [] /\ assertion z pre post) p (fst (c_empty p (op_bits z))) (snd (c_empty p (op_bits z))).
Proof.
  intros p z. apply good_emit; [reflexivity|reflexivity| |].
  - intros nx. split; [exact I|]. split; [discriminate|]. constructor; [right; reflexivity|constructor].
  - intros nx P line bot eot h NL X. apply sem_assert; [exact NL|]. destruct z; exact X.
Qed.
Lemma good_step : forall M p x, (exists o, rune_out x = Some o) -> get_field x false = 0 -> (forall nx, wf_rune sf om (set_field x false nx)) ->
  (forall pre w post, M pre w post <-> accepts sf utf8 x w) -> good M p (fst (emit p x false)) (snd (emit p x false)).
Proof.
  intros M p x (o & RO) GZ W AC.
  assert (forall nx, rune_out (set_field x false nx) = Some nx /\ xtargets (set_field x false nx) = [nx] /\ forall w, accepts sf utf8 (set_field x false nx) w <-> accepts sf utf8 x w) as ST.
  { intros nx. destruct x as [b|one rs fd o'|o'|o']; [discriminate| | |]; (split; [reflexivity|]; split; [reflexivity|]); intros w; reflexivity. }
  apply good_emit; [|exact GZ| |].
  - destruct x as [b|one rs fd o'|o'|o']; [discriminate| | |]; reflexivity.
  - intros nx. destruct (ST nx) as (_ & T & _). split; [apply W|]. split; [destruct x; discriminate|]. rewrite T. constructor; [right; reflexivity|constructor].
  - intros nx P line bot eot h _ X. destruct (ST nx) as (RO' & _ & AC'). apply (sem_step sf P line bot eot h _ nx M X RO'). intros pre w post. rewrite AC', AC. reflexivity.
Qed.
Lemma iter_fixed : forall k (c : N), sf c = c -> Nat.iter k sf c = c.
Proof. induction k as [|k IH]; intros c E; [reflexivity|]. change (sf (Nat.iter k sf c) = c). rewrite IH by exact E. exact E. Qed.
(** What a rune of a literal matches. *)
Definition l_rune (fold : bool) (r : N) : lang := fun pre w post => exists r', utf8 r' w /\ (if fold then same_letter sf r r' else r' = r).
Lemma good_rune_one : forall p r fold, wf_rune sf om (XRune (negb fold) [r] fold 0) ->
  good (l_rune fold r) p (fst (c_rune sf p [r] fold)) (snd (c_rune sf p [r] fold)).
Proof.
  intros p r fold W. unfold c_rune, rune_inst. destruct fold; cbn [andb negb] in *.
  - destruct W as (r0 & E & CY & SC & FI). injection E as <-. destruct (N.eqb_spec (sf r) r) as [F|F]; cbn [negb andb].
    + apply good_step; [eexists; reflexivity|reflexivity| |].
      * intros nx. split; [reflexivity|]. exists r. split; [apply SC; exists 0%nat; reflexivity|left; reflexivity].
      * intros pre w post. unfold l_rune. cbn [accepts in_class]. split.
        -- intros (r' & U & k & ->). rewrite iter_fixed in U by exact F. exists r. auto.
        -- intros (r' & -> & U). exists r. split; [exact U|]. exists 0%nat. reflexivity.
    + apply good_step; [eexists; reflexivity|reflexivity| |].
      * intros nx. exists r. auto.
      * intros pre w post. unfold l_rune. cbn [accepts in_class]. split.
        -- intros (r' & U & SL). exists r, r'. auto.
        -- intros (r1 & r' & -> & SL & U). exists r'. auto.
  - destruct W as (_ & r0 & SC & E). apply good_step; [eexists; reflexivity|reflexivity| |].
    + intros nx. split; [reflexivity|]. exists r0. auto.
    + intros pre w post. unfold l_rune. cbn [accepts in_class]. split; [intros (r' & U & ->)|intros (r' & -> & U)]; eauto.
Qed.
Lemma utf8_le : forall r w, utf8 r w -> r <= MaxRune.
Proof. intros r w U. unfold MaxRune. destruct U; lia. Qed.
Lemma in_one : forall a r, in_class [a; a] r <-> r = a.
Proof. intros a r. cbn [in_class]. lia. Qed.
Lemma good_class : forall p rs, wf_rune sf om (XRune false rs false 0) ->
  good (fun pre w post => exists r, utf8 r w /\ in_class rs r) p (fst (c_rune sf p rs false)) (snd (c_rune sf p rs false)).
Proof.
  intros p rs W. unfold c_rune, rune_inst. cbn [andb negb].
  destruct (match rs with [_] => true | [a; b] => a =? b | _ => false end) eqn:ONE.
  { apply good_step; [eexists; reflexivity|reflexivity| |].
    - intros nx. split; [reflexivity|]. destruct rs as [|a [|b [|c rs]]]; try discriminate.
      + destruct W as [(r & SC & E)|(SO & _)]; [|inversion SO]. exists r. auto.
      + apply N.eqb_eq in ONE. subst b. destruct W as [(r & SC & E)|(SO & _)]; [discriminate|]. exists a. split; [|right; reflexivity].
        inversion SO as [|lo hi LE MX CL|]; subst. unfold clear_range in CL. unfold scalar. lia.
    - intros pre w post. cbn [accepts]. split; intros (r & A & C); exists r; auto. }
  destruct (match rs with [a; b] => (a =? 0) && (b =? MaxRune) | _ => false end) eqn:ANY.
  { destruct rs as [|a [|b [|c rs]]]; try discriminate. apply andb_true_iff in ANY. destruct ANY as (A & B). apply N.eqb_eq in A, B. subst a b.
    apply good_step; [eexists; reflexivity|reflexivity|intros nx; exact I|]. intros pre w post. cbn [accepts in_class]. split.
    - intros (r & U & _). exists r. exact U.
    - intros (r & U). exists r. split; [exact U|]. pose proof (utf8_le _ _ U). left. lia. }
  destruct (match rs with [a; b; c; d] => (a =? 0) && (b =? 9) && (c =? 11) && (d =? MaxRune) | _ => false end) eqn:NNL.
  { destruct rs as [|a [|b [|c [|d [|e rs]]]]]; try discriminate. apply andb_true_iff in NNL. destruct NNL as (NNL & D). apply andb_true_iff in NNL. destruct NNL as (NNL & C).
    apply andb_true_iff in NNL. destruct NNL as (A & B). apply N.eqb_eq in A, B, C, D. subst a b c d.
    apply good_step; [eexists; reflexivity|reflexivity|intros nx; exact I|]. intros pre w post. cbn [accepts in_class]. split.
    - intros (r & U & IC). exists r. split; [lia|exact U].
    - intros (r & NL & U). exists r. split; [exact U|]. pose proof (utf8_le _ _ U). lia. }
  apply good_step; [eexists; reflexivity|reflexivity|intros nx; exact W|]. intros pre w post. cbn [accepts]. split; intros (r & A & C); exists r; auto.
Qed.
Lemma good_any : forall p, good (fun pre w post => exists r, utf8 r w) p (fst (c_rune sf p [0; MaxRune] false)) (snd (c_rune sf p [0; MaxRune] false)).
Proof. intros p. apply good_step; [eexists; reflexivity|reflexivity|intros nx; exact I|]. intros pre w post. reflexivity. Qed.
Lemma good_any_not_nl : forall p, good (fun pre w post => exists r, utf8 r w /\ r <> 10) p (fst (c_rune sf p [0; 9; 11; MaxRune] false)) (snd (c_rune sf p [0; 9; 11; MaxRune] false)).
Proof.
  intros p. apply good_step; [eexists; reflexivity|reflexivity|intros nx; exact I|]. intros pre w post. cbn [accepts]. split; intros (r & A & C); exists r; auto.
Qed.

(** ** compiler.compile *)
Lemma spells_cons : forall fold r rs, same (fun pre w post => spells sf fold (r :: rs) w) (l_seq (l_rune fold r) (fun pre w post => spells sf fold rs w)).
Proof.
  intros fold r rs pre w post. cbn [spells]. unfold l_seq, l_rune. split.
  - intros (r' & u & v & -> & U & S & C). exists u, v. split; [reflexivity|]. split; [exists r'; auto|exact S].
  - intros (u & v & -> & (r' & U & C) & S). exists r', u, v. auto.
Qed.
Lemma good_literal : forall rs fold M p p1 f, (0 < length p)%nat -> Forall (fun r => wf_rune sf om (XRune (negb fold) [r] fold 0)) rs -> good M p p1 f ->
  exists p2 f', literal_loop sf rs fold p1 f = Some (p2, f') /\ good (l_seq M (fun pre w post => spells sf fold rs w)) p p2 f'.
Proof.
  induction rs as [|r rs IH]; intros fold M p p1 f Z W G; cbn [literal_loop].
  - exists p1, f. split; [reflexivity|]. eapply good_same; [|exact G]. apply same_sym. apply seq_eps_r.
  - apply Forall_cons_iff in W. destruct W as (W1 & W). pose proof (good_rune_one p1 r fold W1) as G1.
    destruct (c_rune sf p1 [r] fold) as (q & f1). cbn [fst snd] in G1.
    destruct (good_cat _ _ p p1 q f f1 Z G G1) as (p3 & f3 & E & G3 & _). rewrite E. cbn [bind].
    destruct (IH fold _ p p3 f3 Z W G3) as (p4 & f4 & E4 & G4). exists p4, f4. split; [exact E4|].
    eapply good_same; [|exact G4]. eapply same_trans; [apply seq_assoc|]. apply seq_same; [apply same_refl|]. apply same_sym, spells_cons.
Qed.

Section Simple.
(** Expressions as they are after parsing and Simplify: without repetitions with counts, and
    with nothing that cannot match (but for classes). *)
Fixpoint simple (g : gre) : Prop :=
  let fix all (l : list gre) : Prop := match l with [] => True | g :: l => simple g /\ all l end in
  match g with
  | GNoMatch | GRepeat _ _ _ _ => False
  | GCapture _ r | GStar _ r | GPlus _ r | GQuest _ r => simple r
  | GConcat l => all l
  | GAlternate l => l <> [] /\ all l
  | _ => True
  end.
Lemma simple_all : forall l, (fix all (l : list gre) : Prop := match l with [] => True | g :: l => simple g /\ all l end) l <-> Forall simple l.
Proof.
  induction l as [|g l IH]; [split; [constructor|exact (fun _ => I)]|]. split.
  - intros (H & T). constructor; [exact H|apply IH, T].
  - intros F. apply Forall_cons_iff in F. split; [apply F|apply IH, F].
Qed.
End Simple.
End Good.
Section GreInd.
Variable Q : gre -> Prop.
Hypothesis HN : Q GNoMatch.
Hypothesis HZ : forall z, Q (GZero z).
Hypothesis HL : forall fold rs, Q (GLiteral fold rs).
Hypothesis HA1 : Q GAnyNotNL.
Hypothesis HA2 : Q GAny.
Hypothesis HC : forall rs, Q (GClass rs).
Hypothesis HCa : forall n r, Q r -> Q (GCapture n r).
Hypothesis HS : forall ng r, Q r -> Q (GStar ng r).
Hypothesis HP : forall ng r, Q r -> Q (GPlus ng r).
Hypothesis HQ : forall ng r, Q r -> Q (GQuest ng r).
Hypothesis HR : forall ng a b r, Q r -> Q (GRepeat ng a b r).
Hypothesis HCo : forall l, Forall Q l -> Q (GConcat l).
Hypothesis HAl : forall l, Forall Q l -> Q (GAlternate l).
Fixpoint gre_ind' (g : gre) : Q g :=
  let fix all (l : list gre) : Forall Q l := match l with [] => Forall_nil _ | g :: l => Forall_cons g (gre_ind' g) (all l) end in
  match g with
  | GNoMatch => HN | GZero z => HZ z | GLiteral fold rs => HL fold rs | GAnyNotNL => HA1 | GAny => HA2 | GClass rs => HC rs
  | GCapture n r => HCa n r (gre_ind' r) | GStar ng r => HS ng r (gre_ind' r) | GPlus ng r => HP ng r (gre_ind' r)
  | GQuest ng r => HQ ng r (gre_ind' r) | GRepeat ng a b r => HR ng a b r (gre_ind' r)
  | GConcat l => HCo l (all l) | GAlternate l => HAl l (all l)
  end.
End GreInd.

Section CompileOk.
Variable sf : N -> N.
Variable om : nat.
Notation good := (good sf om).
Notation lang_of g := (rmatch sf (erase g)).

Fixpoint concat_loop (l : list gre) (p : list xinst) (f : frag) : option (list xinst * frag) :=
  match l with
  | [] => Some (p, f)
  | g :: l => '(p, f1) <- compile sf g p ;; '(p, f) <- c_cat p f f1 ;; concat_loop l p f
  end.
Fixpoint alternate_loop (l : list gre) (p : list xinst) (f : frag) : option (list xinst * frag) :=
  match l with
  | [] => Some (p, f)
  | g :: l => '(p, f1) <- compile sf g p ;; let '(p, f) := c_alt p f f1 in alternate_loop l p f
  end.
Lemma compile_concat : forall g l p, compile sf (GConcat (g :: l)) p = ('(p, f) <- compile sf g p ;; concat_loop l p f).
Proof.
  intros g l p. cbn [compile]. destruct (compile sf g p) as [(p1 & f)|]; [|reflexivity]. cbn [bind]. revert p1 f.
  induction l as [|g' l IH]; intros p1 f; [reflexivity|]. cbn [concat_loop]. destruct (compile sf g' p1) as [(p2 & f2)|]; [|reflexivity]. cbn [bind].
  destruct (c_cat p2 f f2) as [(p3 & f3)|]; [|reflexivity]. cbn [bind]. apply IH.
Qed.
Lemma compile_alternate : forall l p, compile sf (GAlternate l) p = alternate_loop l p no_frag.
Proof.
  intros l p. cbn [compile]. generalize no_frag. revert p. induction l as [|g' l IH]; intros p f; [reflexivity|]. cbn [alternate_loop].
  destruct (compile sf g' p) as [(p2 & f2)|]; [|reflexivity]. cbn [bind]. destruct (c_alt p2 f f2) as (p3 & f3). apply IH.
Qed.
Lemma concat_cons : forall g l, same (lang_of (GConcat (g :: l))) (l_seq (lang_of g) (lang_of (GConcat l))).
Proof. intros g l pre w post. reflexivity. Qed.
Lemma alternate_cons : forall g l, same (lang_of (GAlternate (g :: l))) (l_alt (lang_of g) (lang_of (GAlternate l))).
Proof. intros g l pre w post. reflexivity. Qed.
Definition compiles (g : gre) : Prop := forall p, (0 < length p)%nat -> exists p' f, compile sf g p = Some (p', f) /\ good (lang_of g) p p' f.

Lemma concat_ok : forall l, Forall compiles l -> forall M p p1 f, (0 < length p)%nat -> good M p p1 f ->
  exists p2 f', concat_loop l p1 f = Some (p2, f') /\ good (l_seq M (lang_of (GConcat l))) p p2 f'.
Proof.
  induction 1 as [|g l Hg _ IH]; intros M p p1 f Z G; cbn [concat_loop].
  - exists p1, f. split; [reflexivity|]. eapply good_same; [|exact G]. apply same_sym, seq_eps_r.
  - assert (0 < length p1)%nat as Z1 by (destruct G as (L & _); lia). destruct (Hg p1 Z1) as (q & f1 & E & G1). rewrite E. cbn [bind].
    destruct (good_cat _ _ _ _ p p1 q f f1 Z G G1) as (p3 & f3 & E3 & G3 & _). rewrite E3. cbn [bind].
    destruct (IH _ p p3 f3 Z G3) as (p4 & f4 & E4 & G4). exists p4, f4. split; [exact E4|].
    eapply good_same; [|exact G4]. eapply same_trans; [apply seq_assoc|]. apply seq_same; [apply same_refl|]. apply same_sym, concat_cons.
Qed.
Lemma alternate_ok : forall l, Forall compiles l -> forall M p p1 f, (0 < length p)%nat -> good M p p1 f ->
  exists p2 f', alternate_loop l p1 f = Some (p2, f') /\ good (l_alt M (lang_of (GAlternate l))) p p2 f'.
Proof.
  induction 1 as [|g l Hg _ IH]; intros M p p1 f Z G; cbn [alternate_loop].
  - exists p1, f. split; [reflexivity|]. eapply good_same; [|exact G]. intros pre w post. unfold l_alt. cbn [erase map rmatch]. tauto.
  - assert (0 < length p1)%nat as Z1 by (destruct G as (L & _); lia). destruct (Hg p1 Z1) as (q & f1 & E & G1). rewrite E. cbn [bind].
    pose proof (good_alt _ _ _ _ p p1 q f f1 Z G G1) as G3. destruct (c_alt q f f1) as (p3 & f3). cbn [fst snd] in G3.
    destruct (IH _ p p3 f3 Z G3) as (p4 & f4 & E4 & G4). exists p4, f4. split; [exact E4|].
    eapply good_same; [|exact G4]. intros pre w post. pose proof (alternate_cons g l pre w post) as A. unfold l_alt in *. tauto.
Qed.

Lemma compile_ok : forall g, simple g -> runes_ok sf om (erase g) -> compiles g.
Proof.
  induction g using gre_ind'; intros SI RO p Z; try (destruct SI; fail).
  - destruct z; cbn [compile].
    + eexists _, _. split; [unfold c_nop, emit; reflexivity|]. eapply good_same; [|apply good_nop]. intros pre w post. unfold l_eps. cbn [erase rmatch assertion]. tauto.
    + eexists _, _. split; [unfold c_empty, emit; reflexivity|]. apply (good_empty sf om p ZBeginLine).
    + eexists _, _. split; [unfold c_empty, emit; reflexivity|]. apply (good_empty sf om p ZEndLine).
    + eexists _, _. split; [unfold c_empty, emit; reflexivity|]. apply (good_empty sf om p ZBeginText).
    + eexists _, _. split; [unfold c_empty, emit; reflexivity|]. apply (good_empty sf om p ZEndText).
    + eexists _, _. split; [unfold c_empty, emit; reflexivity|]. apply (good_empty sf om p ZWord).
    + eexists _, _. split; [unfold c_empty, emit; reflexivity|]. apply (good_empty sf om p ZNoWord).
  - cbn [erase runes_ok] in RO. destruct rs as [|r rs]; cbn [compile].
    + eexists _, _. split; [unfold c_nop, emit; reflexivity|]. eapply good_same; [|apply good_nop]. intros pre w post. reflexivity.
    + apply Forall_cons_iff in RO. destruct RO as (R1 & RO). pose proof (good_rune_one sf om p r fold R1) as G1.
      destruct (c_rune sf p [r] fold) as (q & f). cbn [fst snd] in G1. destruct (good_literal sf om rs fold _ p q f Z RO G1) as (p2 & f2 & E & G2).
      exists p2, f2. split; [exact E|]. eapply good_same; [|exact G2]. apply same_sym, spells_cons.
  - cbn [compile]. eexists _, _. split; [unfold c_rune, emit; reflexivity|]. apply good_any_not_nl.
  - cbn [compile]. eexists _, _. split; [unfold c_rune, emit; reflexivity|]. apply good_any.
  - cbn [compile]. eexists _, _. split; [unfold c_rune, emit; reflexivity|]. apply good_class, RO.
  - cbn [simple] in SI. cbn [erase runes_ok] in RO. cbn [compile]. pose proof (good_nop sf om p) as GB. change (c_nop p) with (c_cap p) in GB.
    destruct (c_cap p) as (p1 & bra). cbn [fst snd] in GB. assert (0 < length p1)%nat as Z1 by (destruct GB as (L & _); lia).
    destruct (IHg SI RO p1 Z1) as (p2 & sub & E & G). rewrite E. cbn [bind].
    destruct (good_cat _ _ _ _ p p1 p2 bra sub Z GB G) as (p3 & f3 & E3 & G3 & L3 & E3').
    unfold c_cap, emit. rewrite E3'. cbn [bind].
    destruct (good_cat _ _ _ _ p p3 _ f3 _ Z G3 (good_nop sf om _)) as (p4 & f4 & E4 & G4 & _).
    exists p4, f4. split; [unfold c_nop, emit in E4; cbn [fst snd] in E4; rewrite L3 in E4; exact E4|]. eapply good_same; [|exact G4].
    eapply same_trans; [apply seq_eps_r|]. eapply same_trans; [apply seq_eps_l|]. apply same_refl.
  - cbn [simple] in SI. cbn [erase runes_ok] in RO. cbn [compile]. destruct (IHg SI RO p Z) as (p1 & f1 & E & G). rewrite E. cbn [bind].
    apply (good_star _ _ _ p p1 f1 ng Z G).
  - cbn [simple] in SI. cbn [erase runes_ok] in RO. cbn [compile]. destruct (IHg SI RO p Z) as (p1 & f1 & E & G). rewrite E. cbn [bind].
    apply (good_plus _ _ _ p p1 f1 ng Z G).
  - cbn [simple] in SI. cbn [erase runes_ok] in RO. cbn [compile]. destruct (IHg SI RO p Z) as (p1 & f1 & E & G). rewrite E. cbn [bind].
    exists (fst (c_quest p1 f1 ng)), (snd (c_quest p1 f1 ng)). split; [rewrite <- surjective_pairing; reflexivity|]. apply (good_quest _ _ _ p p1 f1 ng Z G).
  - cbn [simple] in SI. apply (proj1 (simple_all _)) in SI. cbn [erase runes_ok] in RO. apply runes_ok_all in RO.
    assert (Forall compiles l) as CL.
    { clear p Z. induction H as [|g l Hg _ IH]; [constructor|]. apply Forall_cons_iff in SI, RO. destruct SI as (S1 & SI), RO as (R1 & RO). constructor; [apply Hg; assumption|apply IH; assumption]. }
    destruct l as [|g l].
    + cbn [compile]. eexists _, _. split; [unfold c_nop, emit; reflexivity|]. eapply good_same; [|apply good_nop]. intros pre w post. reflexivity.
    + rewrite compile_concat. apply Forall_cons_iff in CL. destruct CL as (C1 & CL). destruct (C1 p Z) as (p1 & f1 & E & G). rewrite E. cbn [bind].
      destruct (concat_ok l CL _ p p1 f1 Z G) as (p2 & f2 & E2 & G2). exists p2, f2. split; [exact E2|exact G2].
  - cbn [simple] in SI. destruct SI as (NE & SI). apply (proj1 (simple_all _)) in SI. cbn [erase runes_ok] in RO. apply runes_ok_all in RO.
    assert (Forall compiles l) as CL.
    { clear p Z NE. induction H as [|g l Hg _ IH]; [constructor|]. apply Forall_cons_iff in SI, RO. destruct SI as (S1 & SI), RO as (R1 & RO). constructor; [apply Hg; assumption|apply IH; assumption]. }
    destruct l as [|g l]; [congruence|].
    rewrite compile_alternate. apply Forall_cons_iff in CL. destruct CL as (C1 & CL). destruct (C1 p Z) as (p1 & f1 & E & G). cbn [alternate_loop]. rewrite E. cbn [bind].
    change (c_alt p1 no_frag f1) with (p1, f1). cbn beta iota.
    destruct (alternate_ok l CL _ p p1 f1 Z G) as (p2 & f2 & E2 & G2). exists p2, f2. split; [exact E2|exact G2].
Qed.
End CompileOk.
