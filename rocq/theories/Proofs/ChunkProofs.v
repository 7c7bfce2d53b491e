(** The chunked line scan. *)
From Verif Require Import Model.Base Model.Grep Model.GrepChunk Model.Matcher Spec.MatchSpec Spec.GrepSpec Spec.ChunkSpec
  Proofs.SplitProofs Proofs.GrepProofs Proofs.GrepPos Proofs.FillProofs Proofs.MatchTop.
From Coq Require Import Sorted.
Local Open Scope nat_scope.

(** Feed the calls to the callback. *)
Fixpoint feed_calls {A} (fn : A -> bytes -> nat -> A * verdict) (a : A) (cs : list (bytes * nat)) : A * option ending :=
  match cs with
  | [] => (a, None)
  | (l, n) :: r =>
      match fn a l n with
      | (a', Go) => feed_calls fn a' r
      | (a', Stop) => (a', Some EndStop)
      | (a', Fail) => (a', Some EndCallback)
      end
  end.
Lemma feed_app : forall {A} (fn : A -> bytes -> nat -> A * verdict) x y a,
  feed_calls fn a (x ++ y) = match feed_calls fn a x with (a', None) => feed_calls fn a' y | r => r end.
Proof.
  intros A fn x y. induction x as [|[l n] x IH]; intros a; cbn [app feed_calls]; [reflexivity|].
  destruct (fn a l n) as [a' []]; [apply IH|reflexivity|reflexivity].
Qed.

Section Chunk.
Variable S : Type.
Variable P : bool -> bool -> bytes -> Prop.
Variable mt : S -> bytes -> bool -> bool -> option (S * option nat).
Variable I : S -> Prop.
Variable ans : bool -> bool -> bytes -> option nat.
Hypothesis mt_ok : forall s b bt et, I s -> exists s', mt s b bt et = Some (s', ans bt et b) /\ I s'.
Hypothesis ans_ok : forall b bt et, first_hit P bt et b (ans bt et b).
Variable need : bool.

Definition hitb (bt et : bool) (l : bytes) : bool := match ans bt et l with Some _ => true | None => false end.
Lemma hitb_iff : forall bt et l, nonl l -> (P bt et l <-> hitb bt et l = true).
Proof.
  intros bt et l NL. pose proof (ans_ok l bt et [l]) as H. rewrite splits_iff in H.
  assert (E : [l] = split_nl l) by (symmetry; apply (split_nl_unique [] l); constructor; [exact NL|constructor]).
  specialize (H E). unfold hitb. destruct (ans bt et l).
  - destruct H as (pre & line & post & E' & _ & H & _). destruct pre as [|? pre]; [|destruct pre; discriminate].
    destruct post; [|discriminate]. injection E' as <-. unfold line_hit in H. cbn in H. rewrite !andb_true_r in H. tauto.
  - split; [|discriminate]. intros X. exfalso. apply (H [] l [] eq_refl). unfold line_hit. cbn. rewrite !andb_true_r. exact X.
Qed.

(** The calls made for the pieces of a chunk; [start] when the scan resumes at the first
    of them. *)
Fixpoint want (bt et start : bool) (base : nat) (pcs : list bytes) : list (bytes * nat) :=
  match pcs with
  | [] => []
  | [l] => if (is_nil l && start)%bool then [] else if hitb bt et l then [(l, base)] else []
  | l :: rest =>
      let h := hitb bt false l in
      (if h then [(l ++ [10%N], base)] else []) ++ want false et h (base + counted need 1) rest
  end.
(** The piece after the last newline of the chunk was passed on. *)
Fixpoint tail_hit (bt et start : bool) (pcs : list bytes) : bool :=
  match pcs with
  | [] => false
  | [l] => (negb (is_nil l && start) && hitb bt et l)%bool
  | l :: rest => tail_hit false et (hitb bt false l) rest
  end.

Lemma want_cons : forall bt et start base l q post, want bt et start base (l :: q :: post) =
  (if hitb bt false l then [(l ++ [10%N], base)] else []) ++ want false et (hitb bt false l) (base + counted need 1) (q :: post).
Proof. reflexivity. Qed.
Lemma tail_cons : forall bt et start l q post, tail_hit bt et start (l :: q :: post) = tail_hit false et (hitb bt false l) (q :: post).
Proof. reflexivity. Qed.
Lemma counted_S : forall n, counted need (Datatypes.S n) = counted need n + counted need 1.
Proof. intros n. unfold counted. destruct need; lia. Qed.
Lemma counted_0 : counted need 0 = 0.
Proof. unfold counted. destruct need; reflexivity. Qed.

Lemma want_skip : forall pre bt et start base line post, Forall nonl pre ->
  (forall pre1 l post1, pre = pre1 ++ l :: post1 -> ~ line_hit P bt et pre1 l (post1 ++ line :: post)) ->
  want bt et start base (pre ++ line :: post) =
    want (bt && is_nil pre) et (start && is_nil pre) (base + counted need (length pre)) (line :: post) /\
  tail_hit bt et start (pre ++ line :: post) = tail_hit (bt && is_nil pre) et (start && is_nil pre) (line :: post).
Proof.
  induction pre as [|l pre IH]; intros bt et start base line post F H.
  - cbn [app length is_nil]. rewrite !andb_true_r, counted_0, Nat.add_0_r. auto.
  - apply Forall_cons_iff in F. destruct F as (Fl & F).
    assert (hitb bt false l = false) as HL.
    { destruct (hitb bt false l) eqn:E; [|reflexivity]. exfalso. apply (H [] l pre eq_refl). unfold line_hit.
      cbn [is_nil]. rewrite andb_true_r. replace (is_nil (pre ++ line :: post)) with false by (destruct pre; reflexivity).
      rewrite andb_false_r. apply hitb_iff; assumption. }
    assert (NE : exists x y, pre ++ line :: post = x :: y) by (destruct pre; do 2 eexists; reflexivity).
    destruct NE as (x & y & NE). cbn [app want tail_hit]. rewrite NE, <- NE, HL. cbn [app].
    destruct (IH false et false (base + counted need 1) line post F) as (E1 & E2).
    { intros pre1 l1 post1 E. intros X. apply (H (l :: pre1) l1 post1); [rewrite E; reflexivity|].
      unfold line_hit in *. cbn [is_nil andb] in *. rewrite andb_false_r. exact X. }
    cbn [andb] in E1, E2. cbn [is_nil length]. rewrite (counted_S (length pre)), (andb_false_r bt), (andb_false_r start).
    replace (base + (counted need (length pre) + counted need 1)) with (base + counted need 1 + counted need (length pre)) by lia.
    rewrite E1, E2. split; reflexivity.
Qed.
Lemma want_none : forall pcs bt et start base, Forall nonl pcs ->
  (forall pre l post, pcs = pre ++ l :: post -> ~ line_hit P bt et pre l post) ->
  want bt et start base pcs = [] /\ tail_hit bt et start pcs = false.
Proof.
  intros pcs bt et start base F H. destruct pcs as [|x pcs]; [auto|].
  destruct (exists_last (l := x :: pcs)) as (pre & l & E); [discriminate|]. rewrite E in *.
  apply Forall_app in F. destruct F as (F & Fl). apply Forall_inv in Fl.
  destruct (want_skip pre bt et start base l [] F) as (E1 & E2).
  { intros pre1 l1 post1 E3. apply H. rewrite E3, <- app_assoc. reflexivity. }
  rewrite E1, E2. cbn [want tail_hit].
  assert (hitb (bt && is_nil pre) et l = false) as HL.
  { destruct (hitb (bt && is_nil pre) et l) eqn:E3; [|reflexivity]. exfalso. apply (H pre l [] eq_refl). unfold line_hit.
    cbn [is_nil]. rewrite andb_true_r. apply hitb_iff; assumption. }
  rewrite HL, andb_false_r. destruct (is_nil l && (start && is_nil pre))%bool; auto.
Qed.

Lemma count_nlf : forall pre, Forall nonl pre -> count_lines (nlf pre) = length pre.
Proof. intros pre F. apply count_lines_nlf; [exact F|lia]. Qed.
Lemma nlf_cut : forall pcs, pcs <> [] -> joinl pcs = nlf (removelast pcs) ++ last pcs [].
Proof. intros pcs NE. rewrite (app_removelast_last [] NE) at 1. apply joinl_snoc. Qed.
Lemma count_joinl : forall pcs, pcs <> [] -> Forall nonl pcs -> count_lines (joinl pcs) = length pcs - 1.
Proof.
  intros pcs NE F. destruct (exists_last NE) as (i & x & ->). rewrite joinl_snoc, app_length. cbn [length].
  apply Forall_app in F. destruct F as (Fi & Fx). apply Forall_inv in Fx. unfold count_lines.
  assert (G : forall i f, Forall nonl i -> length (nlf i ++ x) < f -> count_lines_f f (nlf i ++ x) = length i).
  { clear - Fx. induction i as [|l i IH]; intros f F L.
    - destruct f; [lia|]. cbn [nlf app count_lines_f map concat]. rewrite index_nl_none by exact Fx. reflexivity.
    - apply Forall_cons_iff in F. destruct F as (Fl & F). rewrite nlf_cons, <- app_assoc in *. cbn [app] in *.
      rewrite app_length in L. cbn [length] in L. destruct f; [lia|]. cbn [count_lines_f]. rewrite index_nl_line by exact Fl.
      rewrite skipn_exact1. cbn [length]. f_equal. apply IH; [exact F|lia]. }
  rewrite G; [lia|exact Fi|]. lia.
Qed.

Definition bt_after (bt : bool) (rem : bytes) : bool := match rem with [] => bt | _ => false end.

Lemma chunk_loop_ok : forall {A} (fn : A -> bytes -> nat -> A * verdict) n pcs fuel bt et base, length pcs <= n -> pcs <> [] -> Forall nonl pcs ->
  length (joinl pcs) < fuel -> forall s a, I s ->
  exists s' res, chunk_loop mt fn need fuel s a bt et base (joinl pcs) = Some (s', fst (feed_calls fn a (want bt et true base pcs)), res) /\ I s' /\
    match snd (feed_calls fn a (want bt et true base pcs)) with
    | Some e => res = Return e
    | None => exists lineno rem, res = Done (bt_after bt (joinl pcs)) lineno rem /\
        lineno + counted need (count_lines rem) =
          base + counted need (length pcs - 1) + (if tail_hit bt et true pcs then counted need 1 else 0)
    end.
Proof.
  intros A fn. induction n as [|n IH]; intros pcs fuel bt et base L NE F Fu s a Is.
  { destruct pcs; [contradiction|cbn in L; lia]. }
  destruct (joinl pcs) as [|c0 b0] eqn:EJ.
  { destruct (joinl_nil pcs EJ) as [->| ->]; [contradiction|]. exists s, (Done bt base []). cbn. split; [destruct fuel; reflexivity|].
    split; [exact Is|]. exists base, []. split; [reflexivity|]. cbn. rewrite counted_0. lia. }
  destruct fuel as [|fuel]; [lia|]. rewrite <- EJ in Fu |- *.
  assert (BA : bt_after bt (joinl pcs) = false) by (rewrite EJ; reflexivity).
  pose proof (ans_ok (joinl pcs) bt et pcs) as FH. rewrite splits_iff, split_joinl in FH by assumption. specialize (FH eq_refl).
  destruct (mt_ok s (joinl pcs) bt et Is) as (s' & E & Is').
  replace (chunk_loop mt fn need (Datatypes.S fuel) s a bt et base (joinl pcs)) with
    ('(s', r) <- mt s (joinl pcs) bt et ;;
          match r with
          | None => Some (s', a, Done false base (joinl pcs))
          | Some m1 =>
              let line_start := match last_index_nl (firstn m1 (joinl pcs)) with Some i => (i + 1)%nat | None => O end in
              let line_end := Nat.min (m1 + 1) (length (joinl pcs)) in
              let lineno := (base + counted need (count_lines (firstn line_start (joinl pcs))))%nat in
              let line := firstn (line_end - line_start) (skipn line_start (joinl pcs)) in
              match fn a line lineno with
              | (a', Fail) => Some (s', a', Return EndCallback)
              | (a', Stop) => Some (s', a', Return EndStop)
              | (a', Go) => chunk_loop mt fn need fuel s' a' false et (lineno + counted need 1) (skipn line_end (joinl pcs))
              end
          end) by (rewrite EJ; reflexivity).
  rewrite E. cbn [bind].
  destruct (ans bt et (joinl pcs)) as [m|] eqn:EA.
  2:{ destruct (want_none pcs bt et true base F FH) as (W1 & W2). rewrite W1, W2. cbn [feed_calls fst snd].
      exists s', (Done false base (joinl pcs)). split; [reflexivity|]. split; [exact Is'|]. exists base, (joinl pcs).
      rewrite BA. split; [reflexivity|]. rewrite count_joinl by assumption. lia. }
  destruct FH as (pre & line & post & Epcs & Em & Hhit & Hfirst).
  assert (Fpre : Forall nonl pre /\ nonl line /\ Forall nonl post).
  { rewrite Epcs in F. apply Forall_app in F. destruct F as [F1 F2]. inversion F2; subst. auto. }
  destruct Fpre as (Fpre & Nline & Fpost).
  assert (Ebuf : joinl pcs = nlf pre ++ joinl (line :: post)) by (rewrite Epcs; apply joinl_app).
  assert (Elen : m = length (nlf pre ++ line)) by (rewrite app_length; exact Em).
  assert (Ehd : exists tl, joinl (line :: post) = line ++ tl /\ (post = [] /\ tl = [] \/ post <> [] /\ tl = 10%N :: joinl post)).
  { destruct post as [|q post]; [exists []; cbn [joinl]; rewrite app_nil_r; auto|].
    eexists. rewrite joinl_cons by discriminate. split; [reflexivity|]. right. split; [discriminate|reflexivity]. }
  destruct Ehd as (tl & Etl & Hpost).
  assert (Efm : firstn m (joinl pcs) = nlf pre ++ line).
  { rewrite Ebuf, Etl, Elen, app_assoc. apply firstn_exact. }
  assert (Estr : match last_index_nl (firstn m (joinl pcs)) with Some i => (i + 1)%nat | None => O end = length (nlf pre)).
  { rewrite Efm. destruct pre as [|p0 pr] eqn:Epre.
    - cbn. rewrite last_index_none by assumption. reflexivity.
    - rewrite nlf_joinl by discriminate. rewrite <- app_assoc. cbn [app].
      rewrite last_index_line by assumption. rewrite !app_length. cbn [length]. reflexivity. }
  assert (Efs : firstn (length (nlf pre)) (joinl pcs) = nlf pre) by (rewrite Ebuf; apply firstn_exact).
  cbv zeta. rewrite Estr, Efs, (count_nlf pre Fpre).
  set (end_ := Nat.min (m + 1) (length (joinl pcs))).
  assert (Eend : firstn (end_ - length (nlf pre)) (skipn (length (nlf pre)) (joinl pcs)) = line ++ firstn 1 tl
                 /\ skipn end_ (joinl pcs) = joinl post).
  { rewrite Ebuf, skipn_exact, Etl. unfold end_. rewrite Elen, Ebuf, Etl. rewrite !app_length.
    destruct Hpost as [[-> ->]|[NP ->]].
    - cbn [length firstn]. rewrite !Nat.add_0_r. rewrite Nat.min_r by lia. split.
      + replace (length (nlf pre) + length line - length (nlf pre))%nat with (length line) by lia. rewrite !app_nil_r. apply firstn_all.
      + rewrite app_nil_r. cbn [joinl]. apply skipn_all2. rewrite app_length. lia.
    - cbn [length firstn]. rewrite Nat.min_l by lia. split.
      + replace (length (nlf pre) + length line + 1 - length (nlf pre))%nat with (length (line ++ [10%N])) by (rewrite app_length; cbn; lia).
        replace (line ++ 10%N :: joinl post) with ((line ++ [10%N]) ++ joinl post) by (rewrite <- app_assoc; reflexivity).
        apply firstn_exact.
      + replace (nlf pre ++ line ++ 10%N :: joinl post) with ((nlf pre ++ line) ++ 10%N :: joinl post) by (rewrite <- app_assoc; reflexivity).
        rewrite <- app_length. apply skipn_exact1. }
  destruct Eend as [Eline Erest]. rewrite Eline, Erest.
  destruct (want_skip pre bt et true base line post Fpre Hfirst) as (W1 & W2). rewrite <- Epcs in W1, W2. rewrite W1, W2.
  unfold line_hit in Hhit.
  set (base' := base + counted need (length pre)) in *.
  destruct Hpost as [[-> ->]|[NP ->]].
  - (* last piece of the chunk *)
    cbn [firstn]. rewrite app_nil_r. cbn [is_nil] in Hhit. rewrite andb_true_r in Hhit. apply hitb_iff in Hhit; [|exact Nline].
    assert (NS : (is_nil line && is_nil pre)%bool = false).
    { apply andb_false_iff. destruct line; [|auto]. destruct pre; [|auto]. exfalso. rewrite Epcs in EJ. discriminate. }
    cbn [want tail_hit]. rewrite Hhit. cbn [andb]. rewrite NS. cbn [feed_calls].
    destruct (fn a line base') as [a' []]; cbn [fst snd].
    + exists s', (Done false (base' + counted need 1) []). cbn [joinl].
      split; [destruct fuel; reflexivity|]. split; [exact Is'|]. rewrite BA.
      exists (base' + counted need 1), []. split; [reflexivity|]. cbn [negb andb].
      replace (count_lines []) with 0 by reflexivity. rewrite counted_0. rewrite Epcs, app_length. cbn [length].
      replace (length pre + 1 - 1) with (length pre) by lia. unfold base'. lia.
    + exists s', (Return EndStop). auto.
    + exists s', (Return EndCallback). auto.
  - replace (et && is_nil post)%bool with false in Hhit by (destruct post; [congruence|rewrite andb_false_r; reflexivity]).
    apply hitb_iff in Hhit; [|exact Nline]. cbn [firstn].
    destruct post as [|q post]; [congruence|].
    rewrite want_cons, tail_cons, Hhit. cbn [app feed_calls].
    destruct (fn a (line ++ [10%N]) base') as [a' []]; cbn [fst snd].
    + destruct (IH (q :: post) fuel false et (base' + counted need 1)) with (s := s') (a := a') as (s2 & res & E2 & Is2 & R); try assumption.
      * rewrite Epcs, app_length in L. cbn [length] in *. lia.
      * rewrite Ebuf, Etl in Fu. rewrite !app_length in Fu. cbn [length] in Fu. lia.
      * exists s2, res. split; [exact E2|]. split; [exact Is2|].
        destruct (snd (feed_calls fn a' (want false et true (base' + counted need 1) (q :: post)))); [exact R|].
        destruct R as (lineno & rem & -> & R). exists lineno, rem. rewrite BA. split; [destruct (joinl (q :: post)); reflexivity|].
        rewrite R. rewrite Epcs, app_length. cbn [length]. replace (length pre + Datatypes.S (Datatypes.S (length post)) - 1) with (length pre + (Datatypes.S (length post))) by lia.
        unfold base'. clear. unfold counted. destruct need; cbn; destruct (tail_hit false et true (q :: post)); lia.
    + exists s', (Return EndStop). auto.
    + exists s', (Return EndCallback). auto.
Qed.

(** ** The whole input *)
Hypothesis no_empty : forall et, hitb false et [] = false.

Fixpoint hits (bt : bool) (base : nat) (ls : list bytes) : list (bytes * nat) :=
  match ls with
  | [] => []
  | l :: r => (if hitb bt false l then [(l ++ [10%N], base)] else []) ++ hits false (base + counted need 1) r
  end.
Definition tail (bt et : bool) (base : nat) (x : bytes) : list (bytes * nat) :=
  if is_nil x then [] else if hitb bt et x then [(x, base)] else [].
Lemma hits_app : forall a b bt base,
  hits bt base (a ++ b) = hits bt base a ++ hits (bt && is_nil a) (base + counted need (length a)) b.
Proof.
  induction a as [|l a IH]; intros b bt base.
  - cbn [app hits is_nil length]. rewrite andb_true_r, counted_0, Nat.add_0_r. reflexivity.
  - cbn [app hits is_nil length]. rewrite IH, <- app_assoc, andb_false_r, (counted_S (length a)). cbn [andb]. do 3 f_equal. lia.
Qed.
Lemma want_lines : forall ls x bt et start base, (ls = [] -> start = true) ->
  want bt et start base (ls ++ [x]) = hits bt base ls ++ tail (bt && is_nil ls) et (base + counted need (length ls)) x /\
  (x = [] -> tail_hit bt et start (ls ++ [x]) = false).
Proof.
  induction ls as [|l ls IH]; intros x bt et start base ST.
  - rewrite ST by reflexivity. cbn [app want tail_hit hits is_nil length]. rewrite !andb_true_r, counted_0, Nat.add_0_r. unfold tail.
    split; [reflexivity|]. intros ->. reflexivity.
  - cbn [app]. destruct (ls ++ [x]) as [|q post] eqn:E; [destruct ls; discriminate|]. rewrite want_cons, tail_cons, <- E.
    destruct ls as [|l2 ls].
    + cbn [app] in *. injection E as <- <-. cbn [want tail_hit hits is_nil length]. rewrite app_nil_r, andb_false_r. split.
      * f_equal. unfold tail. destruct x; cbn [is_nil andb]; [|reflexivity]. rewrite no_empty. destruct (hitb bt false l); reflexivity.
      * intros ->. rewrite no_empty, andb_false_r. reflexivity.
    + destruct (IH x false et (hitb bt false l) (base + counted need 1)) as (E1 & E2); [discriminate|]. split; [|exact E2].
      rewrite E1. cbn [hits is_nil length]. rewrite <- !app_assoc, !andb_false_r. do 3 f_equal.
      rewrite (counted_S (Datatypes.S (length ls))). f_equal. lia.
Qed.

Lemma joinl_lines : forall ls, joinl (ls ++ [[]]) = nlf ls.
Proof. intros ls. rewrite joinl_snoc. apply app_nil_r. Qed.

Lemma prefix_piece : forall x1 y ls2 x2, nonl x1 -> x1 ++ y = nlf ls2 ++ x2 ->
  exists l, In l (ls2 ++ [x2]) /\ length x1 <= length l.
Proof.
  intros x1 y ls2 x2 N1 E. destruct ls2 as [|l ls2].
  - exists x2. split; [left; reflexivity|]. cbn in E. rewrite <- E, app_length. lia.
  - exists l. split; [left; reflexivity|]. destruct (Nat.le_gt_cases (length x1) (length l)) as [L|L]; [exact L|]. exfalso. apply N1.
    rewrite nlf_cons, <- app_assoc in E. cbn [app] in E.
    assert (X : nth_error (x1 ++ y) (length l) = Some 10%N) by (rewrite E, nth_error_app2, Nat.sub_diag by lia; reflexivity).
    rewrite nth_error_app1 in X by exact L. eapply nth_error_In, X.
Qed.

Lemma chunks_ok : forall {A} (fn : A -> bytes -> nat -> A * verdict) fuel cap r buf bt base ls x,
  buf ++ rd_content r = nlf ls ++ x -> Forall nonl (ls ++ [x]) -> Forall (fun l => length l < cap) (ls ++ [x]) ->
  length buf < cap -> length (rd_content r) < fuel -> forall s a, I s ->
  let f := feed_calls fn a (hits bt base ls ++ tail (bt && is_nil ls) true (base + counted need (length ls)) x) in
  exists s', chunks mt fn need fuel cap s a r buf bt false base =
    Some (s', fst f, match snd f with Some e => e | None => if rd_ok r then EndNil else EndRead end) /\ I s'.
Proof.
  intros A fn. induction fuel as [|fuel IH]; intros cap r buf bt base ls x ET F FL LB Fu s a Is f; [lia|]. cbn [chunks].
  destruct (read_full r (cap - length buf)) as [[d e] r'] eqn:ER.
  destruct (read_full_spec r (cap - length buf) d e r') as (EC & RO & LD & EN & EE); [lia|exact ER|].
  destruct (match e with FNil => true | _ => false end) eqn:EF.
  - (* a full buffer *)
    assert (e = FNil) by (destruct e; try discriminate; reflexivity). subst e. clear EF EE. specialize (EN eq_refl).
    destruct (split_ex (buf ++ d)) as (ls1 & x1 & F1 & E1). apply Forall_app in F1. destruct F1 as (F1 & Fx1). apply Forall_inv in Fx1.
    change (concat (map (fun l => l ++ [10%N]) ls1)) with (nlf ls1) in E1.
    destruct (split_ex (x1 ++ rd_content r')) as (ls2 & x2 & F2 & E2).
    change (concat (map (fun l => l ++ [10%N]) ls2)) with (nlf ls2) in E2.
    assert (EP : ls ++ [x] = (ls1 ++ ls2) ++ [x2]).
    { rewrite <- (split_nl_unique ls x F). rewrite <- (split_nl_unique (ls1 ++ ls2) x2).
      - f_equal. change (nlf ls ++ x = nlf (ls1 ++ ls2) ++ x2). rewrite <- ET, EC, app_assoc, E1, <- app_assoc, E2, nlf_app, app_assoc. reflexivity.
      - rewrite <- app_assoc. apply Forall_app. auto. }
    apply app_inj_tail in EP. destruct EP as (-> & ->).
    assert (L1 : length (nlf ls1) + length x1 = cap).
    { rewrite <- app_length, <- E1, app_length. lia. }
    assert (P1 : exists l, In l (ls2 ++ [x2]) /\ length x1 <= length l) by (apply (prefix_piece x1 (rd_content r')); assumption).
    assert (N1 : ls1 <> []).
    { intros ->. destruct P1 as (l & Il & Ll). cbn in L1. rewrite Forall_forall in FL. specialize (FL l Il). lia. }
    assert (LI : last_index_nl (buf ++ d) = Some (length (joinl ls1))).
    { rewrite E1, nlf_joinl, <- app_assoc by exact N1. apply last_index_line. exact Fx1. }
    rewrite LI. replace (length (joinl ls1) + 1) with (length (nlf ls1)) by (rewrite nlf_joinl, app_length by exact N1; reflexivity).
    rewrite E1, firstn_exact, skipn_exact.
    destruct (chunk_loop_ok fn (length (ls1 ++ [[]])) (ls1 ++ [[]]) (Datatypes.S (length (nlf ls1 ++ x1))) bt false base) with (s := s) (a := a)
      as (s1 & res & EL & Is1 & R); try assumption; [lia|destruct ls1; discriminate|apply Forall_app; split; [assumption|constructor; [intros []|constructor]]| |].
    { rewrite joinl_lines, app_length. lia. }
    destruct (want_lines ls1 [] bt false true base (fun _ => eq_refl)) as (W1 & W2). specialize (W2 eq_refl).
    rewrite W1, W2 in *. unfold tail in EL, R. cbn [is_nil] in EL, R. rewrite app_nil_r in EL, R.
    rewrite joinl_lines in EL. rewrite EL. cbn [bind]. unfold f. rewrite hits_app, <- app_assoc, feed_app.
    destruct (feed_calls fn a (hits bt base ls1)) as [a1 [e1|]]; cbn [fst snd] in *.
    { subst res. exists s1. auto. }
    destruct R as (lineno & rem & -> & R). rewrite R, Nat.add_0_r. rewrite app_length. cbn [length].
    replace (length ls1 + 1 - 1) with (length ls1) by lia.
    assert (BA : bt_after bt (joinl (ls1 ++ [[]])) = (bt && is_nil ls1)%bool).
    { rewrite joinl_lines. destruct ls1 as [|l1 ls1]; [contradiction|]. rewrite nlf_cons, andb_false_r. destruct l1; reflexivity. }
    rewrite BA. replace (bt && is_nil (ls1 ++ ls2))%bool with ((bt && is_nil ls1) && is_nil ls2)%bool
      by (destruct ls1; cbn [is_nil app]; rewrite ?andb_false_r; [contradiction|reflexivity]).
    rewrite app_length. replace (base + counted need (length ls1 + length ls2)) with (base + counted need (length ls1) + counted need (length ls2))
      by (unfold counted; destruct need; lia).
    rewrite <- RO. apply IH; try assumption.
    + apply Forall_app. apply Forall_app in FL. destruct FL as (FL & G). apply Forall_app in FL. tauto.
    + destruct ls1; [contradiction|]. rewrite nlf_cons, app_length in L1. cbn [length] in L1. lia.
    + rewrite EC, app_length in Fu. lia.
  - (* the rest *)
    assert (NF : e <> FNil) by (intros ->; discriminate). destruct (EE NF) as (EC' & LD' & EK).
    assert (ED : buf ++ d = joinl (ls ++ [x])).
    { rewrite joinl_snoc, <- ET, EC, EC', app_nil_r. reflexivity. }
    replace (match e with FNil => match last_index_nl (buf ++ d) with Some i => i + 1 | None => 0 end | _ => length (buf ++ d) end)
      with (length (buf ++ d)) by (destruct e; congruence).
    replace (match e with FNil => false | _ => true end) with true by (destruct e; congruence).
    rewrite firstn_all, skipn_all, ED.
    destruct (chunk_loop_ok fn (length (ls ++ [x])) (ls ++ [x]) (Datatypes.S (length (joinl (ls ++ [x])))) bt true base) with (s := s) (a := a)
      as (s1 & res & EL & Is1 & R); try assumption; [lia|destruct ls; discriminate|lia|].
    destruct (want_lines ls x bt true true base (fun _ => eq_refl)) as (W1 & _). rewrite W1 in *. fold f in EL, R.
    rewrite EL. cbn [bind]. exists s1. split; [|exact Is1]. destruct (snd f) as [e1|].
    { subst res. reflexivity. }
    destruct R as (lineno & rem & -> & _). destruct (rd_ok r); [destruct EK as [-> | ->]; reflexivity|]. subst e. reflexivity.
Qed.
End Chunk.
