(** index/grep.go: line reporting. *)
From Verif Require Import Model.Base Model.Grep Spec.MatchSpec Spec.GrepSpec Proofs.SplitProofs.
From Coq Require Import Sorted.
Local Open Scope N_scope.

(** ** Newline searches *)
Lemma index_nl_line : forall l rest, ~ In 10 l -> index_nl (l ++ 10 :: rest) = Some (length l).
Proof.
  induction l as [|c l IH]; intros rest N; cbn [app index_nl length]; [reflexivity|].
  rewrite (proj2 (N.eqb_neq c 10)) by (intros ->; apply N; left; reflexivity).
  rewrite IH by (intros X; apply N; right; assumption). reflexivity.
Qed.
Lemma index_nl_none : forall l, ~ In 10 l -> index_nl l = None.
Proof.
  induction l as [|c l IH]; intros N; cbn [index_nl]; [reflexivity|].
  rewrite (proj2 (N.eqb_neq c 10)) by (intros ->; apply N; left; reflexivity).
  rewrite IH by (intros X; apply N; right; assumption). reflexivity.
Qed.
Lemma last_index_none : forall l, ~ In 10 l -> last_index_nl l = None.
Proof.
  induction l as [|c l IH]; intros N; cbn [last_index_nl]; [reflexivity|].
  rewrite IH by (intros X; apply N; right; assumption).
  rewrite (proj2 (N.eqb_neq c 10)) by (intros ->; apply N; left; reflexivity). reflexivity.
Qed.
Lemma last_index_line : forall pre l, ~ In 10 l -> last_index_nl (pre ++ 10 :: l) = Some (length pre).
Proof.
  induction pre as [|c pre IH]; intros l N; cbn [app last_index_nl length].
  - rewrite last_index_none by assumption. reflexivity.
  - rewrite IH by assumption. reflexivity.
Qed.

Lemma trim_right_keep : forall l, ~ In 10 l -> trim_right_nl l = l.
Proof.
  induction l as [|c l IH]; intros N; cbn [trim_right_nl]; [reflexivity|].
  rewrite IH by (intros X; apply N; right; assumption).
  rewrite (proj2 (N.eqb_neq c 10)) by (intros ->; apply N; left; reflexivity).
  destruct l; reflexivity.
Qed.
Lemma trim_right_line : forall l, ~ In 10 l -> trim_right_nl (l ++ [10]) = l.
Proof.
  induction l as [|c l IH]; intros N; cbn [app trim_right_nl]; [reflexivity|].
  rewrite IH by (intros X; apply N; right; assumption).
  rewrite (proj2 (N.eqb_neq c 10)) by (intros ->; apply N; left; reflexivity).
  destruct l; reflexivity.
Qed.

(** ** Texts as lists of pieces *)
Definition nlf (l : list bytes) : bytes := concat (map (fun l => l ++ [10]) l).
Fixpoint joinl (l : list bytes) : bytes :=
  match l with
  | [] => []
  | [x] => x
  | x :: r => x ++ 10 :: joinl r
  end.

Lemma nlf_app : forall a b, nlf (a ++ b) = nlf a ++ nlf b.
Proof. intros. unfold nlf. rewrite map_app, concat_app. reflexivity. Qed.
Lemma nlf_cons : forall l r, nlf (l :: r) = l ++ 10 :: nlf r.
Proof. intros. unfold nlf. cbn [map concat]. rewrite <- app_assoc. reflexivity. Qed.
Lemma nlf_snoc : forall l x, nlf (l ++ [x]) = nlf l ++ x ++ [10].
Proof. intros. rewrite nlf_app. unfold nlf at 2. cbn. rewrite app_nil_r. reflexivity. Qed.

Lemma joinl_cons : forall x r, r <> [] -> joinl (x :: r) = x ++ 10 :: joinl r.
Proof. intros x r N. destruct r; [contradiction|reflexivity]. Qed.
Lemma joinl_snoc : forall l x, joinl (l ++ [x]) = nlf l ++ x.
Proof.
  induction l as [|y l IH]; intros x; [reflexivity|].
  cbn [app]. rewrite joinl_cons by (destruct l; discriminate). rewrite IH, nlf_cons, <- app_assoc. reflexivity.
Qed.
Lemma joinl_app : forall l x r, joinl (l ++ x :: r) = nlf l ++ joinl (x :: r).
Proof.
  induction l as [|y l IH]; intros x r; [reflexivity|].
  cbn [app]. rewrite joinl_cons by (destruct l; discriminate). rewrite IH, nlf_cons, <- app_assoc. reflexivity.
Qed.
Lemma nlf_joinl : forall l, l <> [] -> nlf l = joinl l ++ [10].
Proof.
  intros l N. destruct (exists_last N) as (i & x & ->). rewrite joinl_snoc, nlf_snoc, <- app_assoc. reflexivity.
Qed.
Lemma joinl_split : forall t, joinl (split_nl t) = t.
Proof.
  intros t. destruct (split_ex t) as (init & l & F & ->). rewrite split_nl_unique by assumption.
  apply joinl_snoc.
Qed.
Lemma split_joinl : forall l, l <> [] -> Forall (fun l => ~ In 10 l) l -> split_nl (joinl l) = l.
Proof.
  intros l N F. destruct (exists_last N) as (i & x & ->). rewrite joinl_snoc.
  apply split_nl_unique. assumption.
Qed.
Lemma split_nl_Forall : forall t, Forall (fun l => ~ In 10 l) (split_nl t).
Proof.
  intros t. destruct (split_ex t) as (init & l & F & ->). rewrite split_nl_unique by assumption. assumption.
Qed.
Lemma joinl_nil : forall l, joinl l = [] -> l = [] \/ l = [[]].
Proof.
  intros [|x [|y r]] E; [auto|right; cbn in E; subst; reflexivity|].
  rewrite joinl_cons in E by discriminate. destruct x; discriminate.
Qed.

Definition nonl (l : bytes) : Prop := ~ In 10 l.

(** ** countLines *)
Lemma count_lines_nlf : forall ls f, Forall nonl ls -> (length (nlf ls) < f)%nat ->
  count_lines_f f (nlf ls) = length ls.
Proof.
  induction ls as [|l ls IH]; intros f F H.
  - destruct f; reflexivity.
  - inversion F as [|? ? N F']; subst. rewrite nlf_cons in *. rewrite app_length in H. cbn [length] in H.
    destruct f as [|f]; [lia|]. cbn [count_lines_f]. rewrite index_nl_line by assumption.
    replace (skipn (length l + 1) (l ++ 10 :: nlf ls)) with (nlf ls).
    + cbn [length]. f_equal. apply IH; [assumption|]. lia.
    + rewrite skipn_app, skipn_all2 by lia. replace (length l + 1 - length l)%nat with 1%nat by lia. reflexivity.
Qed.

(** ** Context *)
Lemma firstn_exact : forall {A} (a b : list A), firstn (length a) (a ++ b) = a.
Proof. intros. rewrite firstn_app, firstn_all, Nat.sub_diag. apply app_nil_r. Qed.
Lemma skipn_exact : forall {A} (a b : list A), skipn (length a) (a ++ b) = b.
Proof. intros. rewrite skipn_app, skipn_all, Nat.sub_diag. reflexivity. Qed.
Lemma skipn_exact1 : forall {A} (a : list A) x b, skipn (length a + 1) (a ++ x :: b) = b.
Proof.
  intros. rewrite skipn_app, skipn_all2 by lia. replace (length a + 1 - length a)%nat with 1%nat by lia. reflexivity.
Qed.

(** The pieces without the empty one after the last newline. *)
Definition drop_tail (l : list bytes) : list bytes :=
  match rev l with [] :: r => rev r | _ => l end.
Definition drop_head (l : list bytes) : list bytes := match l with [] :: r => r | _ => l end.

Lemma drop_tail_cons : forall x y r, drop_tail (x :: y :: r) = x :: drop_tail (y :: r).
Proof.
  intros x y r. unfold drop_tail. change (rev (x :: y :: r)) with (rev (y :: r) ++ [x]).
  assert (N : rev (y :: r) <> []) by (cbn; destruct (rev r); discriminate).
  destruct (rev (y :: r)) as [|z q]; [contradiction|]. cbn [app]. destruct z; [|reflexivity].
  rewrite rev_app_distr. reflexivity.
Qed.

Lemma first_n_joinl : forall l n, l <> [] -> Forall nonl l ->
  first_n_loop n (joinl l) = firstn n (drop_tail l).
Proof.
  induction l as [|x l IH]; intros n N F; [contradiction|]. inversion F as [|? ? Nx F']; subst.
  destruct l as [|y l].
  - cbn [joinl]. destruct n; [reflexivity|]. cbn [first_n_loop]. rewrite index_nl_none by assumption.
    destruct x; cbn [drop_tail rev app firstn]; [reflexivity|]. rewrite firstn_nil. reflexivity.
  - rewrite joinl_cons by discriminate. rewrite drop_tail_cons. destruct n; [reflexivity|]. cbn [first_n_loop].
    rewrite index_nl_line by assumption. cbn [firstn]. rewrite firstn_exact, skipn_exact1. f_equal.
    apply IH; [discriminate|assumption].
Qed.

Lemma first_n_lines_joinl : forall l n, Forall nonl l ->
  first_n_lines (joinl l) n = firstn n (drop_tail l).
Proof.
  intros l n F. unfold first_n_lines. destruct (joinl l) eqn:E.
  - destruct (joinl_nil l E) as [-> | ->]; cbn; rewrite ?firstn_nil; reflexivity.
  - rewrite <- E. apply first_n_joinl; [|assumption]. intros ->. discriminate.
Qed.

Lemma drop_head_snoc : forall l x, l <> [] -> drop_head (l ++ [x]) = drop_head l ++ [x].
Proof. intros l x N. destruct l as [|[|c y] r]; [contradiction|reflexivity|reflexivity]. Qed.

Lemma lastn_snoc : forall {A} n (l : list A) x, lastn (S n) (l ++ [x]) = lastn n l ++ [x].
Proof.
  intros A n l x. unfold lastn. rewrite app_length. cbn [length].
  replace (length l + 1 - S n)%nat with (length l - n)%nat by lia.
  rewrite skipn_app. replace (length l - n - length l)%nat with 0%nat by lia. reflexivity.
Qed.
Lemma lastn_0 : forall {A} (l : list A), lastn 0 l = [].
Proof. intros. unfold lastn. rewrite Nat.sub_0_r. apply skipn_all. Qed.
Lemma lastn_all : forall {A} n (l : list A), (length l <= n)%nat -> lastn n l = l.
Proof. intros A n l H. unfold lastn. replace (length l - n)%nat with 0%nat by lia. reflexivity. Qed.
Lemma lastn_app : forall {A} n (a b : list A), (n <= length b)%nat -> lastn n (a ++ b) = lastn n b.
Proof.
  intros A n a b H. unfold lastn. rewrite app_length, skipn_app, skipn_all2 by lia.
  cbn. f_equal. lia.
Qed.

Lemma last_n_joinl : forall l n acc, l <> [] -> Forall nonl l ->
  last_n_loop n (joinl l) acc = lastn n (drop_head l) ++ acc.
Proof.
  induction l as [|x l IH] using rev_ind; intros n acc N F; [contradiction|].
  apply Forall_app in F. destruct F as [F Fx]. inversion Fx as [|? ? Nx _]; subst.
  destruct n as [|n]; [rewrite lastn_0; reflexivity|]. cbn [last_n_loop].
  destruct l as [|y l'] eqn:El.
  - cbn [app joinl]. rewrite last_index_none by assumption. destruct x.
    + unfold drop_head. reflexivity.
    + unfold drop_head. rewrite lastn_all by (cbn; lia). reflexivity.
  - rewrite <- El in *. assert (NE : l <> []) by (subst; discriminate).
    rewrite joinl_snoc, nlf_joinl by assumption. rewrite <- app_assoc. cbn [app].
    rewrite last_index_line by assumption. rewrite firstn_exact, skipn_exact1.
    rewrite IH by assumption. rewrite drop_head_snoc by assumption. rewrite lastn_snoc, <- app_assoc. reflexivity.
Qed.

Lemma last_n_lines_joinl : forall l n, Forall nonl l ->
  last_n_lines (joinl l) n = lastn n (drop_head l).
Proof.
  intros l n F. unfold last_n_lines. destruct (joinl l) eqn:E.
  - destruct (joinl_nil l E) as [-> | ->]; unfold lastn; cbn; rewrite ?skipn_nil; reflexivity.
  - rewrite <- E. rewrite last_n_joinl; [|intros ->; discriminate|assumption]. apply app_nil_r.
Qed.

(** ** What the scan reports *)
Definition buf_empty (l : list bytes) : Prop := joinl l = [].

Section Scan.
Variable P : bool -> bool -> bytes -> Prop.
Variable nctx : nat.

Definition hit_of (lineno : nat) (pre : list bytes) (line : bytes) (post : list bytes) : hit :=
  mkHit line (lineno + length pre + 1) (lastn nctx (drop_head pre)) (firstn nctx (drop_tail post)).

Inductive scan : nat -> list bytes -> list hit -> Prop :=
| scan_end : forall lineno pcs, buf_empty pcs -> scan lineno pcs []
| scan_none : forall lineno pcs, ~ buf_empty pcs ->
    (forall pre l post, pcs = pre ++ l :: post -> ~ line_hit P true true pre l post) ->
    scan lineno pcs []
| scan_hit : forall lineno pre line post out, ~ buf_empty (pre ++ line :: post) ->
    line_hit P true true pre line post ->
    (forall pre1 l post1, pre = pre1 ++ l :: post1 -> ~ line_hit P true true pre1 l (post1 ++ line :: post)) ->
    scan (lineno + length pre + 1) post out ->
    scan lineno (pre ++ line :: post) (hit_of lineno pre line post :: out).

Variable S : Type.
Variable mt : S -> bytes -> option (S * option nat).
Variable I : S -> Prop.
Variable ans : bytes -> option nat.
Hypothesis mt_ok : forall s b, I s -> exists s', mt s b = Some (s', ans b) /\ I s'.
Hypothesis ans_ok : forall b, first_hit P true true b (ans b).

(** Feed a list of hits to the callback until it says stop. *)
Fixpoint feed {A} (fn : A -> hit -> A * bool) (a : A) (hs : list hit) : A :=
  match hs with
  | [] => a
  | h :: r => let '(a', more) := fn a h in if more : bool then feed fn a' r else a'
  end.

Lemma grep2_scan : forall n pcs fuel lineno, (length pcs <= n)%nat -> pcs <> [] -> Forall nonl pcs ->
  (length (joinl pcs) < fuel)%nat ->
  exists out, scan lineno pcs out /\
    forall A (fn : A -> hit -> A * bool) s a, I s ->
      exists s', grep2_loop mt fn nctx fuel s a lineno (joinl pcs) = Some (s', feed fn a out) /\ I s'.
Proof.
  induction n as [|n IH]; intros pcs fuel lineno L NE F Fu.
  { destruct pcs; [contradiction|cbn in L; lia]. }
  destruct fuel as [|fuel]; [lia|].
  destruct (joinl pcs) as [|c0 b0] eqn:EJ.
  { exists []. split; [apply scan_end; assumption|]. intros A fn s a Is. exists s. cbn. auto. }
  assert (BNE : ~ buf_empty pcs) by (unfold buf_empty; congruence).
  rewrite <- EJ in Fu |- *.
  pose proof (ans_ok (joinl pcs)) as FH. unfold first_hit in FH.
  specialize (FH pcs). rewrite splits_iff in FH. rewrite split_joinl in FH by assumption.
  specialize (FH eq_refl).
  destruct (ans (joinl pcs)) as [m|] eqn:EA.
  2:{ exists []. split; [apply scan_none; assumption|]. intros A fn s a Is.
      destruct (mt_ok s (joinl pcs) Is) as (s' & E & Is'). exists s'. cbn [grep2_loop].
      rewrite EJ in E |- *. rewrite E. cbn [bind]. rewrite <- EJ, EA. cbn [feed]. auto. }
  destruct FH as (pre & line & post & Epcs & Em & Hhit & Hfirst).
  assert (Fpre : Forall nonl pre /\ nonl line /\ Forall nonl post).
  { rewrite Epcs in F. apply Forall_app in F. destruct F as [F1 F2]. inversion F2; subst. auto. }
  destruct Fpre as (Fpre & Nline & Fpost).
  assert (Ebuf : joinl pcs = nlf pre ++ joinl (line :: post)) by (rewrite Epcs; apply joinl_app).
  assert (Elen : m = length (nlf pre ++ line)) by (rewrite app_length; exact Em).
  assert (Ehd : exists tl, joinl (line :: post) = line ++ tl /\ (post = [] /\ tl = [] \/ post <> [] /\ tl = 10 :: joinl post)).
  { destruct post as [|q post]; [exists []; cbn [joinl]; rewrite app_nil_r; auto|].
    eexists. rewrite joinl_cons by discriminate. split; [reflexivity|]. right. split; [discriminate|reflexivity]. }
  destruct Ehd as (tl & Etl & Hpost).
  assert (Efm : firstn m (joinl pcs) = nlf pre ++ line).
  { rewrite Ebuf, Etl, Elen, app_assoc. apply firstn_exact. }
  assert (Estr : match last_index_nl (firstn m (joinl pcs)) with Some i => (i + 1)%nat | None => O end = length (nlf pre)).
  { rewrite Efm. destruct pre as [|p0 pr] eqn:Epre.
    - cbn. rewrite last_index_none by assumption. reflexivity.
    - rewrite nlf_joinl by discriminate. rewrite <- app_assoc. cbn [app].
      rewrite last_index_line by assumption. rewrite !app_length. cbn [length]. reflexivity. }
  assert (Efs : firstn (length (nlf pre)) (joinl pcs) = nlf pre).
  { rewrite Ebuf. apply firstn_exact. }
  assert (Ecl : count_lines (nlf pre) = length pre).
  { apply count_lines_nlf; [assumption|]. lia. }
  assert (Eendl : firstn (length (nlf pre) - 1) (joinl pcs) = joinl pre).
  { destruct pre as [|p0 pr] eqn:Epre; [reflexivity|]. rewrite <- Epre in *.
    assert (NP : pre <> []) by (rewrite Epre; discriminate).
    rewrite Ebuf, nlf_joinl by assumption. rewrite app_length. cbn [length].
    replace (length (joinl pre) + 1 - 1)%nat with (length (joinl pre)) by lia.
    rewrite <- app_assoc. apply firstn_exact. }
  set (end_ := Nat.min (m + 1) (length (joinl pcs))).
  assert (Eend : firstn (end_ - length (nlf pre)) (skipn (length (nlf pre)) (joinl pcs)) = line ++ firstn 1 tl
                 /\ skipn end_ (joinl pcs) = joinl post).
  { rewrite Ebuf, skipn_exact, Etl. unfold end_. rewrite Elen, Ebuf, Etl. rewrite !app_length.
    destruct Hpost as [[-> ->]|[NP ->]].
    - cbn [length firstn]. rewrite !Nat.add_0_r. rewrite Nat.min_r by lia. split.
      + replace (length (nlf pre) + length line - length (nlf pre))%nat with (length line) by lia. rewrite !app_nil_r. apply firstn_all.
      + rewrite app_nil_r. cbn [joinl]. apply skipn_all2. rewrite app_length. lia.
    - cbn [length firstn]. rewrite Nat.min_l by lia. split.
      + replace (length (nlf pre) + length line + 1 - length (nlf pre))%nat with (length (line ++ [10])) by (rewrite app_length; cbn; lia).
        replace (line ++ 10 :: joinl post) with ((line ++ [10]) ++ joinl post) by (rewrite <- app_assoc; reflexivity).
        apply firstn_exact.
      + replace (nlf pre ++ line ++ 10 :: joinl post) with ((nlf pre ++ line) ++ 10 :: joinl post) by (rewrite <- app_assoc; reflexivity).
        rewrite <- app_length. apply skipn_exact1. }
  destruct Eend as [Eline Erest].
  assert (Etrim : trim_right_nl (line ++ firstn 1 tl) = line).
  { destruct Hpost as [[_ ->]|[_ ->]]; cbn [firstn]; [rewrite app_nil_r; apply trim_right_keep|apply trim_right_line]; assumption. }
  assert (REST : exists out, scan (lineno + length pre + 1) post out /\
    forall A (fn : A -> hit -> A * bool) s a, I s ->
      exists s', grep2_loop mt fn nctx fuel s a (lineno + length pre + 1) (joinl post) = Some (s', feed fn a out) /\ I s').
  { destruct post as [|q post'] eqn:Ep.
    - exists []. split; [apply scan_end; reflexivity|]. intros A fn s a Is. exists s.
      split; [|assumption]. destruct fuel as [|fuel]; [|reflexivity].
      exfalso. rewrite EJ in Fu. cbn in Fu. lia.
    - rewrite <- Ep in *. apply IH; [|subst; discriminate|assumption|].
      + rewrite Epcs, app_length in L. cbn [length] in L. lia.
      + rewrite Ebuf, Etl in Fu. destruct Hpost as [[-> _]|[_ ->]]; [discriminate|].
        rewrite !app_length in Fu. cbn [length] in Fu. lia. }
  destruct REST as (out & SC & GO).
  exists (hit_of lineno pre line post :: out). split.
  { rewrite Epcs. apply scan_hit; [rewrite <- Epcs; assumption|assumption|assumption|assumption]. }
  intros A fn s a Is. destruct (mt_ok s (joinl pcs) Is) as (s' & E & Is'). cbn [grep2_loop].
  rewrite EJ. rewrite <- EJ. rewrite E. cbn [bind]. rewrite EA. cbv zeta.
  rewrite Estr. fold end_. rewrite Eline, Erest, Efs, Ecl, Eendl, Etrim.
  rewrite last_n_lines_joinl, first_n_lines_joinl by assumption.
  fold (hit_of lineno pre line post). cbn [feed].
  destruct (fn a (hit_of lineno pre line post)) as [a' more]. destruct more; [|eauto].
  apply GO. assumption.
Qed.

Lemma grep2_text : forall text,
  exists out, scan 0 (split_nl text) out /\
    forall A (fn : A -> hit -> A * bool) s a, I s ->
      exists s', grep2 mt fn nctx s a text = Some (s', feed fn a out) /\ I s'.
Proof.
  intros text. unfold grep2.
  destruct (grep2_scan (length (split_nl text)) (split_nl text) (Datatypes.S (length text)) 0) as (out & SC & GO).
  - lia.
  - apply split_nl_nonempty.
  - apply split_nl_Forall.
  - rewrite joinl_split. lia.
  - exists out. split; [assumption|]. rewrite joinl_split in GO. exact GO.
Qed.
End Scan.
