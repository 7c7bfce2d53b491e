From Verif Require Import Model.Base Model.GoStr Model.Grep Model.Client Spec.ClientSpec.
From Coq Require Import Lia.
Local Open Scope nat_scope.

Lemma opt_part : forall (b : bool) d, Forall (fun c => (48 <= c <= 57)%N \/ c = 59%N) d ->
  Forall (fun c => (48 <= c <= 57)%N \/ c = 59%N) (if b then d else []).
Proof. intros [] d H; [exact H|constructor]. Qed.

Lemma dec_semi_ok : forall n, (n < 1000)%N -> exists d, dec_semi n = d ++ [59%N] /\
  Forall (fun c => (48 <= c <= 57)%N \/ c = 59%N) d.
Proof.
  intros n L. unfold dec_semi.
  exists ((if (100 <=? n)%N then [(48 + n / 100)%N] else []) ++ (if (10 <=? n)%N then [(48 + (n / 10) mod 10)%N] else []) ++ [(48 + n mod 10)%N]).
  split; [rewrite <- !app_assoc; reflexivity|].
  assert (n / 100 < 10)%N by (apply N.div_lt_upper_bound; lia).
  assert (n mod 10 < 10)%N by (apply N.mod_lt; lia).
  assert ((n / 10) mod 10 < 10)%N by (apply N.mod_lt; lia).
  set (x1 := (n / 100)%N) in *. set (x2 := (n mod 10)%N) in *. set (x3 := ((n / 10) mod 10)%N) in *.
  clearbody x1 x2 x3.
  rewrite !Forall_app. repeat split.
  - apply opt_part. constructor; [left; lia|constructor].
  - apply opt_part. constructor; [left; lia|constructor].
  - constructor; [left; lia|constructor].
Qed.

Theorem FgBg_around : forall s fc fs bc bs, (fc < 900)%N -> (bc < 900)%N ->
  exists q, colour_seq q /\ FgBg true s fc fs bc bs = q ++ s ++ reset.
Proof.
  intros s fc fs bc bs L1 L2. unfold FgBg. cbn [negb].
  destruct (dec_semi_ok ((if has fs Intense then 90 else 30) + fc)%N) as (d1 & E1 & F1);
    [destruct (has fs Intense); lia|].
  rewrite E1.
  set (p := (if has fs Bold then [49; 59]%N else []) ++ (if has fs Blink then [53; 59]%N else []) ++
            (if has fs Underline then [52; 59]%N else []) ++ (if has fs Invert then [55; 59]%N else [])).
  assert (FP : Forall (fun c => (48 <= c <= 57)%N \/ c = 59%N) p).
  { unfold p. rewrite !Forall_app. repeat split; apply opt_part; repeat constructor; lia. }
  destruct (N.eqb bc Colorless).
  - exists (start ++ (p ++ d1) ++ [109%N]). split.
    + exists (p ++ d1). split; [reflexivity|]. rewrite Forall_app. split; assumption.
    + replace (start ++ _) with ((start ++ p ++ d1) ++ [59%N]) by (unfold p; rewrite <- !app_assoc, app_nil_r; reflexivity).
      rewrite removelast_last. rewrite <- !app_assoc. reflexivity.
  - destruct (dec_semi_ok ((if has bs Intense then 100 else 40) + bc)%N) as (d2 & E2 & F2);
      [destruct (has bs Intense); lia|].
    rewrite E2.
    exists (start ++ (p ++ d1 ++ [59%N] ++ d2) ++ [109%N]). split.
    + exists (p ++ d1 ++ [59%N] ++ d2). split; [reflexivity|]. rewrite !Forall_app. repeat split; auto.
      all: repeat constructor; right; reflexivity.
    + replace (start ++ _) with ((start ++ p ++ d1 ++ [59%N] ++ d2) ++ [59%N]) by (unfold p; rewrite <- !app_assoc; reflexivity).
      rewrite removelast_last. rewrite <- !app_assoc. reflexivity.
Qed.

Lemma reset_seq : colour_seq reset.
Proof. exists [48%N]. split; [reflexivity|]. repeat constructor; lia. Qed.

Lemma coloured_app : forall a a', coloured a a' -> forall b b', coloured b b' ->
  coloured (a ++ b) (a' ++ b').
Proof.
  induction 1; intros b b' B; cbn [app].
  - exact B.
  - apply col_char. auto.
  - rewrite <- app_assoc. apply col_seq; auto.
Qed.
Lemma coloured_refl : forall a, coloured a a.
Proof. induction a; constructor; assumption. Qed.

Lemma hl_coloured : forall en s, coloured s (FgBg en s Black Bold Yellow Intense).
Proof.
  intros [] s; [|apply coloured_refl].
  destruct (FgBg_around s Black Bold Yellow Intense) as (q & Q & ->); [reflexivity|reflexivity|].
  apply col_seq; [exact Q|]. rewrite <- (app_nil_r s) at 1.
  apply coloured_app; [apply coloured_refl|]. rewrite <- (app_nil_r reset).
  apply col_seq; [exact reset_seq|constructor].
Qed.

Lemma slice_some : forall {A} (l : list A) i j, i <= j -> j <= length l ->
  slice l i j = Some (firstn (j - i) (skipn i l)).
Proof.
  intros A l i j L1 L2. unfold slice. apply Nat.leb_le in L1. apply Nat.leb_le in L2. rewrite L1, L2. reflexivity.
Qed.

Lemma slice_split : forall {A} (l : list A) i j, i <= j -> skipn i l = firstn (j - i) (skipn i l) ++ skipn j l.
Proof.
  intros A l i j L. rewrite <- (firstn_skipn (j - i) (skipn i l)) at 1. f_equal.
  assert (S2 : forall n m (x : list A), skipn n (skipn m x) = skipn (m + n) x).
  { clear. intros n m. induction m; intros [|a x]; cbn; try reflexivity; [destruct n; reflexivity|]. apply IHm. }
  rewrite S2. f_equal. lia.
Qed.

Lemma hilite_coloured : forall en line idxs beg, positions beg (length line) idxs ->
  exists out, hilite_loop en line beg idxs = Some out /\
    coloured (skipn beg line) out.
Proof.
  intros en line. induction idxs as [|[i j] rest IH]; intros beg P; cbn [positions hilite_loop] in *.
  - rewrite slice_some by lia. eexists. split; [reflexivity|].
    rewrite firstn_all2; [apply coloured_refl|]. rewrite skipn_length. lia.
  - destruct P as (P1 & P2 & P3 & P4). rewrite (slice_some line beg i) by lia. rewrite (slice_some line i j) by lia.
    destruct (IH j P4) as (r & E & C). rewrite E. cbn [bind]. eexists. split; [reflexivity|].
    rewrite (slice_split line beg i P1) at 1. apply coloured_app; [apply coloured_refl|].
    rewrite (slice_split line i j P2) at 1. apply coloured_app; [apply hl_coloured|exact C].
Qed.

Theorem hilite_inserts : forall en line idxs, positions 0 (length line) idxs ->
  exists out, hiliteMatches en idxs line = Some out /\ coloured line out.
Proof. intros. apply (hilite_coloured en line idxs 0). assumption. Qed.

Lemma strip_plain : forall s, ~ In 27%N s -> strip false s = s.
Proof.
  induction s as [|c s IH]; intros NI; [reflexivity|]. cbn [strip].
  destruct (N.eqb_spec c 27); [exfalso; apply NI; left; congruence|].
  f_equal. apply IH. intros X. apply NI. right. exact X.
Qed.

Lemma strip_seq : forall body s, Forall (fun c => (48 <= c <= 57)%N \/ c = 59%N) body ->
  strip true (body ++ 109%N :: s) = strip false s.
Proof.
  induction 1 as [|c body C B IH]; [reflexivity|]. cbn [app strip].
  destruct (N.eqb_spec c 109); [lia|]. exact IH.
Qed.

Theorem coloured_strip : forall s out, coloured s out -> ~ In 27%N s -> strip false out = s.
Proof.
  induction 1 as [|c s out C IH|q s out Q C IH]; intros NI.
  - reflexivity.
  - cbn [strip]. destruct (N.eqb_spec c 27); [exfalso; apply NI; left; congruence|].
    f_equal. apply IH. intros X. apply NI. right. exact X.
  - destruct Q as (body & -> & B). rewrite <- !app_assoc. cbn [app strip N.eqb Pos.eqb negb].
    rewrite strip_seq by exact B. apply IH. exact NI.
Qed.

Theorem hilite_strip : forall en line idxs, positions 0 (length line) idxs -> ~ In 27%N line ->
  exists out, hiliteMatches en idxs line = Some out /\ strip false out = line.
Proof.
  intros en line idxs P NI. destruct (hilite_inserts en line idxs P) as (out & E & C).
  exists out. split; [exact E|]. apply coloured_strip; assumption.
Qed.
