(** Index files that do not have the documented format. *)
From Coq Require Import Sorted.
From Verif Require Import Model.Base Spec.CodecSpec Spec.FormatSpec Proofs.MergeRanges Proofs.FormatProofs.
Local Open Scope N_scope.

(** The parts of a file of the format are given by its trailer. *)
Definition offset (f : list N) (i : nat) : nat := N.to_nat (be_value (firstn 4 (skipn (4 * i) (skipn (length f - 36) f)))).
Definition section (f : list N) (i : nat) : list N := firstn (offset f (S i) - offset f i) (skipn (offset f i) f).
Definition final (f : list N) : list N := firstn (length f - 36 - offset f 4) (skipn (offset f 4) f).

Lemma mid : forall (a b c : list N) k m, k = length a -> m = length (a ++ b) -> firstn (m - k) (skipn k (a ++ b ++ c)) = b.
Proof.
  intros a b c k m -> ->. rewrite skipn_app, skipn_all, Nat.sub_diag. cbn [app skipn]. rewrite app_length.
  replace (length a + length b - length a)%nat with (length b) by lia. rewrite firstn_app, firstn_all, Nat.sub_diag. cbn [firstn]. apply app_nil_r.
Qed.
Lemma be_off : forall n (b : list N), big_endian 4 (size b) n -> N.to_nat (be_value n) = length b.
Proof. intros n b (_ & _ & ->). unfold size. apply Nnat.Nat2N.id. Qed.

Theorem format_sections : forall m ps names gs f, index_format m ps names gs f ->
  exists p n l last ni pi mark, p = section f 0 /\ n = section f 1 /\ l ++ last = section f 2 /\ ni = section f 3 /\ pi ++ mark = final f /\
    name_list ps p /\ name_list names n /\ posting_lists 0 gs l pi /\ posting_list_bytes last_trigram [] last /\
    (if m then index_entry last_trigram 0 (size l) mark else mark = []) /\ name_index 0 names ni /\
    (forall t ids, In (t, ids) gs -> t < last_trigram).
Proof.
  intros m ps names gs f (p & n & l & la & ni & pi & mark & t & E & NP & NN & PL & PB & IE & NI & FV & S & _).
  exists p, n, l, la, ni, pi, mark.
  destruct FV as (q0 & q1 & q2 & q3 & q4 & -> & B0 & B1 & B2 & B3 & B4).
  set (body := header ++ p ++ n ++ (l ++ la) ++ ni ++ (pi ++ mark)) in *.
  assert (EB : f = body ++ (q0 ++ q1 ++ q2 ++ q3 ++ q4) ++ footer) by (unfold body; rewrite E, <- !app_assoc; reflexivity).
  pose proof (proj1 B0) as L0. pose proof (proj1 B1) as L1. pose proof (proj1 B2) as L2. pose proof (proj1 B3) as L3. pose proof (proj1 B4) as L4.
  assert (LF : (length f = length body + 36)%nat) by (rewrite EB, !app_length, L0, L1, L2, L3, L4; cbn; lia).
  assert (EO : skipn (length f - 36) f = (q0 ++ q1 ++ q2 ++ q3 ++ q4) ++ footer).
  { rewrite LF, EB. replace (length body + 36 - 36)%nat with (length body) by lia. rewrite skipn_app, skipn_all, Nat.sub_diag. reflexivity. }
  assert (AT : forall k (a q c : list N), length a = (4 * k)%nat -> length q = 4%nat -> (q0 ++ q1 ++ q2 ++ q3 ++ q4) ++ footer = a ++ q ++ c ->
             offset f k = N.to_nat (be_value q)).
  { intros k a q c LA LQ EQ. unfold offset. rewrite EO, EQ. rewrite <- LA. rewrite skipn_app, skipn_all, Nat.sub_diag. cbn [app skipn].
    rewrite <- LQ. rewrite firstn_app, firstn_all, Nat.sub_diag. cbn [firstn]. rewrite app_nil_r. reflexivity. }
  assert (O0 : offset f 0 = length header).
  { rewrite (AT 0%nat [] q0 (q1 ++ q2 ++ q3 ++ q4 ++ footer)); [apply be_off, B0|reflexivity|exact L0|rewrite <- !app_assoc; reflexivity]. }
  assert (O1 : offset f 1 = length (header ++ p)).
  { rewrite (AT 1%nat q0 q1 (q2 ++ q3 ++ q4 ++ footer)); [apply be_off, B1|rewrite L0; reflexivity|exact L1|rewrite <- !app_assoc; reflexivity]. }
  assert (O2 : offset f 2 = length (header ++ p ++ n)).
  { rewrite (AT 2%nat (q0 ++ q1) q2 (q3 ++ q4 ++ footer)); [apply be_off, B2|rewrite app_length, L0, L1; reflexivity|exact L2|rewrite <- !app_assoc; reflexivity]. }
  assert (O3 : offset f 3 = length (header ++ p ++ n ++ l ++ la)).
  { rewrite (AT 3%nat (q0 ++ q1 ++ q2) q3 (q4 ++ footer)); [apply be_off, B3|rewrite !app_length, L0, L1, L2; reflexivity|exact L3|rewrite <- !app_assoc; reflexivity]. }
  assert (O4 : offset f 4 = length (header ++ p ++ n ++ (l ++ la) ++ ni)).
  { rewrite (AT 4%nat (q0 ++ q1 ++ q2 ++ q3) q4 footer); [apply be_off, B4|rewrite !app_length, L0, L1, L2, L3; reflexivity|exact L4|rewrite <- !app_assoc; reflexivity]. }
  assert (LT : forall t ids, In (t, ids) gs -> t < last_trigram).
  { intros t ids I. apply MergeRanges.SS_app in S. destruct S as (_ & _ & S). apply (S (t, ids) (last_trigram, []) I (or_introl eq_refl)). }
  unfold section, final. rewrite O0, O1, O2, O3, O4, LF.
  replace (length body + 36 - 36)%nat with (length body) by lia. clear AT EO LF O0 O1 O2 O3 O4 B0 B1 B2 B3 B4.
  split; [|split; [|split; [|split; [|split; [|auto 10]]]]]; symmetry.
  - rewrite E. apply mid; reflexivity.
  - replace f with ((header ++ p) ++ n ++ ((l ++ la) ++ ni ++ (pi ++ mark) ++ (q0 ++ q1 ++ q2 ++ q3 ++ q4) ++ footer)) by (rewrite E, <- !app_assoc; reflexivity).
    apply mid; [reflexivity|rewrite <- !app_assoc; reflexivity].
  - replace f with ((header ++ p ++ n) ++ (l ++ la) ++ (ni ++ (pi ++ mark) ++ (q0 ++ q1 ++ q2 ++ q3 ++ q4) ++ footer)) by (rewrite E, <- !app_assoc; reflexivity).
    apply mid; [reflexivity|rewrite <- !app_assoc; reflexivity].
  - replace f with ((header ++ p ++ n ++ l ++ la) ++ ni ++ ((pi ++ mark) ++ (q0 ++ q1 ++ q2 ++ q3 ++ q4) ++ footer)) by (rewrite E, <- !app_assoc; reflexivity).
    apply mid; [reflexivity|rewrite <- !app_assoc; reflexivity].
  - replace f with ((header ++ p ++ n ++ (l ++ la) ++ ni) ++ (pi ++ mark) ++ ((q0 ++ q1 ++ q2 ++ q3 ++ q4) ++ footer)) by (rewrite E, <- !app_assoc; reflexivity).
    apply mid; [reflexivity|unfold body; rewrite <- !app_assoc; reflexivity].
Qed.

(** Whether the last list has an index entry can be told from the file. *)
Lemma entry_length : forall t c o e, index_entry t c o e -> length e = 11%nat.
Proof. intros t c o e (x & y & z & -> & (A & _) & (B & _) & (C & _)). rewrite !app_length, A, B, C. reflexivity. Qed.
Lemma entry_trigram : forall t c o u d p e, index_entry t c o e -> index_entry u d p e -> t = u.
Proof.
  intros t c o u d p e (x & y & z & -> & (A & _ & <-) & _) (x' & y' & z' & E & (A' & _ & <-) & _).
  f_equal. destruct x as [|x0 [|x1 [|x2 [|? ?]]]]; try discriminate A. destruct x' as [|x0' [|x1' [|x2' [|? ?]]]]; try discriminate A'.
  cbn [app] in E. congruence.
Qed.
Lemma last_entry : forall off gs l x, posting_lists off gs l x -> x = [] \/ exists y e t ids c o, x = y ++ e /\ index_entry t c o e /\ In (t, ids) gs.
Proof.
  intros off gs l x H. induction H as [off|off t ids gs b e l x P E H IH]; [left; reflexivity|right].
  destruct IH as [->|(y & e' & u & ids' & c & o & -> & E' & I)].
  - exists [], e, t, ids, (size ids), off. rewrite app_nil_r. split; [reflexivity|]. split; [exact E|left; reflexivity].
  - exists (e ++ y), e', u, ids', c, o. split; [rewrite app_assoc; reflexivity|]. split; [exact E'|right; exact I].
Qed.
Lemma same_end : forall (a b c d : list N), a ++ b = c ++ d -> length b = length d -> b = d.
Proof.
  intros a b c d E L. assert (length a = length c) by (apply (f_equal (@length N)) in E; rewrite !app_length in E; lia).
  apply (f_equal (skipn (length a))) in E. rewrite !skipn_app, H in E. rewrite Nat.sub_diag in E. rewrite <- H in E at 1. rewrite !skipn_all in E. exact E.
Qed.
Theorem marked_or_not : forall ps names gs ps' names' gs' f, index_format true ps names gs f -> ~ index_format false ps' names' gs' f.
Proof.
  intros ps names gs ps' names' gs' f A B. apply format_sections in A, B.
  destruct A as (p & n & l & la & ni & pi & mark & _ & _ & _ & _ & F & _ & _ & _ & _ & IE & _).
  destruct B as (p' & n' & l' & la' & ni' & pi' & mark' & _ & _ & _ & _ & F' & _ & _ & PL & _ & M & _ & LT). subst mark'. rewrite app_nil_r in F'. subst pi'.
  rewrite <- F in PL. apply last_entry in PL. destruct PL as [E|(y & e & t & ids & c & o & E & IE' & I)].
  - apply entry_length in IE. apply (f_equal (@length N)) in E. rewrite app_length, IE in E. cbn in E. lia.
  - apply same_end in E; [|rewrite (entry_length _ _ _ _ IE), (entry_length _ _ _ _ IE'); reflexivity]. subst e.
    pose proof (entry_trigram _ _ _ _ _ _ _ IE IE') as X. specialize (LT t ids I). lia.
Qed.

(** The list of names ends with two NUL bytes or is one. *)
Lemma names_ends : forall l b, name_list l b -> b = [0] \/ exists a, b = a ++ [0; 0].
Proof.
  intros l b H. induction H as [|s l b A B H IH]; [left; reflexivity|right].
  destruct IH as [->|(a & ->)]; [exists s; reflexivity|exists (s ++ 0 :: a); rewrite <- app_assoc; reflexivity].
Qed.
