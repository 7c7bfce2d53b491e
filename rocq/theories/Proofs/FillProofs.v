(** index/grep.go: fillFrom. *)
From Verif Require Import Model.Base Model.Grep.
Local Open Scope nat_scope.

(** What a reader delivers in total. *)
Fixpoint rd_content (r : reader) : bytes :=
  match r with RChunk b _ rest => b ++ rd_content rest | _ => [] end.
Fixpoint rd_ok (r : reader) : bool :=
  match r with RChunk _ _ rest => rd_ok rest | REof => true | RFail => false end.

Definition end_err (r : reader) : rerr := if rd_ok r then ErrEof else ErrOther.

Lemma read_full_loop_spec : forall fuel r want got d e r',
  rd_size r < fuel -> length got <= want -> read_full_loop fuel r want got = (d, e, r') ->
  exists d', d = got ++ d' /\ rd_content r = d' ++ rd_content r' /\ rd_ok r' = rd_ok r /\
    length d <= want /\ (length d < want -> rd_content r' = [] /\ e = end_err r).
Proof.
  induction fuel as [|fuel IH]; intros r want got d e r' Fu L E; [lia|]. cbn [read_full_loop] in E.
  destruct (Nat.leb_spec want (length got)) as [LE|GT].
  { injection E as <- <- <-. exists []. rewrite app_nil_r. split; [reflexivity|]. split; [reflexivity|].
    split; [reflexivity|]. split; lia. }
  destruct r as [| |b w rest]; cbn [rd_read] in E.
  - injection E as <- <- <-. exists []. rewrite app_nil_r. split; [reflexivity|]. split; [reflexivity|].
    split; [reflexivity|]. split; [lia|]. auto.
  - injection E as <- <- <-. exists []. rewrite app_nil_r. split; [reflexivity|]. split; [reflexivity|].
    split; [reflexivity|]. split; [lia|]. auto.
  - cbn [rd_size] in Fu. destruct (Nat.leb_spec (length b) (want - length got)) as [LB|GB].
    + assert (STOP : forall x, w = true -> (rest = REof \/ rest = RFail) -> (got ++ b, x, rest) = (d, e, r') -> x = end_err rest ->
         exists d', d = got ++ d' /\ rd_content (RChunk b w rest) = d' ++ rd_content r' /\
           rd_ok r' = rd_ok (RChunk b w rest) /\ length d <= want /\
           (length d < want -> rd_content r' = [] /\ e = end_err (RChunk b w rest))).
      { intros x _ HR EQ Ex. injection EQ as <- <- <-. exists b. split; [reflexivity|]. split; [reflexivity|].
        split; [reflexivity|]. rewrite app_length. split; [lia|]. intros _.
        split; [destruct HR as [-> | ->]; reflexivity|]. exact Ex. }
      assert (GO : read_full_loop fuel rest want (got ++ b) = (d, e, r') ->
         exists d', d = got ++ d' /\ rd_content (RChunk b w rest) = d' ++ rd_content r' /\
           rd_ok r' = rd_ok (RChunk b w rest) /\ length d <= want /\
           (length d < want -> rd_content r' = [] /\ e = end_err (RChunk b w rest))).
      { intros EQ. apply IH in EQ; [|lia|rewrite app_length; lia].
        destruct EQ as (d' & -> & C & O & LL & X). exists (b ++ d'). rewrite app_assoc. split; [reflexivity|].
        split; [cbn [rd_content]; rewrite C, app_assoc; reflexivity|]. split; [exact O|].
        split; [assumption|]. intros H. apply X. exact H. }
      destruct w; [|apply GO; exact E]. destruct rest as [| |b2 w2 rest2]; cbn in E.
      * eapply STOP; [reflexivity|auto|exact E|reflexivity].
      * eapply STOP; [reflexivity|auto|exact E|reflexivity].
      * apply GO. exact E.
    + (* the buffer is filled *)
      assert (L2 : length (got ++ firstn (want - length got) b) = want).
      { rewrite app_length, firstn_length. lia. }
      assert (E2 : (got ++ firstn (want - length got) b, NoErr, RChunk (skipn (want - length got) b) w rest) = (d, e, r')).
      { rewrite <- E. destruct fuel; cbn [read_full_loop]; rewrite L2, Nat.leb_refl; reflexivity. }
      injection E2 as <- <- <-. exists (firstn (want - length got) b). split; [reflexivity|].
      split; [cbn [rd_content]; rewrite app_assoc, firstn_skipn; reflexivity|]. split; [reflexivity|].
      rewrite L2. split; lia.
Qed.

Lemma read_full_spec : forall r want d e r', 0 < want -> read_full r want = (d, e, r') ->
  rd_content r = d ++ rd_content r' /\ rd_ok r' = rd_ok r /\ length d <= want /\
  (e = FNil -> length d = want) /\
  (e <> FNil -> rd_content r' = [] /\ length d < want /\
     (if rd_ok r then e = FUnexpected \/ e = FEof else e = FOther)).
Proof.
  intros r want d e r' W E. unfold read_full in E.
  destruct (read_full_loop (S (rd_size r)) r want []) as [[d0 e0] r0] eqn:E0. injection E as <- <- <-.
  apply read_full_loop_spec in E0; [|lia|cbn; lia].
  destruct E0 as (d' & -> & C & O & L & X). cbn [app] in *. split; [assumption|]. split; [assumption|].
  split; [assumption|].
  destruct (Nat.leb_spec want (length d')) as [LE|GT].
  - split; [intros; lia|]. intros N. contradiction.
  - destruct (X GT) as [C0 ->]. unfold end_err in *. destruct (rd_ok r).
    + split; [destruct (0 <? length d'); discriminate|]. intros _. split; [assumption|]. split; [assumption|].
      destruct (0 <? length d'); auto.
    + split; [discriminate|]. auto.
Qed.

Lemma write_at_prefix : forall buf off d, off + length d <= length buf ->
  firstn (off + length d) (write_at buf off d) = firstn off buf ++ d /\
  length (write_at buf off d) = length buf.
Proof.
  intros buf off d L. unfold write_at. split.
  - rewrite app_assoc. rewrite firstn_app. rewrite !app_length, firstn_length.
    replace (off + length d - (Nat.min off (length buf) + length d)) with 0 by lia.
    rewrite app_nil_r. apply firstn_all2. rewrite app_length, firstn_length. lia.
  - rewrite !app_length, firstn_length, skipn_length. lia.
Qed.

Lemma fill_loop_spec : forall fuel r buf off, off < length buf -> length (rd_content r) < fuel ->
  exists buf', length buf <= length buf' /\
    fill_loop fuel r buf off =
      Some (if rd_ok r then FillOk buf' (firstn off buf ++ rd_content r) else FillErr buf').
Proof.
  induction fuel as [|fuel IH]; intros r buf off O Fu; [lia|]. cbn [fill_loop].
  destruct (read_full r (length buf - off)) as [[d e] r'] eqn:E.
  apply read_full_spec in E; [|lia]. destruct E as (C & OK & L & Xn & Xe).
  assert (W : off + length d <= length buf) by lia.
  destruct (write_at_prefix buf off d W) as [WP WL].
  destruct e.
  - (* full *)
    specialize (Xn eq_refl).
    destruct (IH r' (write_at buf off d ++ repeat 0%N (length (write_at buf off d))) (off + length d)) as (buf' & LB & EQ).
    + rewrite app_length, repeat_length, WL. lia.
    + rewrite C, app_length in Fu. lia.
    + exists buf'. split; [rewrite app_length in LB; lia|]. rewrite EQ, OK. destruct (rd_ok r); [|reflexivity].
      rewrite firstn_app. replace (off + length d - length (write_at buf off d)) with 0 by lia.
      rewrite WP, app_nil_r, C, app_assoc. reflexivity.
  - destruct Xe as (C0 & _ & X); [discriminate|]. exists (write_at buf off d). split; [lia|].
    destruct (rd_ok r); [|discriminate]. rewrite WP, C, C0, app_nil_r. reflexivity.
  - destruct Xe as (C0 & _ & X); [discriminate|]. exists (write_at buf off d). split; [lia|].
    destruct (rd_ok r); [|discriminate]. rewrite WP, C, C0, app_nil_r. reflexivity.
  - destruct Xe as (C0 & _ & X); [discriminate|]. exists (write_at buf off d). split; [lia|].
    destruct (rd_ok r); [destruct X; discriminate|]. reflexivity.
Qed.

(** Buffers a grepper can have: none, or a non-empty one from an earlier file. *)
Definition gbuf_ok (g : option bytes) : Prop := match g with Some b => 0 < length b | None => True end.

Lemma fill_from_spec : forall fuel r g, gbuf_ok g -> length (rd_content r) < fuel ->
  exists buf', gbuf_ok (Some buf') /\
    fill_from fuel r g = Some (if rd_ok r then FillOk buf' (rd_content r) else FillErr buf').
Proof.
  intros fuel r g G Fu. unfold fill_from.
  set (b0 := match g with Some b => b | None => repeat 0%N (N.to_nat (2 ^ 20)) end).
  assert (L : 0 < length b0).
  { unfold b0. destruct g; [exact G|]. rewrite repeat_length. lia. }
  destruct (fill_loop_spec fuel r b0 0 L Fu) as (b & LB & E). exists b. split; [cbn; lia|]. exact E.
Qed.
