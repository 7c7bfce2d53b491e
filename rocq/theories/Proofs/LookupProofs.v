(** postingQuery evaluates a query exactly (C03). *)
From Coq Require Import Sorted Permutation.
From Verif Require Import Model.Base Model.Codec Model.Posts Model.Writer Model.Query Model.Reader
  Spec.IndexSpec Spec.RunSpec Spec.QuerySpec Proofs.Arith Proofs.ListLemmas Proofs.QueryProofs Proofs.CodecProofs
  Proofs.SparseProofs Proofs.WriterProofs Proofs.MergeProofs Proofs.ReaderProofs.
Local Open Scope N_scope.

Definition asc (l : list N) : Prop := StronglySorted N.lt l.

Lemma asc_ext : forall l1 l2, asc l1 -> asc l2 -> (forall x, In x l1 <-> In x l2) -> l1 = l2.
Proof.
  intros l1 l2 H1 H2 H. apply (strict_sorted_ext N.lt); auto.
  - intros x. apply N.lt_irrefl.
  - intros x y A B. apply (N.lt_irrefl x). eapply N.lt_trans; eassumption.
Qed.

Lemma asc_inv : forall x l, asc (x :: l) -> asc l /\ forall y, In y l -> x < y.
Proof. intros x l H. inversion H as [|? ? H1 F]; subst. rewrite Forall_forall in F. auto. Qed.

Lemma asc_cons : forall x l, asc l -> (forall y, In y l -> x < y) -> asc (x :: l).
Proof. intros x l H F. constructor; [assumption|]. apply Forall_forall. assumption. Qed.

Lemma and_loop_spec : forall ids l, asc ids -> asc l ->
  asc (and_loop ids l) /\ forall x, In x (and_loop ids l) <-> In x ids /\ In x l.
Proof.
  induction ids as [|i ids IH]; intros l Hi Hl; cbn [and_loop].
  - split; [constructor|]. intros x. cbn. tauto.
  - apply asc_inv in Hi. destruct Hi as [Hi Hlt]. destruct (drop_below_spec l i Hl) as (A & B & C).
    assert (Hrest : forall m, asc m -> (forall x, i < x -> (In x m <-> In x l)) ->
              asc (and_loop ids m) /\ forall x, In x (and_loop ids m) <-> In x ids /\ In x l).
    { intros m Hm Hx. destruct (IH m Hi Hm) as [D E]. split; [assumption|]. intros x. rewrite E.
      split; intros [H1 H2]; (split; [assumption|]); apply (Hx x); auto. }
    assert (Hmem : In i l <-> In i (drop_below l i)) by (symmetry; apply C; apply N.le_refl).
    destruct (drop_below l i) as [|y l'] eqn:Ed.
    + destruct (Hrest [] ltac:(constructor)) as [D E]; [intros x Hx; rewrite <- (C x ltac:(lia)); reflexivity|].
      split; [assumption|]. intros x. rewrite E. cbn. split; [tauto|]. intros [[<-|H] H2]; [exfalso; apply Hmem in H2; destruct H2|auto].
    + pose proof (asc_inv _ _ A) as [A' A2]. destruct (N.eqb_spec y i) as [->|Hne].
      * destruct (Hrest l' A') as [D E].
        { intros x Hx. rewrite <- (C x ltac:(lia)). cbn. split; [auto|]. intros [->|]; [lia|assumption]. }
        split.
        { apply asc_cons; [assumption|]. intros x Hx. apply E in Hx. apply Hlt. tauto. }
        intros x. cbn [In]. rewrite E. split.
        { intros [<-|[H1 H2]]; [|auto]. split; [auto|]. apply Hmem. left. reflexivity. }
        { intros [[<-|H1] H2]; auto. }
      * destruct (Hrest (y :: l') A) as [D E]; [intros x Hx; apply C; lia|].
        split; [assumption|]. intros x. rewrite E. cbn [In]. split; [tauto|].
        intros [[<-|H1] H2]; [|auto]. exfalso. apply Hmem in H2. destruct H2 as [H2|H2]; [congruence|].
        specialize (A2 _ H2). specialize (B y (or_introl eq_refl)). lia.
Qed.

Lemma take_drop_below : forall l x, take_below l x ++ drop_below l x = l.
Proof.
  induction l as [|y l IH]; intros x; [reflexivity|]. cbn [take_below drop_below].
  destruct (y <? x); [cbn; f_equal; apply IH|reflexivity].
Qed.

Lemma take_below_lt : forall l x y, In y (take_below l x) -> y < x.
Proof.
  induction l as [|z l IH]; intros x y H; [destruct H|]. cbn [take_below] in H.
  destruct (N.ltb_spec z x) as [Hz|Hz]; [|destruct H]. destruct H as [<-|H]; [assumption|]. apply (IH x y H).
Qed.

Lemma asc_app_inv : forall a b, asc (a ++ b) -> asc a /\ asc b /\ forall x y, In x a -> In y b -> x < y.
Proof.
  induction a as [|z a IH]; intros b H; cbn [app] in H.
  - split; [constructor|]. split; [assumption|]. intros x y [].
  - apply asc_inv in H. destruct H as [H F]. destruct (IH b H) as (A & B & C). split.
    + apply asc_cons; [assumption|]. intros y Hy. apply F. apply in_or_app. auto.
    + split; [assumption|]. intros x y [<-|Hx] Hy; [apply F; apply in_or_app; auto|auto].
Qed.

Lemma or_loop_spec : forall ids l, asc ids -> asc l ->
  asc (or_loop ids l) /\ forall x, In x (or_loop ids l) <-> In x ids \/ In x l.
Proof.
  induction ids as [|i ids IH]; intros l Hi Hl; cbn [or_loop].
  - split; [assumption|]. intros x. cbn. tauto.
  - apply asc_inv in Hi. destruct Hi as [Hi Hlt]. destruct (drop_below_spec l i Hl) as (A & B & C).
    pose proof (take_drop_below l i) as E. pose proof Hl as Hl'. rewrite <- E in Hl'.
    apply asc_app_inv in Hl'. destruct Hl' as (T1 & _ & T3).
    set (m := match drop_below l i with y :: l' => if y =? i then l' else y :: l' | [] => [] end).
    assert (Hm : asc m /\ (forall x, In x m <-> In x (drop_below l i) /\ x <> i)).
    { unfold m. destruct (drop_below l i) as [|y l']; [split; [constructor|cbn; tauto]|].
      pose proof (asc_inv _ _ A) as [A' A2]. destruct (N.eqb_spec y i) as [->|Hne].
      - split; [assumption|]. intros x. cbn. split; [intros H; specialize (A2 _ H); split; [auto|lia]|].
        intros [[->|H] H2]; [congruence|assumption].
      - split; [assumption|]. intros x. split; [|tauto]. intros H. split; [assumption|].
        specialize (B y (or_introl eq_refl)). destruct H as [<-|H]; [lia|]. specialize (A2 _ H). lia. }
    destruct Hm as [Hm Hin]. destruct (IH m Hi Hm) as [D F]. split.
    + apply StronglySorted_app; [assumption| |].
      * apply asc_cons; [assumption|]. intros y Hy. apply F in Hy. destruct Hy as [Hy|Hy]; [auto|].
        apply Hin in Hy. destruct Hy as [Hy Hne]. specialize (B y Hy). lia.
      * intros x y Hx Hy. apply take_below_lt in Hx as Hxi. destruct Hy as [<-|Hy]; [assumption|].
        apply F in Hy. destruct Hy as [Hy|Hy]; [specialize (Hlt y Hy); lia|].
        apply Hin in Hy. destruct Hy as [Hy _]. specialize (B y Hy). lia.
    + intros x. rewrite in_app_iff. cbn [In]. rewrite F, Hin. rewrite <- E at 3. rewrite in_app_iff.
      split.
      * intros [H|[H|[H|[H _]]]]; auto.
      * intros [[H|H]|[H|H]]; auto. destruct (N.eq_dec x i) as [->|Hne]; auto.
Qed.

Lemma merge_or_loop_spec : forall fuel l1 l2, asc l1 -> asc l2 -> (length l1 + length l2 <= fuel)%nat ->
  asc (merge_or_loop fuel l1 l2) /\ forall x, In x (merge_or_loop fuel l1 l2) <-> In x l1 \/ In x l2.
Proof.
  induction fuel as [|fuel IH]; intros l1 l2 H1 H2 Hf.
  - destruct l1, l2; cbn in Hf; try lia. split; [constructor|]. cbn. tauto.
  - cbn [merge_or_loop]. destruct l1 as [|x l1], l2 as [|y l2]; cbn [length] in Hf.
    + split; [constructor|]. cbn. tauto.
    + pose proof (asc_inv _ _ H2) as [A B]. destruct (IH [] l2 H1 A ltac:(cbn; lia)) as [D E].
      split; [apply asc_cons; [assumption|intros z Hz; apply E in Hz; destruct Hz as [[]|Hz]; auto]|].
      intros z. cbn [In]. rewrite E. cbn. tauto.
    + pose proof (asc_inv _ _ H1) as [A B]. destruct (IH l1 [] A H2 ltac:(cbn; lia)) as [D E].
      split; [apply asc_cons; [assumption|intros z Hz; apply E in Hz; destruct Hz as [Hz|[]]; auto]|].
      intros z. cbn [In]. rewrite E. cbn. tauto.
    + pose proof (asc_inv _ _ H1) as [A1 B1]. pose proof (asc_inv _ _ H2) as [A2 B2].
      destruct (N.ltb_spec x y) as [L|L]; [|destruct (N.ltb_spec y x) as [L'|L']].
      * destruct (IH l1 (y :: l2) A1 H2 ltac:(cbn; lia)) as [D E]. split.
        { apply asc_cons; [assumption|]. intros z Hz. apply E in Hz. destruct Hz as [Hz|[<-|Hz]]; auto.
          specialize (B2 z Hz). lia. }
        intros z. cbn [In]. rewrite E. cbn. tauto.
      * destruct (IH (x :: l1) l2 H1 A2 ltac:(cbn; lia)) as [D E]. split.
        { apply asc_cons; [assumption|]. intros z Hz. apply E in Hz. destruct Hz as [[<-|Hz]|Hz]; auto.
          specialize (B1 z Hz). lia. }
        intros z. cbn [In]. rewrite E. cbn. tauto.
      * assert (x = y) by lia. subst y. destruct (IH l1 l2 A1 A2 ltac:(cbn; lia)) as [D E]. split.
        { apply asc_cons; [assumption|]. intros z Hz. apply E in Hz. destruct Hz as [Hz|Hz]; auto. }
        intros z. cbn [In]. rewrite E. cbn. tauto.
Qed.

Lemma merge_or_spec : forall l1 l2, asc l1 -> asc l2 ->
  asc (merge_or l1 l2) /\ forall x, In x (merge_or l1 l2) <-> In x l1 \/ In x l2.
Proof. intros. apply merge_or_loop_spec; auto. Qed.

(** ** The query, over any index whose posting lists are right. *)
Definition is_tri (text : list N) (t : str) : Prop := exists p s, text = p ++ t ++ s.

Definition posts_ok (ix : index) (texts : list (list N)) : Prop :=
  ix_numName ix = Z.of_N (nlen texts) /\ nlen texts < 2^32 /\
  Forall (Forall is_byte) texts /\
  forall t restrict, rsorted restrict ->
    exists ids, asc ids /\
      (forall i, In i ids <-> exists x, nth_error texts (N.to_nat i) = Some x /\ has_trigram x t) /\
      pr_ids ix t restrict = Some (filter (rmem restrict) ids).

Definition allowed (texts : list (list N)) (restrict : option (list N)) (i : N) (P : list N -> Prop) : Prop :=
  rmem restrict i = true /\ exists x, nth_error texts (N.to_nat i) = Some x /\ P x.

Definition restrict_ok (texts : list (list N)) (restrict : option (list N)) : Prop :=
  match restrict with
  | None => True
  | Some r => asc r /\ forall i, In i r -> i < nlen texts
  end.

Lemma tri_num_ok : forall t text, length t = 3%nat -> Forall is_byte text ->
  exists n, tri_num t = Some n /\ (Forall is_byte t -> (has_trigram text n <-> is_tri text t)) /\
            (~ Forall is_byte t -> ~ is_tri text t).
Proof.
  intros t text H Hb. destruct t as [|a [|b [|c [|]]]]; try discriminate. exists (a * 2^16 + b * 2^8 + c).
  split; [reflexivity|]. split.
  - intros Hf. inversion Hf as [|? ? Ha F1]; inversion F1 as [|? ? Hb1 F2]; inversion F2 as [|? ? Hc F3]; subst.
    unfold is_byte in *. split.
    + intros (p & x & y & z & s & E & Et). rewrite E in Hb. apply Forall_app in Hb. destruct Hb as [_ Hb].
      inversion Hb as [|? ? Hx G1]; inversion G1 as [|? ? Hy G2]; inversion G2 as [|? ? Hz G3]; subst.
      unfold is_byte in *. change (2^16) with 65536 in Et. change (2^8) with 256 in Et.
      assert (a = x /\ b = y /\ c = z) as (-> & -> & ->) by lia. exists p, s. reflexivity.
    + intros (p & s & E). exists p, a, b, c, s. split; [assumption|]. change (2^16) with 65536. change (2^8) with 256. lia.
  - intros Hn (p & s & E). apply Hn. rewrite E in Hb. apply Forall_app in Hb. destruct Hb as [_ Hb].
    apply Forall_app in Hb. tauto.
Qed.


(** Trigrams of a query are byte strings. *)
Fixpoint bytes_query (q : query) : Prop :=
  match q with
  | Query _ tri sub => (forall t, In t tri -> Forall is_byte t) /\ fold_right (fun s P => bytes_query s /\ P) True sub
  end.

Lemma one_list : forall ix texts t restrict, posts_ok ix texts -> length t = 3%nat -> Forall is_byte t ->
  restrict_ok texts restrict ->
  exists n ids, tri_num t = Some n /\ pr_ids ix n restrict = Some ids /\ asc ids /\
    forall i, In i ids <-> allowed texts restrict i (fun x => is_tri x t).
Proof.
  intros ix texts t restrict (P1 & P2 & P3 & P4) Hl Ht Hr.
  destruct (tri_num_ok t [] Hl ltac:(constructor)) as (n & En & _ & _).
  destruct (P4 n restrict) as (ids & S & I & E).
  { destruct restrict; [apply Hr|exact I]. }
  exists n, (filter (rmem restrict) ids). split; [assumption|]. split; [assumption|].
  split; [apply StronglySorted_filter; assumption|].
  intros i. rewrite filter_In, I. unfold allowed. split.
  - intros [(x & Nx & Hx) R]. split; [assumption|]. exists x. split; [assumption|].
    rewrite Forall_forall in P3. destruct (tri_num_ok t x Hl (P3 x (nth_error_In _ _ Nx))) as (n' & En' & T & _).
    rewrite En in En'. injection En' as <-. apply T; assumption.
  - intros (R & x & Nx & Hx). split; [|assumption]. exists x. split; [assumption|].
    rewrite Forall_forall in P3. destruct (tri_num_ok t x Hl (P3 x (nth_error_In _ _ Nx))) as (n' & En' & T & _).
    rewrite En in En'. injection En' as <-. apply T; assumption.
Qed.

Lemma allowed_and : forall texts r i P Q, allowed texts r i P -> allowed texts r i Q -> allowed texts r i (fun x => P x /\ Q x).
Proof. intros texts r i P Q (R & x & Nx & Hx) (_ & y & Ny & Hy). split; [assumption|]. exists x. split; [assumption|]. split; [assumption|]. congruence. Qed.

Lemma and_tris_spec : forall ix texts restrict, posts_ok ix texts -> restrict_ok texts restrict ->
  forall ts l (P : list N -> Prop), (forall t, In t ts -> length t = 3%nat /\ Forall is_byte t) ->
  (l = None -> forall x, P x) -> asc (slice_list l) ->
  (l <> None -> slice_list l <> [] /\ forall i, In i (slice_list l) <-> allowed texts restrict i P) ->
  exists r, and_tris ix restrict ts l = Some r /\
  match r with
  | inl _ => forall i, ~ allowed texts restrict i (fun x => P x /\ forall t, In t ts -> is_tri x t)
  | inr None => l = None /\ ts = []
  | inr (Some m) => asc m /\ m <> [] /\ forall i, In i m <-> allowed texts restrict i (fun x => P x /\ forall t, In t ts -> is_tri x t)
  end.
Proof.
  intros ix texts restrict HP HR. induction ts as [|t ts IH]; intros l P Ht H0 Ha Hl; cbn [and_tris].
  - exists (inr l). split; [reflexivity|]. destruct l as [m|]; [|auto].
    destruct Hl as [Hl1 Hl2]; [discriminate|]. cbn [slice_list] in *. split; [assumption|]. split; [assumption|].
    intros i. rewrite Hl2. unfold allowed. split; intros (R & x & Nx & Hx); (split; [assumption|]); exists x;
      (split; [assumption|]); [split; [assumption|intros t []]|tauto].
  - destruct (Ht t (or_introl eq_refl)) as [Ht1 Ht2].
    destruct (one_list ix texts t restrict HP Ht1 Ht2 HR) as (n & ids & En & Ei & Si & Ii).
    rewrite En. cbn [bind].
    assert (HX : exists l', (match l with None => posting_list ix n restrict | Some x => posting_and ix x n restrict end) = Some l'
              /\ asc l' /\ forall i, In i l' <-> allowed texts restrict i (fun x => P x /\ is_tri x t)).
    { destruct l as [m|].
      - destruct Hl as [Hl1 Hl2]; [discriminate|]. cbn [slice_list] in *.
        destruct (and_loop_spec ids m Si Ha) as [A B].
        exists (and_loop ids m). unfold posting_and. rewrite Ei. split; [reflexivity|]. split; [assumption|].
        intros i. rewrite B, Ii, Hl2. split.
        + intros [X Y]. apply (allowed_and texts restrict i P); assumption.
        + intros (R & x & Nx & Hx1 & Hx2). split; (split; [assumption|]); exists x; auto.
      - exists ids. unfold posting_list. split; [assumption|]. split; [assumption|]. intros i. rewrite Ii.
        unfold allowed. split; intros (R & x & Nx & Hx); (split; [assumption|]); exists x; (split; [assumption|]).
        + split; [apply H0; reflexivity|assumption].
        + tauto. }
    destruct HX as (l' & El & Sl & Il). rewrite El. cbn [bind].
    destruct l' as [|y l'].
    + exists (inl tt). split; [reflexivity|]. intros i (R & x & Nx & Hx1 & Hx2).
      apply (in_nil (a := i)). apply Il. split; [assumption|]. exists x. split; [assumption|]. split; [assumption|].
      apply Hx2. left. reflexivity.
    + destruct (IH (Some (y :: l')) (fun x => P x /\ is_tri x t)) as (r & Er & Hr).
      * intros u Hu. apply Ht. right. assumption.
      * discriminate.
      * assumption.
      * intros _. split; [discriminate|assumption].
      * exists r. split; [assumption|].
        assert (HE : forall i, allowed texts restrict i (fun x => (P x /\ is_tri x t) /\ forall u, In u ts -> is_tri x u)
                   <-> allowed texts restrict i (fun x => P x /\ forall u, In u (t :: ts) -> is_tri x u)).
        { intros i. unfold allowed. split; intros (R & x & Nx & Hx); (split; [assumption|]); exists x; (split; [assumption|]).
          - destruct Hx as [[X1 X2] X3]. split; [assumption|]. intros u [<-|Hu]; auto.
          - destruct Hx as [X1 X2]. split; [split; [assumption|apply X2; left; reflexivity]|].
            intros u Hu. apply X2. right. assumption. }
        destruct r as [u|[m|]].
        -- intros i Hi. apply (Hr i). apply HE. assumption.
        -- destruct Hr as (R1 & R2 & R3). split; [assumption|]. split; [assumption|]. intros i. rewrite R3. apply HE.
        -- destruct Hr as [Hr _]. discriminate.
Qed.

Lemma or_tris_spec : forall ix texts restrict, posts_ok ix texts -> restrict_ok texts restrict ->
  forall ts l (P : list N -> Prop), (forall t, In t ts -> length t = 3%nat /\ Forall is_byte t) ->
  asc (slice_list l) -> (forall i, In i (slice_list l) <-> allowed texts restrict i P) ->
  exists r, or_tris ix restrict ts l = Some r /\ asc (slice_list r) /\
    forall i, In i (slice_list r) <-> allowed texts restrict i (fun x => P x \/ exists t, In t ts /\ is_tri x t).
Proof.
  intros ix texts restrict HP HR. induction ts as [|t ts IH]; intros l P Ht Ha Hl; cbn [or_tris].
  - exists l. split; [reflexivity|]. split; [assumption|]. intros i. rewrite Hl. unfold allowed.
    split; intros (R & x & Nx & Hx); (split; [assumption|]); exists x; (split; [assumption|]).
    + left. assumption.
    + destruct Hx as [Hx|(t & [] & _)]. assumption.
  - destruct (Ht t (or_introl eq_refl)) as [Ht1 Ht2].
    destruct (one_list ix texts t restrict HP Ht1 Ht2 HR) as (n & ids & En & Ei & Si & Ii).
    rewrite En. cbn [bind].
    assert (HX : exists l', (match l with None => posting_list ix n restrict | Some x => posting_or ix x n restrict end) = Some l'
              /\ asc l' /\ forall i, In i l' <-> allowed texts restrict i (fun x => P x \/ is_tri x t)).
    { assert (HE : forall i, (In i ids \/ In i (slice_list l)) <-> allowed texts restrict i (fun x => P x \/ is_tri x t)).
      { intros i. rewrite Ii, Hl. unfold allowed. split.
        - intros [(R & x & Nx & Hx)|(R & x & Nx & Hx)]; (split; [assumption|]); exists x; auto.
        - intros (R & x & Nx & [Hx|Hx]); [right|left]; (split; [assumption|]); exists x; auto. }
      destruct l as [m|].
      - destruct (or_loop_spec ids m Si Ha) as [A B]. exists (or_loop ids m). unfold posting_or. rewrite Ei.
        split; [reflexivity|]. split; [assumption|]. intros i. rewrite B, <- HE. reflexivity.
      - exists ids. unfold posting_list. split; [assumption|]. split; [assumption|]. intros i. rewrite <- HE.
        cbn. tauto. }
    destruct HX as (l' & El & Sl & Il). rewrite El. cbn [bind].
    destruct (IH (Some l') (fun x => P x \/ is_tri x t)) as (r & Er & Sr & Ir); auto.
    { intros u Hu. apply Ht. right. assumption. }
    exists r. split; [assumption|]. split; [assumption|]. intros i. rewrite Ir. unfold allowed.
    split; intros (R & x & Nx & Hx); (split; [assumption|]); exists x; (split; [assumption|]).
    + destruct Hx as [[Hx|Hx]|(u & Hu & Hx)]; [auto|right; exists t; cbn; auto|right; exists u; cbn; auto].
    + destruct Hx as [Hx|(u & [<-|Hu] & Hx)]; [auto|auto|right; exists u; auto].
Qed.

Lemma allowed_lt : forall texts r i P, allowed texts r i P -> i < nlen texts.
Proof.
  intros texts r i P (_ & x & Nx & _). assert (N.to_nat i < length texts)%nat by (apply nth_error_Some; congruence).
  unfold nlen. lia.
Qed.

Lemma asc_seq : forall n, (N.of_nat n <= 2^32) -> asc (map (fun k => u32 (N.of_nat k)) (seq 0 n)) /\
  forall i, In i (map (fun k => u32 (N.of_nat k)) (seq 0 n)) <-> i < N.of_nat n.
Proof.
  intros n Hn. split.
  - assert (G : forall m s, (N.of_nat (s + m) <= 2^32) -> asc (map (fun k => u32 (N.of_nat k)) (seq s m))).
    { induction m as [|m IH]; intros s Hs; [constructor|]. cbn [seq map]. apply asc_cons; [apply IH; rewrite Nat.add_succ_r in Hs; exact Hs|].
      intros y Hy. apply in_map_iff in Hy. destruct Hy as (k & <- & Hk). apply in_seq in Hk.
      rewrite !u32_small by lia. lia. }
    apply (G n 0%nat). assumption.
  - intros i. rewrite in_map_iff. split.
    + intros (k & <- & Hk). apply in_seq in Hk. rewrite u32_small by lia. lia.
    + intros Hi. exists (N.to_nat i). rewrite Nnat.N2Nat.id. split; [apply u32_small; lia|]. apply in_seq. lia.
Qed.

Lemma slice_nil_if_empty : forall l, slice_list (nil_if_empty l) = l.
Proof. destruct l; reflexivity. Qed.

Lemma sat_and_in : forall T tri sub, sat T (Query QAnd tri sub) <->
  (forall t, In t tri -> T t) /\ (forall s, In s sub -> sat T s).
Proof.
  intros. cbn. rewrite (fold_and_Forall (sat T)). rewrite Forall_forall. reflexivity.
Qed.
Lemma sat_or_in : forall T tri sub, sat T (Query QOr tri sub) <->
  (exists t, In t tri /\ T t) \/ (exists s, In s sub /\ sat T s).
Proof.
  intros. cbn. rewrite (fold_or_Exists (sat T)). rewrite Exists_exists. reflexivity.
Qed.

Lemma posting_query_spec : forall ix texts, posts_ok ix texts ->
  forall q restrict, wf_query q -> bytes_query q -> restrict_ok texts restrict ->
  exists r, posting_query ix q restrict = Some r /\ asc (slice_list r) /\
    forall i, In i (slice_list r) <-> allowed texts restrict i (fun x => sat (is_tri x) q).
Proof.
  intros ix texts HP. pose proof HP as (HN & Hn & _).
  induction q as [op tri sub IH] using query_ind'. intros restrict Hwf Hbq HR.
  destruct op; cbn [posting_query].
  - (* QAll *)
    destruct restrict as [r|].
    + exists (Some r). split; [reflexivity|]. destruct HR as [R1 R2]. split; [assumption|]. intros i. cbn [slice_list].
      unfold allowed. cbn [rmem]. rewrite rmem_in. cbn. split.
      * intros Hi. split; [assumption|]. specialize (R2 i Hi).
        destruct (nth_error texts (N.to_nat i)) as [x|] eqn:E; [exists x; auto|].
        apply nth_error_None in E. unfold nlen in R2. lia.
      * tauto.
    + rewrite HN. replace (Z.of_N (nlen texts) <? 0)%Z with false by (symmetry; apply Z.ltb_ge; lia).
      eexists. split; [reflexivity|]. cbn [slice_list].
      replace (Z.to_nat (Z.of_N (nlen texts))) with (length texts) by (unfold nlen; lia).
      destruct (asc_seq (length texts)) as [A B]; [unfold nlen in Hn; lia|]. split; [assumption|].
      intros i. rewrite B. unfold allowed. cbn [rmem sat]. split.
      * intros Hi. split; [reflexivity|]. destruct (nth_error texts (N.to_nat i)) as [x|] eqn:E; [exists x; auto|].
        apply nth_error_None in E. lia.
      * intros H. apply (allowed_lt texts None i (fun _ => True)) in H. exact H.
  - exists None. split; [reflexivity|]. split; [constructor|]. intros i. cbn. split; [intros []|].
    intros (_ & x & _ & []).
  - (* QAnd *)
    apply wf_and in Hwf. destruct Hwf as (Hne & Hlen & Hsub). cbn in Hbq. destruct Hbq as [Hb1 Hb2].
    rewrite (fold_and_Forall bytes_query) in Hb2.
    destruct (and_tris_spec ix texts restrict HP HR tri None (fun _ => True)) as (r & Er & Hr); auto.
    { constructor. }
    { congruence. }
    rewrite Er. cbn [bind]. destruct r as [u|l0].
    + exists None. split; [reflexivity|]. split; [constructor|]. intros i. split; [intros []|].
      intros (R & x & Nx & Hx). exfalso. apply sat_and_in in Hx. apply (Hr i). split; [assumption|]. exists x. tauto.
    + (* subs *)
      assert (G : forall qs, Forall (fun q => forall restrict, wf_query q -> bytes_query q -> restrict_ok texts restrict ->
            exists r, posting_query ix q restrict = Some r /\ asc (slice_list r) /\
            forall i, In i (slice_list r) <-> allowed texts restrict i (fun x => sat (is_tri x) q)) qs ->
          Forall wf_query qs -> Forall bytes_query qs ->
          forall l (P : list N -> Prop),
          match l with
          | None => (forall x, P x) /\ qs <> []
          | Some m => asc m /\ m <> [] /\ forall i, In i m <-> allowed texts restrict i P
          end ->
          exists r, (fix subs (qs : list query) (l : option (list N)) : option (option (list N)) :=
             match qs with
             | [] => Some l
             | s :: rest =>
                 let l := match l with None => restrict | Some _ => l end in
                 l' <- posting_query ix s l ;;
                 match slice_list l' with
                 | [] => Some None
                 | _ => subs rest l'
                 end
             end) qs l = Some r /\ asc (slice_list r) /\
          forall i, In i (slice_list r) <-> allowed texts restrict i (fun x => P x /\ forall s, In s qs -> sat (is_tri x) s)).
      { clear IH Hb2 Hsub Hne. induction qs as [|s qs IHq]; intros Hall Hwfs Hbs l P Hl.
        - exists l. split; [reflexivity|]. destruct l as [m|]; [|destruct Hl; congruence].
          destruct Hl as (A & B & C). split; [assumption|]. intros i. cbn [slice_list]. rewrite C. unfold allowed.
          split; intros (R & x & Nx & Hx); (split; [assumption|]); exists x; (split; [assumption|]); [|tauto].
          split; [assumption|intros s []].
        - inversion Hall as [|? ? Hs Hall']; inversion Hwfs as [|? ? Hw Hwfs']; inversion Hbs as [|? ? Hb Hbs']; subst.
          assert (HX : exists l', posting_query ix s (match l with None => restrict | Some _ => l end) = Some l' /\
                    asc (slice_list l') /\
                    forall i, In i (slice_list l') <-> allowed texts restrict i (fun x => P x /\ sat (is_tri x) s)).
          { destruct l as [m|].
            - destruct Hl as (A & B & C).
              destruct (Hs (Some m) Hw Hb) as (r & E & S & I).
              { split; [assumption|]. intros i Hi. apply C in Hi. eapply allowed_lt. exact Hi. }
              exists r. split; [assumption|]. split; [assumption|]. intros i. rewrite I. unfold allowed at 1.
              cbn [rmem]. rewrite rmem_in, C. split.
              + intros [(R & x & Nx & Hx) (y & Ny & Hy)]. split; [assumption|]. exists x. split; [assumption|].
                split; [assumption|congruence].
              + intros (R & x & Nx & Hx1 & Hx2). split; [split; [assumption|exists x; auto]|]. exists x. auto.
            - destruct Hl as [Hl _]. destruct (Hs restrict Hw Hb HR) as (r & E & S & I).
              exists r. split; [assumption|]. split; [assumption|]. intros i. rewrite I. unfold allowed.
              split; intros (R & x & Nx & Hx); (split; [assumption|]); exists x; (split; [assumption|]); [auto|tauto]. }
          destruct HX as (l' & E & S & I). cbv zeta. rewrite E. cbn [bind].
          destruct (slice_list l') as [|y m] eqn:El.
          + exists None. split; [reflexivity|]. split; [constructor|]. intros i. split; [intros []|].
            intros (R & x & Nx & Hx1 & Hx2). exfalso. apply (in_nil (a := i)). apply I. split; [assumption|].
            exists x. split; [assumption|]. split; [assumption|]. apply Hx2. left. reflexivity.
          + destruct l' as [m'|]; [|discriminate]. cbn [slice_list] in El. subst m'.
            destruct (IHq Hall' Hwfs' Hbs' (Some (y :: m)) (fun x => P x /\ sat (is_tri x) s)) as (r & Er' & Sr & Ir).
            { split; [assumption|]. split; [discriminate|assumption]. }
            exists r. split; [assumption|]. split; [assumption|]. intros i. rewrite Ir. unfold allowed.
            split; intros (R & x & Nx & Hx); (split; [assumption|]); exists x; (split; [assumption|]).
            * destruct Hx as [[X1 X2] X3]. split; [assumption|]. intros u [<-|Hu]; auto.
            * destruct Hx as [X1 X2]. split; [split; [assumption|apply X2; left; reflexivity]|].
              intros u Hu. apply X2. right. assumption. }
      destruct (G sub IH Hsub Hb2 l0 (fun x => forall t, In t tri -> is_tri x t)) as (r & Er' & Sr & Ir).
      { destruct l0 as [m|].
        - destruct Hr as (A & B & C). split; [assumption|]. split; [assumption|]. intros i. rewrite C. unfold allowed.
          split; intros (R & x & Nx & Hx); (split; [assumption|]); exists x; (split; [assumption|]); tauto.
        - destruct Hr as [_ ->]. split; [intros x t []|]. destruct Hne; congruence. }
      exists r. split; [assumption|]. split; [assumption|]. intros i. rewrite Ir. unfold allowed.
      split; intros (R & x & Nx & Hx); (split; [assumption|]); exists x; (split; [assumption|]); apply sat_and_in; assumption.
  - (* QOr *)
    apply wf_or in Hwf. destruct Hwf as (Hlen & Hsub). cbn in Hbq. destruct Hbq as [Hb1 Hb2].
    rewrite (fold_and_Forall bytes_query) in Hb2.
    destruct (or_tris_spec ix texts restrict HP HR tri None (fun _ => False)) as (l0 & Er & Sl & Il); auto.
    { constructor. }
    { intros i. split; [intros []|]. intros (_ & x & _ & []). }
    rewrite Er. cbn [bind].
    assert (G : forall qs, Forall (fun q => forall restrict, wf_query q -> bytes_query q -> restrict_ok texts restrict ->
            exists r, posting_query ix q restrict = Some r /\ asc (slice_list r) /\
            forall i, In i (slice_list r) <-> allowed texts restrict i (fun x => sat (is_tri x) q)) qs ->
          Forall wf_query qs -> Forall bytes_query qs ->
          forall l (P : list N -> Prop), asc (slice_list l) -> (forall i, In i (slice_list l) <-> allowed texts restrict i P) ->
          exists r, (fix subs (qs : list query) (l : option (list N)) : option (option (list N)) :=
         match qs with
         | [] => Some l
         | s :: rest =>
             l1 <- posting_query ix s restrict ;;
             subs rest (nil_if_empty (merge_or (slice_list l) (slice_list l1)))
         end) qs l = Some r /\ asc (slice_list r) /\
          forall i, In i (slice_list r) <-> allowed texts restrict i (fun x => P x \/ exists s, In s qs /\ sat (is_tri x) s)).
    { clear IH Hb2 Hsub. induction qs as [|s qs IHq]; intros Hall Hwfs Hbs l P Ha Hl.
      - exists l. split; [reflexivity|]. split; [assumption|]. intros i. rewrite Hl. unfold allowed.
        split; intros (R & x & Nx & Hx); (split; [assumption|]); exists x; (split; [assumption|]).
        + left. assumption.
        + destruct Hx as [Hx|(t & [] & _)]. assumption.
      - inversion Hall as [|? ? Hs Hall']; inversion Hwfs as [|? ? Hw Hwfs']; inversion Hbs as [|? ? Hb Hbs']; subst.
        destruct (Hs restrict Hw Hb HR) as (l1 & E1 & S1 & I1). rewrite E1. cbn [bind].
        destruct (merge_or_spec (slice_list l) (slice_list l1) Ha S1) as [A B].
        destruct (IHq Hall' Hwfs' Hbs' (nil_if_empty (merge_or (slice_list l) (slice_list l1)))
                    (fun x => P x \/ sat (is_tri x) s)) as (r & Er' & Sr & Ir).
        { rewrite slice_nil_if_empty. assumption. }
        { intros i. rewrite slice_nil_if_empty, B, Hl, I1. unfold allowed. split.
          - intros [(R & x & Nx & Hx)|(R & x & Nx & Hx)]; (split; [assumption|]); exists x; auto.
          - intros (R & x & Nx & [Hx|Hx]); [left|right]; (split; [assumption|]); exists x; auto. }
        exists r. split; [assumption|]. split; [assumption|]. intros i. rewrite Ir. unfold allowed.
        split; intros (R & x & Nx & Hx); (split; [assumption|]); exists x; (split; [assumption|]).
        + destruct Hx as [[Hx|Hx]|(u & Hu & Hx)]; [auto|right; exists s; cbn; auto|right; exists u; cbn; auto].
        + destruct Hx as [Hx|(u & [<-|Hu] & Hx)]; [auto|auto|right; exists u; auto]. }
    destruct (G sub IH Hsub Hb2 l0 (fun x => exists t, In t tri /\ is_tri x t)) as (r & Er' & Sr & Ir); auto.
    { intros i. rewrite Il. unfold allowed.
      split; intros (R & x & Nx & Hx); (split; [assumption|]); exists x; (split; [assumption|]); tauto. }
    exists r. split; [assumption|]. split; [assumption|]. intros i. rewrite Ir. unfold allowed.
    split; intros (R & x & Nx & Hx); (split; [assumption|]); exists x; (split; [assumption|]); apply sat_or_in; assumption.
Qed.
