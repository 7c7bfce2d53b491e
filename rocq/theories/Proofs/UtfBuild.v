(** The rune builder (utf.go:141-268): the machine it builds for a class. *)
From Verif Require Import Model.Base Model.Utf8 Model.Matcher Model.Utf Spec.Utf8Spec Spec.MatchSpec
  Spec.RuneProgSpec Proofs.Utf8Proofs Proofs.UtfArith.
Local Open Scope N_scope.

Definition node (code : list xinst) (pc : N) (i : inst) : Prop :=
  nth_error code (N.to_nat pc) = Some (XB i).

Lemma list_set_some : forall {A} (l : list A) i v, (i < length l)%nat ->
  exists l', list_set l i v = Some l' /\ length l' = length l /\
    nth_error l' i = Some v /\ forall j, j <> i -> nth_error l' j = nth_error l j.
Proof.
  induction l as [|x t IH]; intros i v L; cbn [length] in L; [lia|].
  destruct i as [|i]; cbn [list_set].
  - exists (v :: t). repeat split. intros [|j] D; [lia|reflexivity].
  - destruct (IH i v ltac:(lia)) as (t' & E & L' & G & F). rewrite E. cbn [bind].
    exists (x :: t'). cbn [length]. repeat split; auto.
    intros [|j] D; [reflexivity|]. cbn [nth_error]. apply F. lia.
Qed.

Lemma node_lt : forall code pc i, node code pc i -> (N.to_nat pc < length code)%nat.
Proof. intros code pc i H. apply nth_error_Some. unfold node in H. rewrite H. discriminate. Qed.
Lemma node_app : forall code ext pc i, node code pc i -> node (code ++ ext) pc i.
Proof. intros code ext pc i H. unfold node. rewrite nth_error_app1; [exact H|]. eapply node_lt, H. Qed.
Lemma node_last : forall code i, node (code ++ [XB i]) (nlen code) i.
Proof.
  intros. unfold node, nlen. rewrite Nat2N.id, nth_error_app2, Nat.sub_diag by lia. reflexivity.
Qed.
Lemma node_fun : forall code pc i j, node code pc i -> node code pc j -> i = j.
Proof. unfold node. intros code pc i j A B. rewrite A in B. injection B as B. exact B. Qed.

Section Build.
(** The number of instructions of the original program. *)
Variable N0 : N.

(** Words consumed from a byte instruction until the original program is re-entered. *)
Inductive btail (code : list xinst) : N -> list N -> N -> Prop :=
| bt_exit : forall pc lo hi f o c, node code pc (IByte lo hi f o) -> o < N0 ->
    in_range lo hi f c -> btail code pc [c] o
| bt_byte : forall pc lo hi f o c w e, node code pc (IByte lo hi f o) -> N0 <= o ->
    in_range lo hi f c -> btail code o w e -> btail code pc (c :: w) e.

Definition is_byte_node (code : list xinst) (pc : N) : Prop :=
  N0 <= pc /\ exists lo hi f o, node code pc (IByte lo hi f o).

(** Appended instructions are byte ranges and branches between appended instructions. *)
Definition shape (code : list xinst) : Prop := forall pc x, N0 <= pc ->
  nth_error code (N.to_nat pc) = Some x ->
  (exists lo hi f o, x = XB (IByte lo hi f o) /\ (o < N0 \/ is_byte_node code o)) \/
  (exists a b, x = XB (IAlt a b) /\ N0 <= a /\ a < nlen code /\ N0 <= b /\ b < nlen code).

Definition keeps_bytes (code code' : list xinst) : Prop :=
  forall pc lo hi f o, node code pc (IByte lo hi f o) -> node code' pc (IByte lo hi f o).

Lemma keeps_refl : forall c, keeps_bytes c c.
Proof. intros c pc lo hi f o H; exact H. Qed.
Lemma keeps_trans : forall a b c, keeps_bytes a b -> keeps_bytes b c -> keeps_bytes a c.
Proof. intros a b c A B pc lo hi f o H. apply B, A, H. Qed.
Lemma keeps_app : forall c e, keeps_bytes c (c ++ e).
Proof. intros c e pc lo hi f o H. apply node_app, H. Qed.
Lemma keeps_is_byte : forall c c' pc, keeps_bytes c c' -> is_byte_node c pc -> is_byte_node c' pc.
Proof. intros c c' pc K (A & lo & hi & f & o & B). split; [exact A|]. exists lo, hi, f, o. apply K, B. Qed.

Lemma btail_mono : forall c c' pc w e, keeps_bytes c c' -> btail c pc w e -> btail c' pc w e.
Proof.
  intros c c' pc w e K H. induction H.
  - eapply bt_exit; eauto.
  - eapply bt_byte; eauto.
Qed.
Lemma btail_back : forall c c' pc w e, shape c -> keeps_bytes c c' -> is_byte_node c pc ->
  btail c' pc w e -> btail c pc w e.
Proof.
  intros c c' pc w e S K B H. induction H as [pc lo hi f o c1 G L R|pc lo hi f o c1 w e G L R H IH].
  - destruct B as (A & lo1 & hi1 & f1 & o1 & B). pose proof (node_fun _ _ _ _ G (K _ _ _ _ _ B)) as E.
    injection E as <- <- <- <-. eapply bt_exit; eauto.
  - destruct B as (A & lo1 & hi1 & f1 & o1 & B). pose proof (node_fun _ _ _ _ G (K _ _ _ _ _ B)) as E.
    injection E as <- <- <- <-. eapply bt_byte; eauto. apply IH.
    destruct (S pc _ A B) as [(lo2 & hi2 & f2 & o2 & E & [X|X])|(a & b & E & _)]; [| |discriminate].
    + injection E as <- <- <- <-. lia.
    + injection E as <- <- <- <-. exact X.
Qed.

(** The branches collected at [pc]; [cur] is the last instruction of the chain. *)
Inductive chain (code : list xinst) : N -> list N -> N -> Prop :=
| ch_0 : forall pc, node code pc IFail -> chain code pc [] pc
| ch_1 : forall pc a, node code pc (INop a) -> chain code pc [a] pc
| ch_2 : forall pc a b, node code pc (IAlt a b) -> chain code pc [a; b] pc
| ch_3 : forall pc q a b c brs cur, node code pc (IAlt a q) -> pc < q -> N0 <= q ->
    chain code q (b :: c :: brs) cur -> chain code pc (a :: b :: c :: brs) cur.

Lemma chain_le : forall code pc brs cur, chain code pc brs cur -> pc <= cur.
Proof. intros code pc brs cur H. induction H; lia. Qed.
Lemma chain_lt : forall code pc brs cur, chain code pc brs cur -> cur < nlen code.
Proof.
  intros code pc brs cur H. induction H as [pc H|pc a H|pc a b H|]; auto;
  apply node_lt in H; unfold nlen; lia.
Qed.
Lemma chain_app : forall code ext pc brs cur, chain code pc brs cur -> chain (code ++ ext) pc brs cur.
Proof.
  intros code ext pc brs cur H. induction H.
  - apply ch_0, node_app; auto.
  - apply ch_1, node_app; auto.
  - apply ch_2, node_app; auto.
  - eapply ch_3; eauto. apply node_app; auto.
Qed.

Definition add_at (code code' : list xinst) (cur x cur' : N) : Prop :=
  (node code cur IFail -> node code' cur (INop x) /\ cur' = cur) /\
  (forall a, node code cur (INop a) -> node code' cur (IAlt a x) /\ cur' = cur) /\
  (forall a b, node code cur (IAlt a b) ->
     node code' cur (IAlt a cur') /\ node code' cur' (IAlt b x) /\ N0 <= cur' /\ cur < cur').

Lemma chain_add : forall code pc brs cur, chain code pc brs cur -> forall code' x cur',
  (forall q i, q <> cur -> node code q i -> node code' q i) ->
  add_at code code' cur x cur' -> chain code' pc (brs ++ [x]) cur'.
Proof.
  intros code pc brs cur H. induction H as [pc H|pc a H|pc a b H|pc q a b c brs cur H L1 L2 H2 IH];
    intros code' x cur' F (A0 & A1 & A2).
  - destruct (A0 H) as [B ->]. apply ch_1, B.
  - destruct (A1 _ H) as [B ->]. apply ch_2, B.
  - destruct (A2 _ _ H) as (B & C & D & E). cbn [app]. eapply ch_3; eauto. apply ch_2, C.
  - cbn [app]. pose proof (chain_le _ _ _ _ H2). eapply ch_3; eauto.
    + apply F; [lia|exact H].
    + apply IH; auto. split; auto.
Qed.

Definition cache_ok (b : builder) : Prop := forall k pc, cache_get (b_cache b) k = Some pc ->
  N0 <= pc /\ (k_next k = 0 \/ is_byte_node (b_inst b) (k_next k)) /\
  node (b_inst b) pc (IByte (k_lo k) (k_hi k) (k_fold k) (if k_next k =? 0 then b_out b else k_next k)).

(** [bg] is the instruction being rewritten, [n1] the number of instructions before. *)
Record inv (b : builder) (bg n1 : N) (brs : list N) : Prop := {
  i_pos : 0 < N0; i_out : b_out b < N0; i_bg : bg < N0; i_n1 : N0 <= n1; i_len : n1 <= nlen (b_inst b);
  i_shape : shape (b_inst b);
  i_cache : cache_ok b;
  i_chain : chain (b_inst b) bg brs (b_begin b);
  i_cur : b_begin b = bg \/ n1 <= b_begin b;
  i_brs : Forall (is_byte_node (b_inst b)) brs }.

Record grows (b b' : builder) (bg n1 : N) : Prop := {
  g_keep : keeps_bytes (b_inst b) (b_inst b');
  g_old : forall q, q < n1 -> q <> bg -> nth_error (b_inst b') (N.to_nat q) = nth_error (b_inst b) (N.to_nat q);
  g_len : (length (b_inst b) <= length (b_inst b'))%nat;
  g_out : b_out b' = b_out b }.

Lemma grows_refl : forall b bg n1, grows b b bg n1.
Proof. intros. split; auto. apply keeps_refl. Qed.
Lemma grows_trans : forall a b c bg n1, grows a b bg n1 -> grows b c bg n1 -> grows a c bg n1.
Proof.
  intros a b c bg n1 A B. split.
  - eapply keeps_trans; [apply A|apply B].
  - intros q L D. rewrite (g_old _ _ _ _ B q L D). apply (g_old _ _ _ _ A q L D).
  - pose proof (g_len _ _ _ _ A). pose proof (g_len _ _ _ _ B). lia.
  - rewrite (g_out _ _ _ _ B). apply (g_out _ _ _ _ A).
Qed.

Lemma nlen_app : forall {A} (l : list A) x, nlen (l ++ [x]) = nlen l + 1.
Proof. intros. unfold nlen. rewrite app_length. cbn [length]. lia. Qed.

Lemma shape_app : forall code i, N0 <= nlen code -> shape code ->
  (exists lo hi f o, i = IByte lo hi f o /\ (o < N0 \/ is_byte_node code o)) -> shape (code ++ [XB i]).
Proof.
  intros code i L S (lo & hi & f & o & -> & O) pc x H E.
  destruct (Nat.lt_ge_cases (N.to_nat pc) (length code)) as [D|D].
  - rewrite nth_error_app1 in E by exact D. destruct (S pc x H E) as [(lo1 & hi1 & f1 & o1 & -> & [X|X])|(a & b & -> & A1 & A2 & A3 & A4)].
    + left. do 4 eexists. split; [reflexivity|]. left; exact X.
    + left. do 4 eexists. split; [reflexivity|]. right. eapply keeps_is_byte; [apply keeps_app|exact X].
    + right. do 2 eexists. split; [reflexivity|]. rewrite nlen_app. lia.
  - rewrite nth_error_app2 in E by exact D.
    destruct (N.to_nat pc - length code)%nat as [|k]; cbn [nth_error] in E; [|destruct k; discriminate].
    injection E as <-. left. do 4 eexists. split; [reflexivity|]. destruct O as [O|O]; [left; exact O|].
    right. eapply keeps_is_byte; [apply keeps_app|exact O].
Qed.

Lemma key_eqb_eq : forall a b, key_eqb a b = true -> a = b.
Proof.
  intros [l h f n] [l' h' f' n'] H. unfold key_eqb in H. cbn [k_lo k_hi k_fold k_next] in H.
  apply andb_prop in H. destruct H as [H H4]. apply andb_prop in H. destruct H as [H H3].
  apply andb_prop in H. destruct H as [H1 H2].
  apply N.eqb_eq in H1, H2, H4. apply eqb_prop in H3. congruence.
Qed.

(** suffix returns a byte instruction with the given range leading to [next]. *)
Lemma uncached_ok : forall b bg n1 brs lo hi f next, inv b bg n1 brs ->
  next = 0 \/ is_byte_node (b_inst b) next ->
  let r := uncachedSuffix b lo hi f next in
  inv (fst r) bg n1 brs /\ grows b (fst r) bg n1 /\ N0 <= snd r /\ b_cache (fst r) = b_cache b /\
  node (b_inst (fst r)) (snd r) (IByte lo hi f (if next =? 0 then b_out b else next)).
Proof.
  intros b bg n1 brs lo hi f next I Nx. cbv zeta. unfold uncachedSuffix. cbn [fst snd b_inst].
  set (i := IByte lo hi f _). assert (K : keeps_bytes (b_inst b) (b_inst b ++ [XB i])) by apply keeps_app.
  destruct I. split; [split; cbn [b_out b_begin b_inst]; auto|].
  - rewrite nlen_app. lia.
  - apply shape_app; [lia|auto|]. subst i. do 4 eexists. split; [reflexivity|].
    destruct (N.eqb_spec next 0) as [->|D]; [left; auto|]. right. destruct Nx as [X|X]; [contradiction|exact X].
  - intros k pc E. cbn [b_cache] in E. destruct (i_cache0 k pc E) as (A & B & C). split; [exact A|]. split.
    + destruct B as [B|B]; [left; exact B|right; eapply keeps_is_byte; eauto].
    + cbn [b_out b_inst]. apply K, C.
  - apply chain_app; auto.
  - eapply Forall_impl; [|exact i_brs0]. intros a. apply keeps_is_byte, K.
  - split; [|split; [lia|split; [reflexivity|apply node_last]]].
    split; cbn [b_inst b_out]; auto.
    + intros q L D. apply nth_error_app1. unfold nlen in *. lia.
    + rewrite app_length. lia.
Qed.

Lemma suffix_ok : forall b bg n1 brs lo hi f next, inv b bg n1 brs ->
  next = 0 \/ is_byte_node (b_inst b) next ->
  let r := suffix b lo hi f next in
  inv (fst r) bg n1 brs /\ grows b (fst r) bg n1 /\ N0 <= snd r /\
  node (b_inst (fst r)) (snd r) (IByte lo hi f (if next =? 0 then b_out b else next)).
Proof.
  intros b bg n1 brs lo hi f next I Nx. cbv zeta. unfold suffix.
  destruct (uncached_ok b bg n1 brs lo hi f next I Nx) as (U1 & U2 & U3 & U4 & U5).
  destruct ((lo <? 0x80) || (0xbf <? hi))%bool; [exact (conj U1 (conj U2 (conj U3 U5)))|].
  destruct (cache_get (b_cache b) (mkKey lo hi f next)) as [pc|] eqn:E.
  - cbn [fst snd]. destruct (i_cache _ _ _ _ I _ _ E) as (A & B & C). cbn [k_lo k_hi k_fold k_next] in C.
    split; [exact I|]. split; [apply grows_refl|]. split; [exact A|exact C].
  - destruct (uncachedSuffix b lo hi f next) as [b' pc] eqn:Eu. cbn [fst snd] in *.
    split; [|split; [|split; [exact U3|exact U5]]].
    + destruct U1. split; cbn [b_out b_begin b_inst]; auto.
      intros k pc' E'. cbn [b_cache cache_get] in E'.
      destruct (key_eqb (mkKey lo hi f next) k) eqn:Ek.
      * injection E' as <-. apply key_eqb_eq in Ek. subst k. cbn [k_lo k_hi k_fold k_next b_out b_inst].
        split; [exact U3|]. split.
        -- destruct Nx as [X|X]; [left; exact X|right]. eapply keeps_is_byte; [apply U2|exact X].
        -- rewrite (g_out _ _ _ _ U2). exact U5.
      * apply (i_cache0 k pc' E').
    + destruct U2. split; cbn [b_inst b_out]; auto.
Qed.

Lemma add_bytes_ok : forall l b bg n1 brs pc (P : list N -> Prop), inv b bg n1 brs ->
  (is_byte_node (b_inst b) pc /\ (forall w e, btail (b_inst b) pc w e <-> e = b_out b /\ P w)) \/
  (pc = 0 /\ l <> [] /\ forall w, P w <-> w = []) ->
  let r := add_bytes b l pc in
  inv (fst r) bg n1 brs /\ grows b (fst r) bg n1 /\ is_byte_node (b_inst (fst r)) (snd r) /\
  (forall w e, btail (b_inst (fst r)) (snd r) w e <->
     e = b_out b /\ exists u v, w = u ++ v /\ Forall2 within (rev l) u /\ P v).
Proof.
  induction l as [|[lo hi] l IH]; intros b bg n1 brs pc P I H; cbv zeta.
  - destruct H as [[B T]|(_ & X & _)]; [|contradiction]. cbn [add_bytes fst snd].
    split; [exact I|]. split; [apply grows_refl|]. split; [exact B|]. intros w e. rewrite T.
    split; intros [-> Q]; (split; [reflexivity|]).
    + exists [], w. split; [reflexivity|]. split; [constructor|exact Q].
    + destruct Q as (u & v & -> & F & Q). cbn [rev] in F. inversion F; subst. exact Q.
  - cbn [add_bytes].
    assert (Nx : pc = 0 \/ is_byte_node (b_inst b) pc) by (destruct H as [[B _]|(X & _)]; auto).
    destruct (suffix_ok b bg n1 brs lo hi false pc I Nx) as (S1 & S2 & S3 & S4).
    destruct (suffix b lo hi false pc) as [b' pc'] eqn:E. cbn [fst snd] in *.
    assert (Hb : is_byte_node (b_inst b') pc') by (split; [exact S3|eauto]).
    assert (T : forall w e, btail (b_inst b') pc' w e <->
              e = b_out b' /\ exists c v, w = c :: v /\ within (lo, hi) c /\ P v).
    { rewrite (g_out _ _ _ _ S2). intros w e. split.
      - intros B. inversion B as [? ? ? ? ? c G L R|? ? ? ? ? c w' ? G L R B']; subst;
          pose proof (node_fun _ _ _ _ G S4) as X; injection X as -> -> -> ->; cbn [in_range] in R.
        + destruct H as [[(HB & _) _]|(-> & _ & HP)].
          * destruct (N.eqb_spec pc 0) as [->|D]; [pose proof (i_pos _ _ _ _ I); lia|]. lia.
          * cbn [N.eqb]. split; [reflexivity|]. exists c, []. split; [reflexivity|]. split; [exact R|]. apply HP. reflexivity.
        + destruct (N.eqb_spec pc 0) as [->|D].
          * pose proof (i_out _ _ _ _ I). lia.
          * destruct H as [[HB HT]|(X & _)]; [|contradiction].
            apply (btail_back (b_inst b)) in B'; [|apply I|apply S2|exact HB]. apply HT in B'. destruct B' as [-> Pw].
            split; [reflexivity|]. exists c, w'. repeat split; auto; apply R.
      - intros (-> & c & v & -> & R & Pv).
        destruct H as [[HB HT]|(-> & _ & HP)].
        + assert (D : pc <> 0) by (destruct HB as [X _]; pose proof (i_pos _ _ _ _ I); lia).
          destruct (N.eqb_spec pc 0) as [|_]; [contradiction|].
          eapply bt_byte; [exact S4|apply HB|exact R|]. eapply btail_mono; [apply S2|]. apply HT. auto.
        + cbn [N.eqb] in S4. apply HP in Pv. subst v. eapply bt_exit; [exact S4|apply I|exact R]. }
    specialize (IH b' bg n1 brs pc' (fun w => exists c v, w = c :: v /\ within (lo, hi) c /\ P v) S1 (or_introl (conj Hb T))).
    cbv zeta in IH. destruct IH as (J1 & J2 & J3 & J4). split; [exact J1|].
    split; [eapply grows_trans; eauto|]. split; [exact J3|]. intros w e. rewrite J4.
    rewrite (g_out _ _ _ _ S2). cbn [rev]. split; intros (-> & u & v & -> & F & Q); (split; [reflexivity|]).
    + destruct Q as (c & v' & -> & R & Pv). exists (u ++ [c]), v'. rewrite <- app_assoc. split; [reflexivity|].
      split; [|exact Pv]. apply Forall2_app; [exact F|]. repeat constructor; apply R.
    + apply Forall2_app_inv_l in F. destruct F as (u1 & u2 & F1 & F2 & ->).
      inversion F2 as [|? c ? l2 R F3]; subst. inversion F3; subst.
      exists u1, (c :: v). rewrite <- app_assoc. split; [reflexivity|]. split; [exact F1|].
      exists c, v. auto.
Qed.

Lemma chain_cur : forall code pc brs cur, chain code pc brs cur ->
  node code cur IFail \/ (exists a, node code cur (INop a)) \/ (exists a b, node code cur (IAlt a b)).
Proof. intros code pc brs cur H. induction H; eauto. Qed.

Lemma chain_inr : forall code pc brs cur, chain code pc brs cur -> forall a, node code cur (INop a) -> brs = [a].
Proof.
  intros code pc brs cur H. induction H as [pc H|pc a H|pc a b H|pc q a b c brs cur H L1 L2 H2 IH]; intros x E.
  - pose proof (node_fun _ _ _ _ H E); discriminate.
  - pose proof (node_fun _ _ _ _ H E) as X. injection X as <-. reflexivity.
  - pose proof (node_fun _ _ _ _ H E); discriminate.
  - specialize (IH _ E). discriminate.
Qed.
Lemma chain_alt : forall code pc brs cur, chain code pc brs cur -> forall a b, node code cur (IAlt a b) -> In a brs /\ In b brs.
Proof.
  intros code pc brs cur H. induction H as [pc H|pc a H|pc a b H|pc q a b c brs cur H L1 L2 H2 IH]; intros x y E.
  - pose proof (node_fun _ _ _ _ H E); discriminate.
  - pose proof (node_fun _ _ _ _ H E); discriminate.
  - pose proof (node_fun _ _ _ _ H E) as X. injection X as <- <-. split; [left|right; left]; reflexivity.
  - destruct (IH _ _ E). split; right; auto.
Qed.

Lemma byte_node_lt : forall code pc, is_byte_node code pc -> N0 <= pc /\ pc < nlen code.
Proof.
  intros code pc (A & lo & hi & f & o & H). split; [exact A|]. apply node_lt in H. unfold nlen. lia.
Qed.

(** Replacing the branch [cur] and possibly appending a branch keeps the rest. *)
Lemma change_ok : forall b bg n1 brs code' pc cur', inv b bg n1 brs -> is_byte_node (b_inst b) pc ->
  (length (b_inst b) <= length code')%nat ->
  (forall q, q <> b_begin b -> q < nlen (b_inst b) ->
     nth_error code' (N.to_nat q) = nth_error (b_inst b) (N.to_nat q)) ->
  (forall q x, nlen (b_inst b) <= q -> nth_error code' (N.to_nat q) = Some x ->
     exists a c, x = XB (IAlt a c) /\ N0 <= a /\ a < nlen code' /\ N0 <= c /\ c < nlen code') ->
  (N0 <= b_begin b -> exists a c, node code' (b_begin b) (IAlt a c) /\ N0 <= a /\ a < nlen code' /\ N0 <= c /\ c < nlen code') ->
  (cur' = b_begin b \/ n1 <= cur') ->
  add_at (b_inst b) code' (b_begin b) pc cur' ->
  inv (mkB cur' (b_out b) (b_cache b) code') bg n1 (brs ++ [pc]) /\
  grows b (mkB cur' (b_out b) (b_cache b) code') bg n1.
Proof.
  intros b bg n1 brs code' pc cur' I B L F N C X A. destruct I.
  assert (K : keeps_bytes (b_inst b) code').
  { intros q lo hi f o H. unfold node. rewrite F; [exact H| |apply node_lt in H; unfold nlen; lia].
    intros ->. destruct (chain_cur _ _ _ _ i_chain0) as [G|[[a G]|(a & c & G)]];
      pose proof (node_fun _ _ _ _ G H); discriminate. }
  assert (L' : nlen (b_inst b) <= nlen code') by (unfold nlen; lia).
  split; [split|split]; cbn [b_inst b_out b_begin b_cache]; auto.
  - lia.
  - intros q x H E. destruct (N.lt_ge_cases q (nlen (b_inst b))) as [D|D].
    + destruct (N.eq_dec q (b_begin b)) as [->|D'].
      * destruct (C H) as (a & c & G & R). unfold node in G. rewrite G in E. injection E as <-. right. eauto 8.
      * rewrite F in E by auto. destruct (i_shape0 q x H E) as [(lo1 & hi1 & f1 & o1 & -> & [Y|Y])|(a & c & -> & A1 & A2 & A3 & A4)].
        -- left. do 4 eexists. split; [reflexivity|]. left; exact Y.
        -- left. do 4 eexists. split; [reflexivity|]. right. eapply keeps_is_byte; eauto.
        -- right. do 2 eexists. split; [reflexivity|]. lia.
    + right. eapply N; eauto.
  - intros k q E. cbn [b_cache b_inst b_out] in *. destruct (i_cache0 k q E) as (A1 & A2 & A3). split; [exact A1|]. split.
    + destruct A2 as [A2|A2]; [left; exact A2|right; eapply keeps_is_byte; eauto].
    + apply K, A3.
  - eapply chain_add; [exact i_chain0| |exact A]. intros q i D H. unfold node. rewrite F; [exact H|exact D|].
    apply node_lt in H. unfold nlen. lia.
  - destruct X as [->|X]; auto.
  - apply Forall_app. split.
    + eapply Forall_impl; [|exact i_brs0]. intros a. apply keeps_is_byte, K.
    + constructor; [|constructor]. eapply keeps_is_byte; eauto.
  - intros q H D. apply F; [|lia]. intros ->. destruct i_cur0; lia.
Qed.

Lemma addBranch_ok : forall b bg n1 brs pc, inv b bg n1 brs -> is_byte_node (b_inst b) pc ->
  exists b', addBranch b pc = Some b' /\ inv b' bg n1 (brs ++ [pc]) /\ grows b b' bg n1.
Proof.
  intros b bg n1 brs pc I B. unfold addBranch.
  pose proof (i_chain _ _ _ _ I) as Ch. pose proof (chain_lt _ _ _ _ Ch) as Lt.
  assert (Lt' : (N.to_nat (b_begin b) < length (b_inst b))%nat) by (unfold nlen in Lt; lia).
  pose proof (byte_node_lt _ _ B) as [B1 B2].
  assert (NB : forall i, node (b_inst b) (b_begin b) i -> N0 <= b_begin b -> exists a c, i = IAlt a c).
  { intros i G H. destruct (chain_cur _ _ _ _ Ch) as [G'|[[a G']|(a & c & G')]];
      pose proof (node_fun _ _ _ _ G G') as E; subst i; eauto; exfalso;
      destruct (i_shape _ _ _ _ I _ _ H G') as [(? & ? & ? & ? & E & _)|(? & ? & E & _)]; discriminate. }
  destruct (chain_cur _ _ _ _ Ch) as [G|[[a G]|(a & c & G)]]; pose proof G as G0; unfold node in G0; rewrite G0; cbn [bind].
  - destruct (list_set_some (b_inst b) _ (XB (INop pc)) Lt') as (code' & E & L & G1 & F).
    unfold set_inst. rewrite E. cbn [bind]. eexists. split; [reflexivity|].
    apply change_ok; auto; try lia.
    + intros q D _. apply F. lia.
    + intros q x H X. exfalso.
      assert (nth_error code' (N.to_nat q) <> None) as Y by (rewrite X; discriminate). apply nth_error_Some in Y. unfold nlen in H. lia.
    + intros H. destruct (NB _ G H) as (a & c & E'). discriminate.
    + split; [auto|]. split; [intros a H|intros a c H]; pose proof (node_fun _ _ _ _ G H); discriminate.
  - destruct (list_set_some (b_inst b) _ (XB (IAlt a pc)) Lt') as (code' & E & L & G1 & F).
    unfold set_inst. rewrite E. cbn [bind]. eexists. split; [reflexivity|].
    apply change_ok; auto; try lia.
    + intros q D _. apply F. lia.
    + intros q x H X. exfalso.
      assert (nth_error code' (N.to_nat q) <> None) as Y by (rewrite X; discriminate). apply nth_error_Some in Y. unfold nlen in H. lia.
    + intros H. destruct (NB _ G H) as (a' & c & E'). discriminate.
    + split; [intros H; pose proof (node_fun _ _ _ _ G H); discriminate|].
      split; [intros a' H|intros a' c H]; pose proof (node_fun _ _ _ _ G H) as X; [|discriminate].
      injection X as <-. auto.
  - assert (Lt2 : (N.to_nat (b_begin b) < length (b_inst b ++ [XB (IAlt c pc)]))%nat) by (rewrite app_length; lia).
    destruct (list_set_some (b_inst b ++ [XB (IAlt c pc)]) _ (XB (IAlt a (nlen (b_inst b)))) Lt2) as (code' & E & L & G1 & F).
    unfold set_inst. rewrite E. cbn [bind]. eexists. split; [reflexivity|].
    rewrite app_length in L. cbn [length] in L.
    assert (Lc : nlen code' = nlen (b_inst b) + 1) by (unfold nlen; lia).
    destruct (chain_alt _ _ _ _ Ch _ _ G) as [Ia Ic].
    pose proof (i_brs _ _ _ _ I) as FB. rewrite Forall_forall in FB.
    destruct (byte_node_lt _ _ (FB _ Ia)) as [Ia1 Ia2]. destruct (byte_node_lt _ _ (FB _ Ic)) as [Ic1 Ic2].
    pose proof (i_n1 _ _ _ _ I) as In1. pose proof (i_len _ _ _ _ I) as Ilen.
    apply change_ok; auto; try lia.
    + intros q D H. rewrite F by lia. apply nth_error_app1. unfold nlen in H. lia.
    + intros q x H X. rewrite F in X by lia. rewrite nth_error_app2 in X by (unfold nlen in H; lia).
      destruct (N.to_nat q - length (b_inst b))%nat as [|k]; cbn [nth_error] in X; [|destruct k; discriminate].
      injection X as <-. exists c, pc. split; [reflexivity|]. lia.
    + intros H. exists a, (nlen (b_inst b)). split; [exact G1|]. lia.
    + split; [intros H; pose proof (node_fun _ _ _ _ G H); discriminate|].
      split; [intros a' H|intros a' c' H]; pose proof (node_fun _ _ _ _ G H) as X; [discriminate|].
      injection X as <- <-. split; [exact G1|]. split; [|lia].
      unfold node. rewrite F by lia. apply (node_last (b_inst b)).
Qed.

Definition langs (code : list xinst) (brs : list N) (w : list N) (e : N) : Prop :=
  exists br, In br brs /\ btail code br w e.

Lemma langs_grow : forall b b' bg n1 brs0 brs w e, inv b bg n1 brs0 -> grows b b' bg n1 ->
  Forall (is_byte_node (b_inst b)) brs -> (langs (b_inst b') brs w e <-> langs (b_inst b) brs w e).
Proof.
  intros b b' bg n1 brs0 brs w e I G F. rewrite Forall_forall in F. split; intros (br & H & T); exists br; split; auto.
  - eapply btail_back; [apply I|apply G|auto|exact T].
  - eapply btail_mono; [apply G|exact T].
Qed.
Lemma langs_app : forall code l1 l2 w e, langs code (l1 ++ l2) w e <-> langs code l1 w e \/ langs code l2 w e.
Proof.
  intros. unfold langs. split.
  - intros (br & H & T). apply in_app_or in H. destruct H; eauto.
  - intros [(br & H & T)|(br & H & T)]; exists br; split; auto; apply in_or_app; auto.
Qed.

Definition range_words (lo hi : N) (w : list N) : Prop := exists r, lo <= r /\ r <= hi /\ wtf8 r w.

Lemma addRange_ok : forall f b bg n1 brs lo hi, inv b bg n1 brs -> hi <= 0x10FFFF -> clear_range lo hi \/ hi < lo ->
  (N.to_nat (hi + 1 - lo) < f)%nat ->
  exists b' brs', addRange f b lo hi false = Some b' /\ inv b' bg n1 (brs ++ brs') /\ grows b b' bg n1 /\
    forall w e, langs (b_inst b') brs' w e <-> e = b_out b /\ range_words lo hi w.
Proof.
  induction f as [|f IH]; intros b bg n1 brs lo hi I M C Fu; [lia|].
  cbn [addRange]. destruct (N.ltb_spec hi lo) as [D|D].
  { exists b, []. rewrite app_nil_r. split; [reflexivity|]. split; [exact I|]. split; [apply grows_refl|].
    intros w e. unfold langs, range_words. split; [intros (br & [] & _)|intros (_ & r & ? & ? & _); lia]. }
  assert (Sp : forall m, lo <= m -> m < hi -> clear_range lo m -> clear_range (m + 1) hi ->
    exists b' brs', (b <- addRange f b lo m false ;; addRange f b (m + 1) hi false) = Some b' /\
      inv b' bg n1 (brs ++ brs') /\ grows b b' bg n1 /\
      forall w e, langs (b_inst b') brs' w e <-> e = b_out b /\ range_words lo hi w).
  { intros m L1 L2 C1 C2.
    destruct (IH b bg n1 brs lo m I ltac:(lia) ltac:(left; exact C1) ltac:(lia)) as (b1 & br1 & E1 & I1 & G1 & T1).
    destruct (IH b1 bg n1 _ (m + 1) hi I1 ltac:(lia) ltac:(left; exact C2) ltac:(lia)) as (b2 & br2 & E2 & I2 & G2 & T2).
    exists b2, (br1 ++ br2). rewrite E1. cbn [bind]. rewrite E2. split; [reflexivity|].
    rewrite app_assoc. split; [exact I2|]. split; [eapply grows_trans; eauto|].
    intros w e. rewrite langs_app, T2. rewrite (langs_grow _ _ _ _ _ _ _ _ I1 G2).
    2:{ pose proof (i_brs _ _ _ _ I1) as F. apply Forall_app in F. apply F. }
    rewrite T1, (g_out _ _ _ _ G1). unfold range_words. split.
    - intros [(-> & r & A & B & W)|(-> & r & A & B & W)]; (split; [reflexivity|]); exists r; (split; [lia|]; split; [lia|exact W]).
    - intros (-> & r & A & B & W). destruct (N.le_gt_cases r m); [left|right]; (split; [reflexivity|]); exists r; (split; [lia|]; split; [lia|exact W]). }
  assert (C' : clear_range lo hi) by (destruct C; [auto|lia]). clear C.
  pose proof (split_length_cases lo hi) as SL. destruct (split_length [1; 2; 3] lo hi) as [m|].
  { destruct SL as (L1 & L2 & X). apply Sp; auto; unfold clear_range in *; lia. }
  unfold RuneSelf. destruct (N.ltb_spec hi 0x80) as [D8|D8].
  { unfold to_byte. rewrite !N.mod_small by lia.
    destruct (suffix_ok b bg n1 brs lo hi false 0 I (or_introl eq_refl)) as (S1 & S2 & S3 & S4).
    destruct (suffix b lo hi false 0) as [b1 pc]. cbn [fst snd N.eqb] in *.
    assert (B : is_byte_node (b_inst b1) pc) by (split; eauto).
    destruct (addBranch_ok b1 bg n1 brs pc S1 B) as (b2 & E & I2 & G2).
    exists b2, [pc]. split; [exact E|]. split; [exact I2|]. split; [eapply grows_trans; eauto|].
    intros w e. rewrite (langs_grow _ _ _ _ _ _ _ _ S1 G2) by (constructor; [exact B|constructor]).
    unfold langs, range_words. split.
    - intros (br & [<-|[]] & T). inversion T as [? ? ? ? ? c G L R|? ? ? ? ? c w' ? G L R B']; subst;
        pose proof (node_fun _ _ _ _ G S4) as X; injection X as -> -> -> ->; cbn [in_range] in R.
      + split; [reflexivity|]. exists c. split; [lia|]. split; [lia|]. left. constructor. lia.
      + pose proof (i_out _ _ _ _ I). lia.
    - intros (-> & r & A1 & A2 & W). exists pc. split; [left; reflexivity|].
      apply wtf8_cases in W. destruct W as [[F1 ->]|[(p & q & F1 & F2 & F3 & F4 & ->)|[(p & q & s & F1 & F2 & F3 & F4 & F5 & ->)|(t & p & q & s & F1 & F2 & F3 & F4 & F5 & F6 & ->)]]]; try (exfalso; lia).
      eapply bt_exit; [exact S4|apply I|cbn [in_range]; lia]. }
  pose proof (split_lead_cases lo hi D SL D8 C') as SD. destruct (split_lead [1; 2; 3] lo hi) as [m|].
  { destruct SD as (L1 & L2 & X1 & X2). apply Sp; auto. }
  destruct SD as (A1 & A2 & A3 & N1 & N2).
  destruct (piece lo hi D M SL D8 A1 A2 A3 N1 N2) as [PL PW]. cbv zeta. rewrite PL, Nat.eqb_refl.
  set (l := combine (encode_rune lo) (encode_rune hi)) in *.
  assert (NE : rev l <> []).
  { intros X. apply (f_equal (@length _)) in X. rewrite rev_length in X. subst l. rewrite combine_length, PL, Nat.min_id in X.
    pose proof (encode_rune_utf8 hi (scalar_not_surrogate hi ltac:(lia) N2)) as U. destruct U; discriminate. }
  destruct (add_bytes_ok (rev l) b bg n1 brs 0 (fun w => w = []) I (or_intror (conj eq_refl (conj NE (fun w => iff_refl _))))) as (S1 & S2 & S3 & S4).
  destruct (add_bytes b (rev l) 0) as [b1 pc]. cbn [fst snd] in *.
  destruct (addBranch_ok b1 bg n1 brs pc S1 S3) as (b2 & E & I2 & G2).
  exists b2, [pc]. split; [exact E|]. split; [exact I2|]. split; [eapply grows_trans; eauto|].
  intros w e. rewrite (langs_grow _ _ _ _ _ _ _ _ S1 G2) by (constructor; [exact S3|constructor]).
  assert (X : langs (b_inst b1) [pc] w e <-> btail (b_inst b1) pc w e).
  { unfold langs. split; [intros (br & [<-|[]] & T); exact T|]. intros T. exists pc. split; [left; reflexivity|exact T]. }
  rewrite X, S4, rev_involutive. unfold range_words. rewrite <- PW. split; intros (-> & H); (split; [reflexivity|]).
  - destruct H as (u & v & -> & F & ->). rewrite app_nil_r. exact F.
  - exists w, []. rewrite app_nil_r. auto.
Qed.

Lemma add_ranges_ok : forall l b bg n1 brs, inv b bg n1 brs ->
  Forall (fun lh => snd lh <= 0x10FFFF /\ (clear_range (fst lh) (snd lh) \/ snd lh < fst lh)) l ->
  exists b' brs', add_ranges b l = Some b' /\ inv b' bg n1 (brs ++ brs') /\ grows b b' bg n1 /\
    forall w e, langs (b_inst b') brs' w e <->
      e = b_out b /\ exists lh, In lh l /\ range_words (fst lh) (snd lh) w.
Proof.
  induction l as [|[lo hi] l IH]; intros b bg n1 brs I F; cbn [add_ranges].
  - exists b, []. rewrite app_nil_r. split; [reflexivity|]. split; [exact I|]. split; [apply grows_refl|].
    intros w e. unfold langs. split; [intros (br & [] & _)|intros (_ & lh & [] & _)].
  - inversion F as [|? ? [A B] F']; subst. cbn [fst snd] in A, B.
    destruct (addRange_ok (range_fuel lo hi) b bg n1 brs lo hi I A B ltac:(unfold range_fuel; lia)) as (b1 & br1 & E1 & I1 & G1 & T1).
    rewrite E1. cbn [bind]. destruct (IH b1 bg n1 _ I1 F') as (b2 & br2 & E2 & I2 & G2 & T2).
    exists b2, (br1 ++ br2). split; [exact E2|]. rewrite app_assoc. split; [exact I2|]. split; [eapply grows_trans; eauto|].
    intros w e. rewrite langs_app, T2, (langs_grow _ _ _ _ _ _ _ _ I1 G2).
    2:{ pose proof (i_brs _ _ _ _ I1) as X. apply Forall_app in X. apply X. }
    rewrite T1, (g_out _ _ _ _ G1). split.
    + intros [(-> & R)|(-> & lh & H & R)]; (split; [reflexivity|]).
      * exists (lo, hi). split; [left; reflexivity|exact R].
      * exists lh. split; [right; exact H|exact R].
    + intros (-> & lh & [<-|H] & R); [left|right]; (split; [reflexivity|]); [exact R|eauto].
Qed.
End Build.
