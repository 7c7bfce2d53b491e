(** Opening and reading the flushed bytes (C04, C05). *)
From Coq Require Import Sorted Permutation.
From Verif Require Import Model.Base Model.Codec Model.Sparse Model.Posts Model.Writer Model.Reader
  Spec.IndexSpec Spec.RunSpec Proofs.Arith Proofs.ListLemmas Proofs.CodecProofs Proofs.ScanProofs Proofs.WriterProofs
  Proofs.MergeProofs.
Local Open Scope N_scope.

Lemma slice_n_app : forall (pre mid post : bytes), slice_n (pre ++ mid ++ post) (nlen pre) (length mid) = Some mid.
Proof.
  intros. unfold slice_n, sub_slice, nlen. rewrite Nnat.Nat2N.id, !app_length.
  replace (Nat.leb (length pre + length mid) (length pre + (length mid + length post))) with true
    by (symmetry; apply Nat.leb_le; lia).
  rewrite skipn_app, skipn_all, Nat.sub_diag. cbn [app skipn].
  rewrite firstn_app, firstn_all, Nat.sub_diag. cbn. rewrite app_nil_r. reflexivity.
Qed.

Lemma slice_from_app : forall (pre post : bytes), slice_from (pre ++ post) (nlen pre) = Some post.
Proof.
  intros. unfold slice_from. rewrite nlen_app.
  replace (nlen pre <=? nlen pre + nlen post) with true by (symmetry; apply N.leb_le; lia).
  unfold nlen. rewrite Nnat.Nat2N.id, skipn_app, skipn_all, Nat.sub_diag. reflexivity.
Qed.

Lemma rd_uint32_app : forall pre x post, x < 2^32 ->
  rd_uint32 (pre ++ put_uint32 x ++ post) (nlen pre) = Some x.
Proof.
  intros. unfold rd_uint32. change 4%nat with (length (put_uint32 x)). rewrite slice_n_app.
  cbn [bind]. rewrite <- (app_nil_r (put_uint32 x)). apply get_put_uint32. assumption.
Qed.

Lemma rd_uint32_at : forall d pre x post n, d = pre ++ put_uint32 x ++ post -> x < 2^32 -> n = nlen pre ->
  rd_uint32 d n = Some x.
Proof. intros; subst. apply rd_uint32_app; assumption. Qed.

Lemma u32_sub : forall a b, b <= a -> a < 2^32 -> u32 (a + 2^32 - b) = a - b.
Proof.
  intros. replace (a + 2^32 - b) with (a - b + 1 * 2^32) by lia. unfold u32.
  rewrite N.mod_add by discriminate. apply N.mod_small. lia.
Qed.

Lemma str_eqb_same : forall a, str_eqb a a = true.
Proof. induction a; cbn; [reflexivity|]. rewrite N.eqb_refl. assumption. Qed.

Lemma open_generic : forall body a b c d e,
  a < 2^32 -> b < 2^32 -> c < 2^32 -> d <= e -> e <= nlen body -> nlen body + 36 < 2^32 ->
  let D := body ++ (put_uint32 a ++ put_uint32 b ++ put_uint32 c ++ put_uint32 d ++ put_uint32 e) ++ trailer_magic in
  ix_open D = Some (mkIndex D a b c d e (Z.of_N ((e - d) / 4) - 1)%Z ((nlen body - e) / 11)).
Proof.
  intros body a b c d e Ha Hb Hc Hd He Hn D.
  assert (LD : nlen D = nlen body + 36).
  { unfold D, nlen. rewrite !app_length, !put_uint32_length. cbn. lia. }
  assert (LD' : length D = (length body + 36)%nat) by (unfold nlen in LD; lia).
  unfold ix_open. rewrite LD'. change (length trailer_magic) with 16%nat.
  replace (Nat.ltb (length body + 36) (16 + 16)) with false by (symmetry; apply Nat.ltb_ge; lia).
  assert (ET : sub_slice D (length body + 36 - 16) 16 = Some trailer_magic).
  { pose proof (slice_n_app (body ++ put_uint32 a ++ put_uint32 b ++ put_uint32 c ++ put_uint32 d ++ put_uint32 e)
                  trailer_magic []) as H.
    rewrite app_nil_r in H. unfold slice_n in H. change (length trailer_magic) with 16%nat in H.
    replace (N.to_nat (nlen (body ++ put_uint32 a ++ put_uint32 b ++ put_uint32 c ++ put_uint32 d ++ put_uint32 e)))
      with (length body + 36 - 16)%nat in H.
    - unfold D. rewrite <- app_assoc in H. exact H.
    - unfold nlen. rewrite Nnat.Nat2N.id, !app_length, !put_uint32_length. lia. }
  rewrite ET. cbn [bind]. rewrite str_eqb_same. cbn [negb].
  rewrite LD, (u32_sub (nlen body + 36) 36) by lia.
  replace (nlen body + 36 - 36) with (nlen body) by lia.
  rewrite !u32_small by lia.
  assert (R0 : rd_uint32 D (nlen body) = Some a).
  { apply (rd_uint32_at D (body) a (put_uint32 b ++ put_uint32 c ++ put_uint32 d ++ put_uint32 e ++ trailer_magic)); [unfold D; rewrite <- !app_assoc; reflexivity|lia|].
    reflexivity. }
  assert (R1 : rd_uint32 D (nlen body + 4) = Some b).
  { apply (rd_uint32_at D (body ++ put_uint32 a) b (put_uint32 c ++ put_uint32 d ++ put_uint32 e ++ trailer_magic)); [unfold D; rewrite <- !app_assoc; reflexivity|lia|].
    rewrite !nlen_app; unfold nlen; rewrite !put_uint32_length; lia. }
  assert (R2 : rd_uint32 D (nlen body + 8) = Some c).
  { apply (rd_uint32_at D (body ++ put_uint32 a ++ put_uint32 b) c (put_uint32 d ++ put_uint32 e ++ trailer_magic)); [unfold D; rewrite <- !app_assoc; reflexivity|lia|].
    rewrite !nlen_app; unfold nlen; rewrite !put_uint32_length; lia. }
  assert (R3 : rd_uint32 D (nlen body + 12) = Some d).
  { apply (rd_uint32_at D (body ++ put_uint32 a ++ put_uint32 b ++ put_uint32 c) d (put_uint32 e ++ trailer_magic)); [unfold D; rewrite <- !app_assoc; reflexivity|lia|].
    rewrite !nlen_app; unfold nlen; rewrite !put_uint32_length; lia. }
  assert (R4 : rd_uint32 D (nlen body + 16) = Some e).
  { apply (rd_uint32_at D (body ++ put_uint32 a ++ put_uint32 b ++ put_uint32 c ++ put_uint32 d) e (trailer_magic)); [unfold D; rewrite <- !app_assoc; reflexivity|lia|].
    rewrite !nlen_app; unfold nlen; rewrite !put_uint32_length; lia. }
  rewrite R0, R1, R2, R3, R4. cbn [bind]. rewrite !u32_sub by lia. reflexivity.
Qed.

Lemma name_offsets_nlen : forall docs start, nlen (name_offsets start docs) = nlen docs.
Proof. intros. unfold nlen. rewrite name_offsets_length. reflexivity. Qed.

Lemma nlen_cons : forall {A} (x : A) l, nlen (x :: l) = 1 + nlen l.
Proof. intros. unfold nlen. cbn [length]. lia. Qed.

(** The opened index. *)
Definition ly_b (ps : list str) : N := nlen (magic ++ paths_bytes ps).
Definition ly_c ps (docs : list doc) : N := ly_b ps + nlen (names_data (docs ++ [([], [])])).
Definition ly_d ps docs L : N := ly_c ps docs + nlen (lists_bytes (group_up L ++ [last_group])).
Definition ly_e ps (docs : list doc) L : N := ly_d ps docs L + 4 * (nlen docs + 1).
Definition ly_index ps docs L : index :=
  mkIndex (layout ps docs L) (nlen magic) (ly_b ps) (ly_c ps docs) (ly_d ps docs L) (ly_e ps docs L)
          (Z.of_N (nlen docs)) (nlen (group_up L) + 1).

Lemma concat_uint32_len : forall xs, nlen (concat (map put_uint32 xs)) = 4 * nlen xs.
Proof.
  induction xs as [|x xs IH]; [reflexivity|]. cbn [map concat]. rewrite nlen_app, IH.
  unfold nlen. rewrite put_uint32_length. cbn [length]. lia.
Qed.

Lemma index_bytes_len : forall gs off, nlen (index_bytes off gs) = 11 * nlen gs.
Proof.
  induction gs as [|g gs IH]; intros off; [reflexivity|]. cbn [index_bytes].
  rewrite !nlen_app, IH. unfold nlen. rewrite !put_uint32_length, put_trigram_length. cbn [length]. lia.
Qed.

Lemma open_layout : forall ps docs L, nlen (layout ps docs L) < 2^32 ->
  ix_open (layout ps docs L) = Some (ly_index ps docs L).
Proof.
  intros ps docs L H. unfold ly_index. unfold layout in *. cbv zeta in *.
  set (b := magic ++ paths_bytes ps) in *.
  set (c := b ++ names_data (docs ++ [([], [])])) in *.
  set (d := c ++ lists_bytes (group_up L ++ [last_group])) in *.
  set (e := d ++ concat (map put_uint32 (name_offsets 0 (docs ++ [([], [])])))) in *.
  set (f := e ++ index_bytes 0 (group_up L ++ [last_group])) in *.
  assert (Ec : nlen c = ly_c ps docs) by (unfold c; rewrite nlen_app; reflexivity).
  assert (Ed : nlen d = ly_d ps docs L) by (unfold d; rewrite nlen_app, Ec; reflexivity).
  assert (Ee : nlen e = ly_e ps docs L).
  { unfold e. rewrite nlen_app, Ed, concat_uint32_len. unfold ly_e. f_equal. f_equal.
    unfold nlen. rewrite name_offsets_length, app_length. cbn [length]. lia. }
  assert (Ef : nlen f = nlen e + 11 * (nlen (group_up L) + 1)).
  { unfold f. rewrite nlen_app, index_bytes_len. f_equal. f_equal. rewrite nlen_app. reflexivity. }
  assert (Hb : nlen b <= nlen c) by (unfold c; rewrite nlen_app; lia).
  assert (Hd : nlen c <= nlen d) by (unfold d; rewrite nlen_app; lia).
  assert (He : nlen e = nlen d + 4 * (nlen docs + 1)) by (rewrite Ee, Ed; reflexivity).
  rewrite !nlen_app in H.
  assert (L4 : forall x, nlen (put_uint32 x) = 4) by (intros; unfold nlen; rewrite put_uint32_length; reflexivity).
  rewrite !L4 in H. change (nlen trailer_magic) with 16 in H.
  rewrite (open_generic f (nlen magic) (nlen b) (nlen c) (nlen d) (nlen e)); try lia.
  - rewrite Ec, Ed, Ee. f_equal. f_equal.
    + rewrite <- Ee, He, Ed. replace (ly_d ps docs L + 4 * (nlen docs + 1) - ly_d ps docs L) with ((nlen docs + 1) * 4) by lia.
      rewrite N.div_mul by discriminate. lia.
    + rewrite Ef, Ee. replace (ly_e ps docs L + 11 * (nlen (group_up L) + 1) - ly_e ps docs L)
        with ((nlen (group_up L) + 1) * 11) by lia.
      rewrite N.div_mul by discriminate. lia.
  - change (nlen magic) with 16. lia.
Qed.

(** ** Names. *)
Lemma until_nul_app : forall s rest, nul_free s -> until_nul (s ++ 0 :: rest) = Some s.
Proof.
  induction s as [|c s IH]; intros rest H; [reflexivity|]. cbn [app until_nul].
  destruct (N.eqb_spec c 0) as [->|Hc]; [exfalso; apply H; left; reflexivity|].
  rewrite IH; [reflexivity|]. intros Hi. apply H. right. assumption.
Qed.

Lemma ix_str_at : forall d pre s post n, d = pre ++ s ++ 0 :: post -> nul_free s -> n = nlen pre ->
  ix_str d n = Some s.
Proof.
  intros; subst. unfold ix_str. rewrite slice_from_app. cbn [bind]. apply until_nul_app. assumption.
Qed.

Lemma name_offsets_app : forall d1 d2 start,
  name_offsets start (d1 ++ d2) = name_offsets start d1 ++ name_offsets (start + nlen (names_data d1)) d2.
Proof.
  induction d1 as [|x d1 IH]; intros d2 start; cbn [app name_offsets].
  - unfold names_data, nlen. cbn. rewrite N.add_0_r. reflexivity.
  - rewrite IH. do 3 f_equal. unfold names_data. cbn [map concat].
    rewrite !nlen_app. unfold nlen. cbn [length]. lia.
Qed.

Lemma nth_error_split' : forall {A} (l : list A) n x, nth_error l n = Some x ->
  exists l1 l2, l = l1 ++ x :: l2 /\ length l1 = n.
Proof. intros. apply nth_error_split. assumption. Qed.

Lemma names_data_app : forall d1 d2, names_data (d1 ++ d2) = names_data d1 ++ names_data d2.
Proof. intros. unfold names_data. rewrite map_app, concat_app. reflexivity. Qed.

Lemma name_layout : forall ps docs L i d, nlen (layout ps docs L) < 2^32 ->
  Forall (fun d => nul_free (fst d) /\ text_ok (snd d)) docs ->
  nth_error docs (N.to_nat i) = Some d ->
  ix_name (ly_index ps docs L) i = Some (fst d).
Proof.
  intros ps docs L i d H Hok Hi.
  pose proof Hi as Hi0. apply nth_error_split' in Hi. destruct Hi as (d1 & d2 & E & El).
  assert (Ei : i = nlen d1) by (unfold nlen; lia).
  assert (Hn : nul_free (fst d)).
  { rewrite Forall_forall in Hok. apply Hok. eapply nth_error_In. exact Hi0. }
  unfold ix_name, ly_index. cbn [ix_data ix_nameIndex ix_nameData].
  assert (EO : name_offsets 0 (docs ++ [([], [])]) =
    name_offsets 0 d1 ++ nlen (names_data d1) :: name_offsets (nlen (names_data d1) + nlen (fst d) + 1) (d2 ++ [([], [])])).
  { rewrite E, <- app_assoc. cbn [app]. rewrite name_offsets_app. cbn [name_offsets]. reflexivity. }
  assert (EN : names_data (docs ++ [([], [])]) =
    names_data d1 ++ fst d ++ 0 :: names_data (d2 ++ [([], [])])).
  { rewrite E, <- app_assoc. cbn [app]. rewrite names_data_app. f_equal. unfold names_data. cbn [map concat].
    rewrite <- app_assoc. reflexivity. }
  assert (HD : nlen (names_data d1) <= nlen (names_data docs)) by (rewrite E, names_data_app, nlen_app; lia).
  pose proof (layout_names ps docs L) as HLN.
  assert (Hx : ly_d ps docs L + 4 * nlen docs + 4 <= nlen (layout ps docs L) /\
               ly_b ps + nlen (names_data (docs ++ [([], [])])) <= nlen (layout ps docs L)).
  { unfold layout. cbv zeta. rewrite !nlen_app.
    rewrite concat_uint32_len.
    replace (nlen (name_offsets 0 (docs ++ [([], [])]))) with (nlen docs + 1)
      by (unfold nlen; rewrite name_offsets_length, app_length; cbn [length]; lia).
    unfold ly_d, ly_c, ly_b. rewrite !nlen_app. lia. }
  assert (Hid : nlen d1 < nlen docs) by (rewrite E, nlen_app; unfold nlen; cbn [length]; lia).
  rewrite (u32_small (ly_d ps docs L + 4 * i)) by lia.
  erewrite (rd_uint32_at (layout ps docs L)
    ((((magic ++ paths_bytes ps) ++ names_data (docs ++ [([], [])])) ++ lists_bytes (group_up L ++ [last_group]))
       ++ concat (map put_uint32 (name_offsets 0 d1))) (nlen (names_data d1))).
  2:{ unfold layout. cbv zeta. rewrite EO, map_app, concat_app. cbn [map concat]. rewrite <- !app_assoc. reflexivity. }
  2:{ lia. }
  2:{ rewrite !nlen_app, concat_uint32_len. unfold ly_d, ly_c, ly_b. rewrite !nlen_app.
      rewrite Ei, name_offsets_nlen. reflexivity. }
  cbn [bind].
  rewrite u32_small.
  2:{ rewrite EN, !nlen_app, nlen_cons in Hx. lia. }
  eapply (ix_str_at _ ((magic ++ paths_bytes ps) ++ names_data d1) (fst d)).
  - unfold layout. cbv zeta. rewrite EN. rewrite <- !app_assoc. cbn [app]. reflexivity.
  - assumption.
  - rewrite nlen_app. reflexivity.
Qed.

(** ** Paths. *)
Definition path_ok (p : str) : Prop := p <> [] /\ nul_free p.

Lemma paths_from_spec : forall ps fuel pre post, Forall path_ok ps -> (length ps < fuel)%nat ->
  nlen (pre ++ paths_bytes ps) < 2^32 ->
  paths_from fuel (pre ++ paths_bytes ps ++ post) (nlen pre) = Some ps.
Proof.
  induction ps as [|p ps IH]; intros fuel pre post Hp Hf Hn; (destruct fuel as [|fuel]; [cbn in Hf; lia|]);
    cbn [paths_from].
  - erewrite (ix_str_at _ pre []); [reflexivity| |intros []|reflexivity]. reflexivity.
  - inversion Hp as [|? ? [Hp1 Hp2] Hp']; subst.
    assert (EP : paths_bytes (p :: ps) = p ++ 0 :: paths_bytes ps).
    { unfold paths_bytes. cbn [map concat]. rewrite <- !app_assoc. reflexivity. }
    rewrite EP in *. erewrite (ix_str_at _ pre p); [|rewrite <- app_assoc; reflexivity|assumption|reflexivity].
    cbn [bind]. destruct p as [|c p]; [congruence|].
    specialize (IH fuel (pre ++ (c :: p) ++ [0]) post Hp').
    rewrite !nlen_app in *.
    assert (L1 : nlen [0] = 1) by reflexivity.
    assert (L2 : nlen (0 :: paths_bytes ps) = 1 + nlen (paths_bytes ps)) by (unfold nlen; cbn [length]; lia).
    rewrite u32_small by lia.
    replace (nlen pre + nlen (c :: p) + 1) with (nlen pre + (nlen (c :: p) + nlen [0])) by lia.
    replace (pre ++ ((c :: p) ++ 0 :: paths_bytes ps) ++ post)
      with ((pre ++ (c :: p) ++ [0]) ++ paths_bytes ps ++ post) by (rewrite <- !app_assoc; reflexivity).
    rewrite IH; [reflexivity|cbn in Hf; lia|lia].
Qed.

Lemma paths_bytes_length : forall ps, (length ps < length (paths_bytes ps))%nat.
Proof.
  intros. unfold paths_bytes. rewrite app_length. cbn. induction ps; cbn; [lia|].
  rewrite !app_length. cbn. lia.
Qed.

Lemma paths_layout : forall ps docs L, nlen (layout ps docs L) < 2^32 -> Forall path_ok ps ->
  ix_paths (ly_index ps docs L) = Some ps.
Proof.
  intros ps docs L H Hp. unfold ix_paths, ly_index. cbn [ix_data ix_pathData].
  assert (E : exists post, layout ps docs L = magic ++ paths_bytes ps ++ post).
  { unfold layout. cbv zeta. eexists. rewrite <- !app_assoc. reflexivity. }
  destruct E as (post & E). rewrite E in *.
  apply paths_from_spec; [assumption| |].
  - rewrite !app_length. pose proof (paths_bytes_length ps). lia.
  - rewrite !nlen_app in *. lia.
Qed.

(** ** Posting lists. *)
Lemma search_loop_spec : forall fuel f p n i j,
  (forall k, k < n -> f k = Some (p k)) -> (forall k1 k2, k1 <= k2 -> k2 < n -> p k1 = true -> p k2 = true) ->
  i <= j -> j <= n -> (N.to_nat (j - i) <= fuel)%nat ->
  (forall k, k < i -> p k = false) -> (forall k, j <= k -> k < n -> p k = true) ->
  exists r, search_loop fuel f i j = Some r /\ r <= n /\ (forall k, k < r -> p k = false) /\
            (forall k, r <= k -> k < n -> p k = true).
Proof.
  induction fuel as [|fuel IH]; intros f p n i j Hf Hm Hij Hj Hfu Hlo Hhi; cbn [search_loop].
  - replace (j <=? i) with true by (symmetry; apply N.leb_le; lia).
    exists i. replace i with j by lia. split; [reflexivity|]. split; [assumption|]. split; [|assumption].
    intros k Hk. apply Hlo. lia.
  - destruct (N.leb_spec j i).
    { exists i. assert (i = j) by lia. subst. auto. }
    assert (Hh : i <= (i + j) / 2 /\ (i + j) / 2 < j).
    { split; [apply N.div_le_lower_bound; lia|apply N.div_lt_upper_bound; lia]. }
    set (h := (i + j) / 2) in *. clearbody h. rewrite Hf by lia. cbn [bind].
    destruct (p h) eqn:Eh.
    + apply IH; auto; try lia. intros k H1 H2. apply (Hm h); [lia|assumption|assumption].
    + apply IH; auto; try lia. intros k Hk. destruct (p k) eqn:Ek; [|reflexivity].
      rewrite (Hm k h) in Eh; [discriminate|lia|lia|assumption].
Qed.

Lemma index_bytes_app : forall g1 g2 off,
  index_bytes off (g1 ++ g2) = index_bytes off g1 ++ index_bytes (off + nlen (lists_bytes g1)) g2.
Proof.
  induction g1 as [|g g1 IH]; intros g2 off; cbn [app index_bytes].
  - unfold lists_bytes. cbn. unfold nlen. cbn. rewrite N.add_0_r. reflexivity.
  - rewrite IH, <- !app_assoc. do 4 f_equal. unfold lists_bytes. cbn [map concat]. rewrite nlen_app. f_equal. lia.
Qed.

Lemma lists_bytes_app : forall g1 g2, lists_bytes (g1 ++ g2) = lists_bytes g1 ++ lists_bytes g2.
Proof. intros. unfold lists_bytes. rewrite map_app, concat_app. reflexivity. Qed.

Lemma entry_trigram_at : forall g1 g g2, fst g < 2^24 ->
  entry_trigram (index_bytes 0 (g1 ++ g :: g2)) (nlen g1) = Some (fst g).
Proof.
  intros. unfold entry_trigram, post_entry_size. rewrite index_bytes_app.
  replace (N.to_nat (nlen g1 * 11)) with (length (index_bytes 0 g1))
    by (pose proof (index_bytes_len g1 0) as E; unfold nlen in *; lia).
  rewrite skipn_app, skipn_all, Nat.sub_diag. cbn [app skipn index_bytes]. apply get_put_trigram. assumption.
Qed.

Lemma entry_fields_at : forall g1 g g2, fst g < 2^24 -> nlen (snd g) < 2^32 -> nlen (lists_bytes g1) < 2^32 ->
  let e := skipn (N.to_nat (nlen g1 * post_entry_size)) (index_bytes 0 (g1 ++ g :: g2)) in
  get_uint32 (skipn 3 e) = Some (nlen (snd g)) /\ get_uint32 (skipn 7 e) = Some (nlen (lists_bytes g1)).
Proof.
  intros g1 g g2 H1 H2 H3 e. unfold e, post_entry_size. rewrite index_bytes_app.
  replace (N.to_nat (nlen g1 * 11)) with (length (index_bytes 0 g1))
    by (pose proof (index_bytes_len g1 0) as E; unfold nlen in *; lia).
  rewrite skipn_app, skipn_all, Nat.sub_diag. cbn [app skipn index_bytes].
  unfold put_trigram at 1 2. cbn [app skipn]. split; [apply get_put_uint32; assumption|].
  unfold put_uint32 at 1. cbn [app skipn]. apply get_put_uint32. assumption.
Qed.

(** Trigram table of an index: strictly ascending, below 2^24. *)
Definition table_ok (gs : list group) : Prop :=
  StronglySorted (fun g1 g2 : group => fst g1 < fst g2) gs /\
  Forall (fun g => fst g < 2^24 /\ nlen (snd g) < 2^32) gs.

Lemma sorted_nth : forall {A} (R : A -> A -> Prop) l i j x y, StronglySorted R l -> (i < j)%nat ->
  nth_error l i = Some x -> nth_error l j = Some y -> R x y.
Proof.
  induction l as [|a l IH]; intros i j x y H Hij Hx Hy; [destruct i; discriminate|].
  inversion H as [|? ? H1 F]; subst. destruct j as [|j]; [lia|]. destruct i as [|i]; cbn in *.
  - injection Hx as <-. rewrite Forall_forall in F. apply F. eapply nth_error_In. exact Hy.
  - apply (IH i j x y H1 ltac:(lia) Hx Hy).
Qed.

Lemma entry_trigram_nth : forall gs k g, table_ok gs -> nth_error gs (N.to_nat k) = Some g ->
  entry_trigram (index_bytes 0 gs) k = Some (fst g).
Proof.
  intros gs k g [_ F] H. apply nth_error_split' in H as H'. destruct H' as (l1 & l2 & -> & El).
  replace k with (nlen l1) by (unfold nlen; lia). apply entry_trigram_at.
  rewrite Forall_forall in F. apply F. apply in_or_app. right. left. reflexivity.
Qed.

Lemma find_list_spec : forall ix gs pre post t,
  ix_data ix = pre ++ index_bytes 0 gs ++ post -> ix_postIndex ix = nlen pre ->
  ix_numPost ix = nlen gs -> table_ok gs -> nlen (lists_bytes gs) < 2^32 ->
  (exists g1 ids g2, gs = g1 ++ (t, ids) :: g2 /\ find_list ix t = Some (nlen ids, nlen (lists_bytes g1))) \/
  ((forall ids, ~ In (t, ids) gs) /\ find_list ix t = Some (0, 0)).
Proof.
  intros ix gs pre post t Hd Hp Hn Hok Hlt. pose proof Hok as [HS HF]. unfold find_list.
  rewrite Hd, Hp, Hn.
  replace (N.to_nat (post_entry_size * nlen gs)) with (length (index_bytes 0 gs))
    by (pose proof (index_bytes_len gs 0) as E; unfold nlen, post_entry_size in *; lia).
  rewrite slice_n_app. cbn [bind].
  pose (tr := fun k => match nth_error gs (N.to_nat k) with Some g => fst g | None => 0 end).
  assert (Htr : forall k, k < nlen gs -> exists g, nth_error gs (N.to_nat k) = Some g /\
                entry_trigram (index_bytes 0 gs) k = Some (fst g) /\ tr k = fst g).
  { intros k Hk. destruct (nth_error gs (N.to_nat k)) as [g|] eqn:E.
    - exists g. split; [reflexivity|]. split; [apply entry_trigram_nth; assumption|]. unfold tr. rewrite E. reflexivity.
    - apply nth_error_None in E. unfold nlen in Hk. lia. }
  destruct (search_loop_spec (Datatypes.S (N.to_nat (nlen gs)))
     (fun i => t' <- entry_trigram (index_bytes 0 gs) i ;; Some (t <=? t'))
     (fun k => t <=? tr k) (nlen gs) 0 (nlen gs)) as (r & Er & Hr & Hlo & Hhi); try lia.
  { intros k Hk. destruct (Htr k Hk) as (g & _ & E & Et). rewrite E, Et. reflexivity. }
  { intros k1 k2 H12 H2 H1. destruct (N.eq_dec k1 k2) as [->|Hne]; [assumption|].
    destruct (Htr k1 ltac:(lia)) as (g1 & N1 & _ & T1). destruct (Htr k2 H2) as (g2 & N2 & _ & T2).
    rewrite T1 in H1. rewrite T2. apply N.leb_le in H1. apply N.leb_le.
    pose proof (sorted_nth _ gs (N.to_nat k1) (N.to_nat k2) g1 g2 HS ltac:(lia) N1 N2) as HR. cbn in HR. lia. }
  unfold sort_search. rewrite Er. cbn [bind].
  destruct (N.leb_spec (nlen gs) r) as [Hge|Hltr].
  - right. split; [|reflexivity]. intros ids Hin. apply In_nth_error in Hin. destruct Hin as (k & Hk).
    assert (Hkl : (k < length gs)%nat) by (apply nth_error_Some; congruence).
    specialize (Hlo (N.of_nat k) ltac:(unfold nlen in *; lia)). apply N.leb_gt in Hlo.
    unfold tr in Hlo. rewrite Nnat.Nat2N.id, Hk in Hlo. cbn in Hlo. lia.
  - destruct (Htr r Hltr) as ([t' ids] & Nr & E & Et). rewrite E. cbn [bind fst] in *.
    destruct (N.eqb_spec t' t) as [->|Hne]; cbn [negb].
    + left. apply nth_error_split' in Nr. destruct Nr as (g1 & g2 & -> & El).
      assert (Er1 : r = nlen g1) by (unfold nlen; lia). rewrite Er1.
      rewrite Forall_forall in HF. destruct (HF (t, ids)) as [F1 F2]; [apply in_or_app; right; left; reflexivity|].
      rewrite lists_bytes_app, nlen_app in Hlt.
      destruct (entry_fields_at g1 (t, ids) g2 F1 F2 ltac:(lia)) as [G1 G2].
      exists g1, ids, g2. split; [reflexivity|]. rewrite G1, G2. reflexivity.
    + right. split; [|reflexivity]. intros ids' Hin. apply In_nth_error in Hin. destruct Hin as (k & Hk).
      assert (Hkl : (k < length gs)%nat) by (apply nth_error_Some; congruence).
      assert (Htk : tr (N.of_nat k) = t) by (unfold tr; rewrite Nnat.Nat2N.id, Hk; reflexivity).
      destruct (N.lt_ge_cases (N.of_nat k) r) as [Hkr|Hkr].
      * specialize (Hlo _ Hkr). apply N.leb_gt in Hlo. lia.
      * specialize (Hhi r (N.le_refl _) Hltr). apply N.leb_le in Hhi. rewrite Et in Hhi.
        destruct (N.eq_dec (N.of_nat k) r) as [Ekr|Hne2].
        -- rewrite Ekr in Htk. congruence.
        -- pose proof (sorted_nth _ gs (N.to_nat r) k (t', ids) (t, ids') HS ltac:(lia) Nr Hk) as HR.
           cbn in HR. lia.
Qed.

(** Decoding one list. *)
Definition rmem (restrict : option (list N)) (i : N) : bool :=
  match restrict with None => true | Some r => existsb (N.eqb i) r end.
Definition rsorted (restrict : option (list N)) : Prop :=
  match restrict with None => True | Some r => StronglySorted N.lt r end.

Lemma drop_below_spec : forall r x, StronglySorted N.lt r ->
  StronglySorted N.lt (drop_below r x) /\ (forall y, In y (drop_below r x) -> x <= y) /\
  (forall y, x <= y -> (In y (drop_below r x) <-> In y r)).
Proof.
  induction r as [|a r IH]; intros x H; cbn [drop_below].
  - split; [constructor|]. split; [intros y []|reflexivity].
  - inversion H as [|? ? H1 F]; subst. destruct (N.ltb_spec a x) as [Hax|Hax].
    + destruct (IH x H1) as (A & B & C). split; [assumption|]. split; [assumption|].
      intros y Hy. rewrite (C y Hy). cbn. split; [auto|]. intros [->|]; [lia|assumption].
    + split; [assumption|]. rewrite Forall_forall in F. split; [|reflexivity].
      intros y [->|Hy]; [assumption|]. specialize (F y Hy). lia.
Qed.

Lemma rmem_in : forall r i, existsb (N.eqb i) r = true <-> In i r.
Proof.
  intros. rewrite existsb_exists. split.
  - intros (x & Hx & E). apply N.eqb_eq in E. subst. assumption.
  - intros H. exists i. split; [assumption|apply N.eqb_refl].
Qed.

Lemma rmem_drop : forall r x i, StronglySorted N.lt r -> x <= i ->
  existsb (N.eqb i) (drop_below r x) = existsb (N.eqb i) r.
Proof.
  intros r x i H Hi. destruct (drop_below_spec r x H) as (_ & _ & C). specialize (C i Hi).
  rewrite <- !rmem_in in C. destruct (existsb (N.eqb i) (drop_below r x)), (existsb (N.eqb i) r); intuition congruence.
Qed.

Lemma filter_ext_in' : forall {A} (f g : A -> bool) l, (forall x, In x l -> f x = g x) -> filter f l = filter g l.
Proof. intros. apply filter_ext_in. assumption. Qed.

(** ids strictly ascending; the first differs from the running value. *)
Definition chain (f : N) (ids : list N) : Prop :=
  StronglySorted N.lt ids /\ Forall (fun i => i < 2^32) ids /\ f < 2^32 /\
  match ids with i :: _ => i <> f | [] => True end.

Lemma chain_tail : forall f i ids, chain f (i :: ids) -> chain i ids.
Proof.
  intros f i ids (S & F & Hf & _). inversion S as [|? ? S' F']; inversion F; subst. split; [assumption|].
  split; [assumption|]. split; [assumption|]. destruct ids; [exact I|]. inversion F'; subst. lia.
Qed.

Lemma delta_step : forall f i, f < 2^32 -> i < 2^32 -> i <> f ->
  u32 (i + 2^32 - f) <> 0 /\ u32 (i + 2^32 - f) < 2^32 /\ u32 (f + u32 (i + 2^32 - f)) = i.
Proof.
  intros f i Hf Hi Hne. split; [|split; [apply u32_lt|]].
  - destruct (N.lt_ge_cases i f).
    + rewrite u32_small by lia. lia.
    + rewrite u32_sub by lia. lia.
  - destruct (N.lt_ge_cases i f).
    + rewrite (u32_small (i + 2^32 - f)) by lia.
      replace (f + (i + 2^32 - f)) with (i + 1 * 2^32) by lia. unfold u32. rewrite N.mod_add by discriminate.
      apply N.mod_small. assumption.
    + rewrite u32_sub by lia. rewrite u32_small by lia. lia.
Qed.

Lemma skipn_len_app : forall {A} (a b : list A), skipn (length a) (a ++ b) = b.
Proof. intros. rewrite skipn_app, skipn_all, Nat.sub_diag. reflexivity. Qed.

Lemma pr_next_loop_spec : forall ids f restrict rest, chain f ids -> rsorted restrict ->
  (filter (rmem restrict) ids = [] /\
   exists pr, pr_next_loop (length ids) f (Some (deltas f ids ++ 0 :: rest)) restrict = Some (false, pr)) \/
  (exists i ids2 restrict', filter (rmem restrict) ids = i :: filter (rmem restrict') ids2 /\
     rsorted restrict' /\ chain i ids2 /\ (length ids2 < length ids)%nat /\
     pr_next_loop (length ids) f (Some (deltas f ids ++ 0 :: rest)) restrict =
       Some (true, mkPR (nlen ids2) i (Some (deltas i ids2 ++ 0 :: rest)) restrict')).
Proof.
  induction ids as [|i ids IH]; intros f restrict rest Hc Hr.
  - left. split; [reflexivity|]. cbn. eexists. reflexivity.
  - pose proof Hc as (HS & HF & Hf & Hne). inversion HF as [|? ? Hi HF']; subst.
    inversion HS as [|? ? HS' HG]; subst. rewrite Forall_forall in HG.
    destruct (delta_step f i Hf Hi Hne) as (D1 & D2 & D3). pose proof (chain_tail _ _ _ Hc) as Hc'.
    cbn [length pr_next_loop deltas]. rewrite <- app_assoc, get_put_uvarint by assumption.
    rewrite (u32_small _ D2). replace (u32 (i + 2^32 - f) =? 0) with false by (symmetry; apply N.eqb_neq; assumption).
    rewrite D3, skipn_len_app.
    destruct restrict as [r|].
    + cbn [rsorted] in Hr. destruct (drop_below_spec r i Hr) as (A & B & C).
      assert (Hflt : forall ids2, (forall x, In x ids2 -> i <= x) ->
         filter (rmem (Some (drop_below r i))) ids2 = filter (rmem (Some r)) ids2).
      { intros ids2 Hx. apply filter_ext_in. intros x H. cbn. apply rmem_drop; auto. }
      assert (Hge : forall x, In x ids -> i <= x) by (intros x Hx; specialize (HG x Hx); lia).
      assert (Hin : existsb (N.eqb i) r = match drop_below r i with y :: _ => y =? i | [] => false end).
      { rewrite <- (rmem_drop r i i Hr (N.le_refl _)). destruct (drop_below r i) as [|y r']; [reflexivity|].
        cbn. rewrite N.eqb_sym. destruct (N.eqb_spec y i); [reflexivity|]. cbn.
        apply not_true_iff_false. intros Hx. apply rmem_in in Hx. inversion A as [|? ? _ FA]; subst.
        rewrite Forall_forall in FA. specialize (FA _ Hx). specialize (B y (or_introl eq_refl)). lia. }
      cbn [filter rmem]. rewrite Hin.
      destruct (drop_below r i) as [|y r'] eqn:Ed.
      * destruct (IH i (Some []) rest Hc' ltac:(constructor)) as [(E & pr & E2)|(j & ids2 & r2 & E & E1 & E2 & E3 & E4)].
        -- left. rewrite Hflt in E by assumption. cbn [rmem] in E. split; [assumption|]. eexists. exact E2.
        -- exfalso. assert (E0 : filter (rmem (Some [])) ids = []).
           { clear. induction ids; [reflexivity|assumption]. }
           rewrite E0 in E. discriminate.
      * destruct (N.eqb_spec y i) as [->|Hyi].
        -- right. exists i, ids, (Some (i :: r')). split.
           { f_equal. symmetry. apply (Hflt ids). assumption. }
           split; [assumption|]. split; [assumption|]. split; [lia|]. reflexivity.
        -- destruct (IH i (Some (y :: r')) rest Hc' A) as [(E & pr & E2)|(j & ids2 & r2 & E & E1 & E2 & E3 & E4)].
           ++ left. rewrite Hflt in E by assumption. split; [exact E|]. eexists. exact E2.
           ++ right. exists j, ids2, r2. rewrite Hflt in E by assumption.
              split; [exact E|]. split; [assumption|]. split; [assumption|]. split; [lia|]. exact E4.
    + right. exists i, ids, None. split; [reflexivity|]. split; [exact I|]. split; [assumption|].
      split; [lia|]. reflexivity.
Qed.

Lemma pr_all_spec : forall n ids f restrict rest fuel, (length ids <= n)%nat -> chain f ids -> rsorted restrict ->
  (length ids < fuel)%nat ->
  pr_all fuel (mkPR (nlen ids) f (Some (deltas f ids ++ 0 :: rest)) restrict) = Some (filter (rmem restrict) ids).
Proof.
  induction n as [|n IH]; intros ids f restrict rest fuel Hn Hc Hr Hf; (destruct fuel as [|fuel]; [lia|]);
    cbn [pr_all]; unfold pr_next; cbn [pr_count pr_fileid pr_d pr_restrict];
    unfold nlen at 1; rewrite Nnat.Nat2N.id;
    destruct (pr_next_loop_spec ids f restrict rest Hc Hr)
      as [(E & pr & E2)|(i & ids2 & r2 & E & E1 & E2 & E3 & E4)].
  - rewrite E2. cbn. rewrite E. reflexivity.
  - lia.
  - rewrite E2. cbn. rewrite E. reflexivity.
  - rewrite E4. cbn [bind fst snd]. rewrite IH; auto; try lia. cbn [bind pr_fileid]. rewrite E. reflexivity.
Qed.

Lemma pr_ids_spec : forall ps docs L t restrict, nlen (layout ps docs L) < 2^32 ->
  sorted_entries docs L -> Forall (fun d => nul_free (fst d) /\ text_ok (snd d)) docs -> rsorted restrict ->
  exists ids, StronglySorted N.lt ids /\
    (forall i, In i ids <-> exists d, nth_error docs (N.to_nat i) = Some d /\ has_trigram (snd d) t) /\
    pr_ids (ly_index ps docs L) t restrict = Some (filter (rmem restrict) ids).
Proof.
  intros ps docs L t restrict H HL Hd Hr.
  pose proof (layout_names ps docs L) as HLN. pose proof (names_data_length docs) as Hnl.
  destruct (groups_bounds docs L HL ltac:(lia) Hd) as [[HG1 HG2] HB].
  set (gs := group_up L ++ [last_group]).
  assert (Htab : table_ok gs).
  { split.
    - apply StronglySorted_app; [assumption|repeat constructor|].
      intros x y Hx [<-|[]]. rewrite Forall_forall in HB. destruct (HB x Hx) as (B & _). exact B.
    - apply Forall_app. split; [|repeat constructor; reflexivity].
      eapply Forall_impl; [|exact HB]. intros g (B1 & B2 & _). split; [|assumption].
      change max_trigram with (2^24-1) in B1. lia. }
  set (pre0 := ((magic ++ paths_bytes ps) ++ names_data (docs ++ [([], [])]))).
  set (pre1 := (pre0 ++ lists_bytes gs) ++ concat (map put_uint32 (name_offsets 0 (docs ++ [([], [])])))).
  assert (EL : exists post, layout ps docs L = pre1 ++ index_bytes 0 gs ++ post).
  { unfold layout, pre1, pre0, gs. cbv zeta. eexists. rewrite <- !app_assoc. reflexivity. }
  destruct EL as (post & EL).
  assert (EL0 : layout ps docs L = pre0 ++ lists_bytes gs ++
     concat (map put_uint32 (name_offsets 0 (docs ++ [([], [])]))) ++ index_bytes 0 gs ++ post).
  { rewrite EL. unfold pre1. rewrite <- !app_assoc. reflexivity. }
  assert (Hpost : ix_postIndex (ly_index ps docs L) = nlen pre1).
  { unfold ly_index, pre1, pre0. cbn [ix_postIndex]. rewrite !nlen_app, concat_uint32_len.
    unfold ly_e, ly_d, ly_c, ly_b, gs. rewrite !nlen_app. f_equal. f_equal.
    unfold nlen. rewrite name_offsets_length, app_length. cbn [length]. lia. }
  assert (Hgs : nlen (lists_bytes gs) < 2^32 /\ nlen pre0 + nlen (lists_bytes gs) < 2^32).
  { rewrite EL0 in H. rewrite !nlen_app in H. rewrite ?nlen_app. lia. }
  destruct (find_list_spec (ly_index ps docs L) gs pre1 post t EL Hpost) as
    [(g1 & ids & g2 & Egs & Ef)|(Hno & Ef)]; auto.
  { unfold ly_index, gs. cbn [ix_numPost]. rewrite nlen_app. reflexivity. }
  { tauto. }
  - assert (Hids : StronglySorted N.lt ids /\ (forall i, In i ids -> i < nlen docs) /\
              forall i, In i ids <-> exists d, nth_error docs (N.to_nat i) = Some d /\ has_trigram (snd d) t).
    { assert (Hin : In (t, ids) gs) by (rewrite Egs; apply in_or_app; right; left; reflexivity).
      unfold gs in Hin. apply in_app_or in Hin. destruct Hin as [Hin|[Hin|[]]].
      - rewrite Forall_forall in HG1, HB. destruct (HG1 _ Hin) as (_ & G2 & G3). destruct (HB _ Hin) as (B1 & _ & B3).
        cbn [fst snd] in *. split; [assumption|]. split; [assumption|]. intros i.
        assert (HiL : i < 2^32 -> (In i ids <-> In (pe t i) L)).
        { intros Hi32. split.
          - intros Hi. rewrite <- (flat_group_up L). unfold flat. apply in_concat. exists (map (pe t) ids).
            split; [apply (in_map (fun g => map (pe (fst g)) (snd g)) _ _ Hin)|apply in_map; assumption].
          - intros Hi. rewrite <- (flat_group_up L) in Hi. unfold flat in Hi. apply in_concat in Hi.
            destruct Hi as (x & Hx & Hi). apply in_map_iff in Hx. destruct Hx as ([t2 ids2] & <- & Hg).
            cbn [fst snd] in Hi. apply in_map_iff in Hi. destruct Hi as (i2 & E & Hi2).
            destruct (HG1 _ Hg) as (_ & G22 & _). specialize (G22 _ Hi2). cbn [fst snd] in *.
            unfold pe in E. assert (t2 = t /\ i2 = i) by nia. destruct H0 as [-> ->].
            assert (ids2 = ids); [|subst; assumption].
            apply In_nth_error in Hin. apply In_nth_error in Hg. destruct Hin as (k1 & K1), Hg as (k2 & K2).
            destruct (Nat.lt_trichotomy k1 k2) as [Hk|[->|Hk]]; [|congruence|].
            + pose proof (sorted_nth _ _ k1 k2 _ _ HG2 Hk K1 K2) as X. cbn in X. lia.
            + pose proof (sorted_nth _ _ k2 k1 _ _ HG2 Hk K2 K1) as X. cbn in X. lia. }
        destruct HL as [_ HL]. split.
        + intros Hi. assert (Hi32 : i < 2^32) by (apply G2; assumption).
          apply (HiL Hi32), HL in Hi. destruct Hi as (i' & d & t' & N1 & N2 & N3).
          assert (i' < nlen docs). { assert (N.to_nat i' < length docs)%nat by (apply nth_error_Some; congruence). unfold nlen; lia. }
          unfold pe in N3. assert (t' = t /\ i' = i) by nia. destruct H1 as [-> ->]. exists d. auto.
        + intros (d & N1 & N2).
          assert (i < nlen docs). { assert (N.to_nat i < length docs)%nat by (apply nth_error_Some; congruence). unfold nlen; lia. }
          apply HiL; [lia|]. apply HL. exists i, d, t. auto.
      - injection Hin as <- <-. split; [constructor|]. split; [intros i []|]. intros i. split; [intros []|].
        intros (d & N1 & N2). exfalso.
        assert (Hdt : text_ok (snd d)) by (rewrite Forall_forall in Hd; apply Hd; eapply nth_error_In; exact N1).
        pose proof (trigram_bound _ _ Hdt N2). lia. }
    destruct Hids as (S1 & S2 & S3). exists ids. split; [assumption|]. split; [assumption|].
    unfold pr_ids, pr_init. rewrite Ef. cbn [bind fst snd].
    destruct (N.eqb_spec (nlen ids) 0) as [E0|E0].
    { assert (ids = []) by (destruct ids; [reflexivity|unfold nlen in E0; cbn in E0; lia]). subst ids.
      cbn. reflexivity. }
    rewrite Egs, lists_bytes_app, nlen_app in Hgs.
    unfold ly_index at 1 2. cbn [ix_data ix_postData].
    assert (El : lists_bytes ((t, ids) :: g2) = put_trigram t ++ deltas (2^32 - 1) ids ++ 0 :: lists_bytes g2).
    { unfold lists_bytes. cbn [map concat]. unfold list_bytes at 1. cbn [fst snd]. rewrite <- !app_assoc. reflexivity. }
    assert (Hlb : nlen (put_trigram t) = 3) by (unfold nlen; rewrite put_trigram_length; reflexivity).
    rewrite El, !nlen_app, nlen_cons in Hgs.
    assert (Ecc : ly_c ps docs = nlen pre0) by (unfold ly_c, pre0, ly_b; rewrite !nlen_app; lia).
    rewrite Ecc, u32_small by lia.
    rewrite EL0, Egs, lists_bytes_app, El.
    replace (nlen pre0 + nlen (lists_bytes g1) + 3) with (nlen ((pre0 ++ lists_bytes g1) ++ put_trigram t))
      by (rewrite !nlen_app; lia).
    set (tailb := concat (map put_uint32 (name_offsets 0 (docs ++ [([], [])]))) ++ index_bytes 0 (g1 ++ (t, ids) :: g2) ++ post).
    replace (pre0 ++ (lists_bytes g1 ++ put_trigram t ++ deltas (2 ^ 32 - 1) ids ++ 0 :: lists_bytes g2) ++ tailb)
      with (((pre0 ++ lists_bytes g1) ++ put_trigram t) ++ deltas (2^32-1) ids ++ 0 :: (lists_bytes g2 ++ tailb))
      by (rewrite <- !app_assoc; reflexivity).
    rewrite slice_from_app. cbn [bind pr_count].
    eapply pr_all_spec with (n := length ids); auto; [|unfold nlen; lia].
    split; [assumption|]. split; [apply Forall_forall; intros i Hi; specialize (S2 i Hi); lia|].
    split; [lia|]. destruct ids as [|i ids]; [exact I|]. specialize (S2 i (or_introl eq_refl)). lia.
  - exists []. split; [constructor|]. split.
    + intros i. split; [intros []|]. intros (d & N1 & N2). exfalso.
      assert (i < nlen docs). { assert (N.to_nat i < length docs)%nat by (apply nth_error_Some; congruence). unfold nlen; lia. }
      assert (Hp : In (pe t i) L). { apply HL. exists i, d, t. auto. }
      rewrite <- (flat_group_up L) in Hp. unfold flat in Hp. apply in_concat in Hp.
      destruct Hp as (x & Hx & Hi). apply in_map_iff in Hx. destruct Hx as ([t2 ids2] & <- & Hg).
      cbn [fst snd] in Hi. apply in_map_iff in Hi. destruct Hi as (i2 & E & Hi2).
      rewrite Forall_forall in HG1. destruct (HG1 _ Hg) as (_ & G22 & _). specialize (G22 _ Hi2). cbn [fst snd] in *.
      unfold pe in E. assert (t2 = t) by nia. subst t2. apply (Hno ids2). unfold gs. apply in_or_app. left. assumption.
    + unfold pr_ids, pr_init. rewrite Ef. cbn. reflexivity.
Qed.
