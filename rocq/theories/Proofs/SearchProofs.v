(** index.go: Search. *)
From Verif Require Import Model.Base Model.Query Model.Reader Model.Matcher Model.Grep Model.Search
  Spec.MatchSpec Spec.GrepSpec Spec.SearchSpec Proofs.SplitProofs Proofs.GrepProofs Proofs.GrepTop Proofs.MatchTop
  Proofs.FillProofs.
Local Open Scope Z_scope.

(** ** The callback *)
Definition blocked (o : sopts) (found collected : Z) : bool :=
  (found <? o_offset o) || ((0 <? o_limit o) && (o_limit o <=? collected)).
Definition maxed (o : sopts) (mc : Z) : bool := (0 <? o_max o) && (o_max o <=? mc).
Definition take_max (o : sopts) (mc : Z) (hs : list hit) : list hit :=
  if 0 <? o_max o then firstn (Z.to_nat (o_max o - mc)) hs else hs.

Lemma feed_cb : forall o found collected hs has ms mc, maxed o mc = false -> blocked o found collected = false ->
  feed (search_cb o found collected) (has, ms, mc) hs =
    (match hs with [] => has | _ => true end, ms ++ take_max o mc hs, mc + Z.of_nat (length (take_max o mc hs))).
Proof.
  intros o found collected. induction hs as [|h hs IH]; intros has ms mc M B.
  - cbn [feed]. unfold take_max. rewrite firstn_nil. destruct (0 <? o_max o); cbn [length Z.of_nat];
      rewrite app_nil_r, Z.add_0_r; reflexivity.
  - cbn [feed]. unfold search_cb at 1. fold (blocked o found collected). rewrite B.
    fold (maxed o (mc + 1)). destruct (maxed o (mc + 1)) eqn:M1; cbn [negb].
    + unfold maxed in M, M1. unfold take_max. destruct (0 <? o_max o) eqn:E0; [|discriminate].
      cbn [andb] in M, M1. apply Z.leb_gt in M. apply Z.leb_le in M1.
      replace (Z.to_nat (o_max o - mc)) with 1%nat by lia. cbn [firstn length Z.of_nat]. f_equal.
    + rewrite IH by assumption. f_equal; [f_equal|].
      * destruct hs; reflexivity.
      * rewrite <- app_assoc. f_equal. unfold take_max. destruct (0 <? o_max o) eqn:E0; [|reflexivity].
        unfold maxed in M1. rewrite E0 in M1. cbn [andb] in M1. apply Z.leb_gt in M1.
        replace (Z.to_nat (o_max o - mc)) with (S (Z.to_nat (o_max o - (mc + 1)))) by lia. reflexivity.
      * unfold take_max. destruct (0 <? o_max o) eqn:E0; [|cbn [length]; lia].
        unfold maxed in M1. rewrite E0 in M1. cbn [andb] in M1. apply Z.leb_gt in M1.
        replace (Z.to_nat (o_max o - mc)) with (S (Z.to_nat (o_max o - (mc + 1)))) by lia.
        cbn [firstn length]. lia.
Qed.

Lemma feed_cb_blocked : forall o found collected hs has ms mc, blocked o found collected = true ->
  feed (search_cb o found collected) (has, ms, mc) hs = (match hs with [] => has | _ => true end, ms, mc).
Proof.
  intros o found collected hs has ms mc B. destruct hs as [|h hs]; [reflexivity|].
  cbn [feed]. unfold search_cb. fold (blocked o found collected). rewrite B. reflexivity.
Qed.

(** ** Filters *)
(** An optional compiled filter for the optional program [pf]. *)
Definition filter_ok (fuel : nat) (pf : option prog) (m : option matcher) : Prop :=
  match pf, m with
  | None, None => True
  | Some p, Some m => wf_prog p /\ depth_ok fuel p /\ used fuel p m
  | _, _ => False
  end.
Definition included (fuel : nat) (pf : option prog) (name : str) : bool :=
  match pf with
  | None => true
  | Some p => match ans_of fuel p name with Some _ => true | None => false end
  end.
Definition excluded (fuel : nat) (pf : option prog) (name : str) : bool :=
  match pf with
  | None => false
  | Some p => match ans_of fuel p name with Some (S _) => true | _ => false end
  end.

Lemma name_match_ok : forall fuel pf m name, filter_ok fuel pf m ->
  exists m' r, name_match fuel m name = Some (m', r) /\ filter_ok fuel pf m' /\
    match r with Some e => e <? 0 | None => false end = negb (included fuel pf name) /\
    match r with Some e => 0 <? e | None => false end = excluded fuel pf name.
Proof.
  intros fuel pf m name F. destruct pf as [p|], m as [m|]; try contradiction.
  - destruct F as (WF & D & U). destruct (re_match_ok fuel p WF D m name U) as (m' & E & U').
    unfold name_match. unfold re_match in E. rewrite E. cbn [bind].
    eexists. eexists. split; [reflexivity|]. split; [cbn; auto|]. cbn [included excluded].
    destruct (ans_of fuel p name) as [[|e]|]; cbn; auto.
  - exists None, None. cbn. auto.
Qed.

(** ** The loop *)
(** File [id] of the index is document [d]: its name, and its raw copy is complete. *)
Definition doc_at (ix : index) (raw : str -> option reader) (id : N) (d : str * bytes) : Prop :=
  ix_name ix id = Some (fst d) /\
  exists r, raw (fst d) = Some r /\ rd_ok r = true /\ rd_content r = snd d.

Definition selected (fuel : nat) (fp xp : option prog) (name : str) : bool :=
  included fuel fp name && negb (excluded fuel xp name).

Section Loop.
Variables (fuel : nat) (o : sopts) (p : prog) (fp xp : option prog) (auto : list str).
Hypothesis WF : wf_prog p.
Hypothesis D : depth_ok fuel p.

Definition entry (d : str * bytes) : file_match :=
  mkFM (fst d) (hits_of fuel (o_nctx o) p (snd d)) (contains_string auto (fst d)).

(** The effect of one selected document on the counters. *)
Record pst := mkP { p_res : list file_match; p_opened : Z; p_found : Z; p_coll : Z; p_mc : Z }.
Definition pstep (s : pst) (f : file_match) : pst :=
  if maxed o (p_mc s) then s
  else
    let opened := p_opened s + 1 in
    if has_hits f then
      if blocked o (p_found s) (p_coll s) then
        mkP (p_res s) opened (p_found s + 1) (p_coll s) (p_mc s)
      else
        let t := take_max o (p_mc s) (fm_hits f) in
        mkP (p_res s ++ [mkFM (fm_name f) t (fm_auto f)]) opened (p_found s + 1) (p_coll s + 1)
            (p_mc s + Z.of_nat (length t))
    else mkP (p_res s) opened (p_found s) (p_coll s) (p_mc s).

Definition st_ok (s : sstate) : Prop :=
  used fuel p (s_re s) /\ filter_ok fuel fp (s_fre s) /\ filter_ok fuel xp (s_xre s) /\ gbuf_ok (s_buf s).
Definition proj (s : sstate) : pst := mkP (s_results s) (s_opened s) (s_found s) (s_collected s) (s_mcollected s).

Lemma search_file_ok : forall ix raw s id d, st_ok s -> doc_at ix raw id d ->
  exists s', search_file fuel o raw auto ix s id = Some (inr s') /\ st_ok s' /\
    proj s' = if selected fuel fp xp (fst d) then pstep (proj s) (entry d) else proj s.
Proof.
  intros ix raw s id d (U & FI & FX & GB) (EN & r & ER & OK & CT). unfold search_file, selected.
  rewrite EN. cbn [bind].
  destruct (name_match_ok fuel fp (s_fre s) (fst d) FI) as (f' & fr & E1 & FI' & X1 & _). rewrite E1. cbn [bind].
  rewrite X1. destruct (included fuel fp (fst d)); cbn [negb andb].
  2:{ eexists. split; [reflexivity|]. split; [split; [|split; [|split]]; assumption|reflexivity]. }
  cbn [s_xre s_re s_fre s_buf s_results s_opened s_found s_collected s_mcollected].
  destruct (name_match_ok fuel xp (s_xre s) (fst d) FX) as (x' & xr & E2 & FX' & _ & X2). rewrite E2. cbn [bind].
  rewrite X2. destruct (excluded fuel xp (fst d)); cbn [negb andb].
  { eexists. split; [reflexivity|]. split; [split; [|split; [|split]]; assumption|reflexivity]. }
  unfold pstep. cbn [p_mc p_res p_opened p_found p_coll proj].
  fold (maxed o (s_mcollected s)). destruct (maxed o (s_mcollected s)) eqn:M.
  { eexists. split; [reflexivity|]. split; [split; [|split; [|split]]; assumption|reflexivity]. }
  rewrite ER.
  assert (RL : rd_len r = length (rd_content r)).
  { clear. induction r as [| |b w r IH]; cbn; [reflexivity|reflexivity|]. rewrite app_length, IH. reflexivity. }
  destruct (fill_from_spec (S (rd_len r)) r (s_buf s) GB) as (b & GB' & EF); [lia|].
  rewrite EF, OK. cbn [bind]. rewrite CT.
  destruct (grep_text_scan fuel p (o_nctx o) (snd d) WF D) as (_ & GO).
  destruct (GO _ (search_cb o (s_found s) (s_collected s)) (s_re s) (false, [], s_mcollected s) U) as (m' & EG & U').
  unfold re_match in EG. rewrite EG. cbn [bind]. clear GO EG.
  set (hs := hits_of fuel (o_nctx o) p (snd d)).
  assert (HH : has_hits (entry d) = match hs with [] => false | _ => true end) by reflexivity.
  rewrite HH. destruct (blocked o (s_found s) (s_collected s)) eqn:B.
  - rewrite feed_cb_blocked by assumption. destruct hs as [|h hs'] eqn:Eh; cbn [negb].
    + eexists. split; [reflexivity|]. split; [split; [|split; [|split]]; assumption|reflexivity].
    + eexists. split; [reflexivity|]. split; [split; [|split; [|split]]; assumption|reflexivity].
  - rewrite feed_cb by assumption. destruct hs as [|h hs'] eqn:Eh; cbn [negb].
    + eexists. split; [reflexivity|]. split; [split; [|split; [|split]]; assumption|].
      unfold proj, take_max. rewrite firstn_nil. cbn. destruct (0 <? o_max o); cbn; rewrite Z.add_0_r; reflexivity.
    + cbn [app]. destruct (take_max o (s_mcollected s) (h :: hs')) as [|h0 t] eqn:Et.
      { exfalso. unfold take_max in Et. unfold maxed in M. destruct (0 <? o_max o) eqn:E0; [|discriminate].
        cbn [andb] in M. apply Z.leb_gt in M. destruct (Z.to_nat (o_max o - s_mcollected s)) eqn:E3; [lia|discriminate]. }
      eexists. split; [reflexivity|]. split; [split; [|split; [|split]]; assumption|].
      unfold proj. cbn [s_results s_opened s_found s_collected s_mcollected entry fm_name fm_auto fm_hits].
      fold hs. rewrite Eh, Et. reflexivity.
Qed.

Definition sel_docs (docs : list (str * bytes)) : list (str * bytes) :=
  filter (fun d => selected fuel fp xp (fst d)) docs.

Lemma search_files_ok : forall ix raw ids docs s, st_ok s -> Forall2 (doc_at ix raw) ids docs ->
  exists s', search_files fuel o raw auto ix s ids = Some (inr s') /\ st_ok s' /\
    proj s' = fold_left pstep (map entry (sel_docs docs)) (proj s).
Proof.
  intros ix raw ids docs s OK F. revert s OK.
  induction F as [|id d ids docs DA F IH]; intros s OK.
  - exists s. cbn. auto.
  - cbn [search_files]. destruct (search_file_ok ix raw s id d OK DA) as (s1 & E & OK1 & P1). rewrite E. cbn [bind].
    destruct (IH s1 OK1) as (s2 & E2 & OK2 & P2). exists s2. split; [assumption|]. split; [assumption|].
    rewrite P2, P1. cbn [sel_docs filter]. destruct (selected fuel fp xp (fst d)); reflexivity.
Qed.
End Loop.

(** ** Windows *)
Lemma skipn_snoc_lt : forall {A} n (l : list A) x, (length l < n)%nat -> skipn n (l ++ [x]) = [].
Proof. intros. apply skipn_all2. rewrite app_length. cbn. lia. Qed.

Lemma window_snoc : forall {A} off lim (l : list A) x,
  window off lim (l ++ [x]) = window off lim l ++
    (if (Z.of_nat (length l) <? off) || ((0 <? lim) && (lim <=? Z.of_nat (length (window off lim l)))) then [] else [x]).
Proof.
  intros A off lim l x. unfold window.
  set (n := Z.to_nat off).
  destruct (Z.ltb_spec (Z.of_nat (length l)) off) as [LT|GE]; cbn [orb].
  - rewrite skipn_snoc_lt by (unfold n; lia). rewrite skipn_all2 by (unfold n; lia).
    rewrite firstn_nil. destruct (0 <? lim); reflexivity.
  - rewrite skipn_app. replace (n - length l)%nat with 0%nat by (unfold n; lia). cbn [skipn].
    destruct (0 <? lim) eqn:E; cbn [andb]; [|reflexivity].
    rewrite firstn_app. f_equal.
    destruct (Z.leb_spec lim (Z.of_nat (length (firstn (Z.to_nat lim) (skipn n l))))) as [LE|GT];
      rewrite firstn_length in *.
    + replace (Z.to_nat lim - length (skipn n l))%nat with 0%nat by lia. reflexivity.
    + destruct (Z.to_nat lim - length (skipn n l))%nat as [|k] eqn:Ek; [lia|]. cbn. rewrite firstn_nil. reflexivity.
Qed.

Lemma filter_snoc : forall {A} (f : A -> bool) l x, filter f (l ++ [x]) = filter f l ++ (if f x then [x] else []).
Proof. intros. rewrite filter_app. cbn. reflexivity. Qed.

Lemma flat_app : forall a b, flat (a ++ b) = flat a ++ flat b.
Proof. intros. unfold flat. rewrite map_app, concat_app. reflexivity. Qed.
Lemma flat_one : forall f, flat [f] = map (fun h => (fm_name f, h)) (fm_hits f).
Proof. intros. unfold flat. cbn. apply app_nil_r. Qed.

Definition p0 : pst := mkP [] 0 0 0 0.

(** Without a maximum. *)
Lemma pfold_nomax : forall o fs, o_max o <= 0 ->
  let s := fold_left (pstep o) fs p0 in
  p_res s = window (o_offset o) (o_limit o) (filter has_hits fs) /\
  p_found s = Z.of_nat (length (filter has_hits fs)) /\
  p_opened s = Z.of_nat (length fs) /\
  p_coll s = Z.of_nat (length (p_res s)).
Proof.
  intros o fs M. cbv zeta. induction fs as [|f fs IH] using rev_ind.
  - cbn [fold_left filter length Z.of_nat p0 p_res p_found p_opened p_coll]. split; [|auto].
    unfold window. rewrite skipn_nil, firstn_nil. destruct (0 <? o_limit o); reflexivity.
  - rewrite fold_left_app. cbn [fold_left]. set (s := fold_left (pstep o) fs p0) in *.
    destruct IH as (R & F & O & C). rewrite filter_snoc, !app_length. unfold pstep.
    assert (NM : forall mc, maxed o mc = false).
    { intros mc. unfold maxed. replace (0 <? o_max o) with false by (symmetry; apply Z.ltb_ge; lia). reflexivity. }
    rewrite NM. destruct (has_hits f); cbn [p_res p_found p_opened p_coll length].
    + unfold take_max. replace (0 <? o_max o) with false by (symmetry; apply Z.ltb_ge; lia).
      rewrite window_snoc. unfold blocked. rewrite F, C, R.
      destruct ((Z.of_nat (length (filter has_hits fs)) <? o_offset o)
                || ((0 <? o_limit o) && (o_limit o <=? Z.of_nat (length (window (o_offset o) (o_limit o) (filter has_hits fs))))));
        cbn [p_res p_found p_opened p_coll]; rewrite ?app_nil_r, ?app_length; cbn [length].
      * split; [reflexivity|]. split; [lia|]. split; [lia|]. reflexivity.
      * split; [destruct f; reflexivity|]. split; [lia|]. split; [lia|]. lia.
    + rewrite app_nil_r. split; [assumption|]. split; [lia|]. split; [lia|first [assumption|reflexivity]].
Qed.

(** With a maximum. *)
Lemma firstn_app_le : forall {A} n (a b : list A), (n <= length a)%nat -> firstn n (a ++ b) = firstn n a.
Proof. intros A n a b H. rewrite firstn_app. replace (n - length a)%nat with 0%nat by lia. cbn. apply app_nil_r. Qed.
Lemma firstn_app_ge : forall {A} n (a b : list A), (length a <= n)%nat -> firstn n (a ++ b) = a ++ firstn (n - length a) b.
Proof. intros A n a b H. rewrite firstn_app. rewrite firstn_all2 by lia. reflexivity. Qed.
Lemma map_firstn : forall {A B} (f : A -> B) n l, map f (firstn n l) = firstn n (map f l).
Proof. intros. symmetry. apply firstn_map. Qed.

Lemma pfold_max : forall o fs, 0 < o_max o ->
  let s := fold_left (pstep o) fs p0 in
  let W := window (o_offset o) (o_limit o) (filter has_hits fs) in
  flat (p_res s) = firstn (Z.to_nat (o_max o)) (flat W) /\
  p_mc s = Z.of_nat (length (flat (p_res s))) /\
  p_mc s <= o_max o /\
  Forall (fun f => has_hits f = true) (p_res s) /\
  map fm_name (p_res s) = firstn (length (p_res s)) (map fm_name W) /\
  (p_mc s < o_max o -> p_res s = W /\ p_found s = Z.of_nat (length (filter has_hits fs)) /\
     p_coll s = Z.of_nat (length (p_res s))).
Proof.
  intros o fs M. cbv zeta. induction fs as [|f fs IH] using rev_ind.
  - cbn [fold_left filter length Z.of_nat p0 p_res p_found p_coll p_mc]. 
    assert (W0 : @window file_match (o_offset o) (o_limit o) [] = []).
    { unfold window. rewrite skipn_nil, firstn_nil. destruct (0 <? o_limit o); reflexivity. }
    rewrite W0. cbn [flat map concat length]. rewrite firstn_nil.
    split; [reflexivity|]. split; [reflexivity|]. split; [lia|]. split; [constructor|]. auto.
  - rewrite fold_left_app. cbn [fold_left]. set (s := fold_left (pstep o) fs p0) in *.
    destruct IH as (R & C & LM & NE & NM & X). rewrite filter_snoc. unfold pstep.
    destruct (maxed o (p_mc s)) eqn:MX.
    + (* limit already reached *)
      unfold maxed in MX. apply andb_true_iff in MX. destruct MX as [_ MX]. apply Z.leb_le in MX.
      assert (EX : exists tl, window (o_offset o) (o_limit o) (filter has_hits fs ++ (if has_hits f then [f] else []))
                   = window (o_offset o) (o_limit o) (filter has_hits fs) ++ tl).
      { destruct (has_hits f); [rewrite window_snoc; eauto|]. exists []. rewrite !app_nil_r. reflexivity. }
      destruct EX as (tl & ->). rewrite flat_app, map_app.
      split; [|split; [assumption|split; [assumption|split; [assumption|split; [|lia]]]]].
      * rewrite firstn_app_le; [assumption|]. rewrite R, firstn_length in C. lia.
      * rewrite firstn_app_le; [assumption|]. rewrite <- (map_length fm_name (p_res s)), NM, firstn_length. lia.
    + unfold maxed in MX. replace (0 <? o_max o) with true in MX by (symmetry; apply Z.ltb_lt; lia).
      cbn [andb] in MX. apply Z.leb_gt in MX. destruct (X MX) as (RW & FF & CC). rewrite <- RW in R, NM.
      destruct (has_hits f) eqn:HF.
      * rewrite window_snoc. unfold blocked. rewrite FF, CC, <- RW.
        destruct ((Z.of_nat (length (filter has_hits fs)) <? o_offset o)
                || ((0 <? o_limit o) && (o_limit o <=? Z.of_nat (length (p_res s)))));
          cbn [p_res p_found p_opened p_coll p_mc].
        -- rewrite app_nil_r. split; [assumption|]. split; [assumption|]. split; [assumption|].
           split; [assumption|]. split; [assumption|]. intros _. split; [reflexivity|].
           rewrite app_length. cbn [length]. split; [lia|first [assumption|reflexivity]].
        -- set (t := take_max o (p_mc s) (fm_hits f)).
           assert (Et : t = firstn (Z.to_nat (o_max o) - length (flat (p_res s))) (fm_hits f)).
           { unfold t, take_max. replace (0 <? o_max o) with true by (symmetry; apply Z.ltb_lt; lia). f_equal. lia. }
           assert (LT : (length t <= Z.to_nat (o_max o) - length (flat (p_res s)))%nat).
           { rewrite Et, firstn_length. lia. }
           split; [|split; [|split; [|split; [|split]]]].
           ++ rewrite !flat_app, !flat_one. cbn [fm_name fm_hits]. rewrite firstn_app_ge by lia.
              f_equal. rewrite <- map_firstn, Et. reflexivity.
           ++ rewrite flat_app, flat_one, app_length, map_length. cbn [fm_hits]. lia.
           ++ lia.
           ++ apply Forall_app. split; [assumption|]. constructor; [|constructor]. unfold has_hits in *. cbn [fm_hits].
              destruct (fm_hits f) as [|h hs]; [discriminate|]. destruct t eqn:E2; [|reflexivity].
              destruct (Z.to_nat (o_max o) - length (flat (p_res s)))%nat eqn:E3; [lia|]. discriminate.
           ++ rewrite !map_app, !app_length. cbn [map length fm_name]. symmetry. apply firstn_all2.
              rewrite app_length, map_length. cbn. lia.
           ++ intros LTm. split; [|split].
              ** f_equal. f_equal. replace t with (fm_hits f); [destruct f; reflexivity|].
                 rewrite Et in *. rewrite firstn_length in *. symmetry. apply firstn_all2. lia.
              ** rewrite app_length. cbn [length]. lia.
              ** rewrite app_length. cbn [length]. lia.
      * cbn [p_res p_found p_opened p_coll p_mc]. rewrite !app_nil_r, <- RW.
        split; [assumption|]. split; [assumption|]. split; [assumption|]. split; [assumption|]. split; [assumption|]. auto.
Qed.
