(** From the command line to the printed answer. *)
From Verif Require Import Model.Base Model.GoStr Model.Config Model.Query Model.Reader Model.Syntax Model.Matcher Model.Utf Model.Grep
  Model.Search Model.Api Model.Request Model.Json Model.Wire Model.Client Model.Present Model.Whole
  Spec.IndexSpec Spec.RunSpec Spec.Utf8Spec Spec.RegexSpec Spec.MatchSpec Spec.ExprSpec Spec.GrepSpec Spec.ApiSpec Spec.ClientSpec
  Spec.PresentSpec Spec.WireSpec Spec.WholeSpec Proofs.StrLemmas Proofs.SplitProofs Proofs.MatchTop Proofs.GrepTop Proofs.GrepProofs Proofs.ContextProofs
  Proofs.TextProofs Proofs.ConfigProofs Proofs.ApiProofs Proofs.RequestProofs Proofs.WireProofs Proofs.ClientServer Proofs.PresentProofs Proofs.PresentTop
  Proofs.EndToEnd Proofs.ExprSearch Proofs.WindowProofs Proofs.WholeSearch.
From Coq Require Import Permutation Sorted Lia.
Local Open Scope N_scope.

(** ** Maps *)
Lemma get_some_in : forall {A} (m : list (str * A)) k v, get m k = Some v -> In (k, v) m.
Proof.
  induction m as [|[x w] m IH]; intros k v H; cbn [get] in H; [discriminate|].
  destruct (str_eqb k x) eqn:E; [apply str_eqb_eq in E; subst; left; congruence|right; apply IH; exact H].
Qed.
Lemma in_get : forall {A} (m : list (str * A)) k v, NoDup (map fst m) -> In (k, v) m -> get m k = Some v.
Proof.
  induction m as [|[x w] m IH]; intros k v ND I; [destruct I|]. cbn [map fst] in ND. inversion ND as [|? ? N1 N2]; subst.
  cbn [get]. destruct I as [I|I].
  - injection I as -> ->. rewrite str_eqb_refl. reflexivity.
  - rewrite (proj2 (str_eqb_neq k x)); [apply IH; assumption|]. intros ->. apply N1. apply in_map_iff. exists (x, v). auto.
Qed.
Lemma put_dup : forall {A} (m : list (str * A)) k v, NoDup (map fst m) -> NoDup (map fst (put m k v)).
Proof.
  intros A m k v ND. destruct (get m k) as [x|] eqn:G; [|apply (put_nodup m k v G ND)].
  replace (map fst (put m k v)) with (map fst m); [exact ND|]. clear ND. revert G.
  induction m as [|[y w] m IH]; intros G; cbn [get put] in *; [discriminate|].
  destruct (str_eqb k y) eqn:E; [apply str_eqb_eq in E; subst; reflexivity|]. cbn [map fst]. f_equal. apply IH. exact G.
Qed.
Lemma collect_nodup : forall {M E} (arr : list (str * (answer M + E))) res n m n', NoDup (map fst res) ->
  Api.collect arr res n = inl (m, n') -> NoDup (map fst m).
Proof.
  induction arr as [|[name [r|e]] arr IH]; intros res n m n' ND H; cbn [Api.collect] in H; [congruence| |discriminate].
  destruct (a_matches r); (eapply IH; [|exact H]); [apply put_dup|]; exact ND.
Qed.
Lemma answered_in : forall m k r, In (k, r) (answered m) <-> exists a, In (k, a) m /\ a_matches a = Some r.
Proof.
  intros m k r. unfold answered. rewrite in_flat_map. split.
  - intros ([k' a] & I & H). cbn [fst snd] in H. destruct (a_matches a) as [r'|] eqn:E; [|destruct H].
    destruct H as [H|[]]. injection H as -> ->. exists a. auto.
  - intros (a & I & E). exists (k, a). split; [exact I|]. cbn [fst snd]. rewrite E. left. reflexivity.
Qed.
Lemma answered_nodup : forall m, NoDup (map fst m) -> NoDup (map fst (answered m)).
Proof.
  induction m as [|[k a] m IH]; intros ND; [constructor|]. cbn [map fst] in ND. inversion ND as [|? ? N1 N2]; subst.
  change (answered ((k, a) :: m)) with (match a_matches a with Some r => [(k, r)] | None => [] end ++ answered m).
  destruct (a_matches a) as [r|]; cbn [app map fst]; [|apply IH; exact N2].
  constructor; [|apply IH; exact N2]. intros X. apply in_map_iff in X. destruct X as ((k' & r') & E & I). cbn [fst] in E. subst k'.
  apply answered_in in I. destruct I as (a' & I & _). apply N1. apply in_map_iff. exists (k, a'). auto.
Qed.

(** ** A server that is ready to be asked *)
Record ready sf ex fe (max : Z) (s : served) (docs : list doc) : Prop := {
  ry_stock : stocked (sv_ix s) (sv_raw s) docs;
  ry_names : NoDup (map fst docs);
  ry_texts : Forall (fun d => valid_utf8 (fst d) /\ valid_utf8 (snd d) /\ (Z.of_nat (length (snd d)) < 2 ^ 63 - 1)%Z) docs;
  ry_many : (Z.of_nat (length docs) < 2 ^ 63)%Z;
  ry_rev : valid_utf8 (sv_rev s);
  ry_limit : (max <= 0)%Z \/ few sf ex fe docs max
}.

Section Whole.
  Context (fuel : nat) (compile : str -> option (query * matcher)) (quote : str -> str)
    (grow : nat -> nat -> nat) (sf : N -> N) (om : nat) (ex : regexp) (P : xprog) (tq : query) (p : prog) (re : matcher)
    (fe : option regexp) (fp : option prog) (fre : option matcher) (ctx : nat).
  Hypothesis CO : compiled grow sf om ex P tq p.
  Hypothesis NS : no_text_start ex.
  Hypothesis NE : ends_well sf ex.
  Hypothesis D : depth_ok fuel p.
  Hypothesis U : used fuel p re.
  Hypothesis FC : filter_compiled fuel sf om fe fp fre.

  Notation kp := (keep p fuel ctx fp).

  Lemma hits_grep : forall text, exists m', grep_text fuel ctx re text = Some (m', hits_of fuel ctx p text).
  Proof.
    intros text. destruct (compiled_wf _ _ _ _ _ _ _ CO) as (WF & _).
    destruct (grep_text_ok fuel p ctx re text WF D U) as (m' & E & _). exists m'. exact E.
  Qed.

  (** The rows for a file. *)
  Lemma file_rows : forall (d : doc) s, valid_utf8 (snd d) ->
    file_text (Z.of_nat ctx) (split_nl (snd d)) (fst d, hits_of fuel ctx p (snd d)) s -> file_shown ctx sf ex d s.
  Proof.
    intros d s V (gs & ts & CV & GT & ->). cbn [fst snd] in *. destruct (compiled_wf _ _ _ _ _ _ _ CO) as (WF & _).
    destruct (file_lines_total (snd d)) as (lines & FL & _). exists lines, gs, ts. split; [exact FL|].
    split; [|split; [exact GT|reflexivity]].
    destruct (hits_lines _ _ _ _ _ _ _ fuel ctx CO NS NE D d lines V FL) as (R & H).
    destruct (hits_grep (snd d)) as (m' & EG).
    apply (rows_near lines ctx (hits_of fuel ctx p (snd d)) R) with (pieces := split_nl (snd d)); [| | |exact H|exact CV].
    - intros h I. exact (after_lines fuel p ctx re (snd d) m' _ lines h WF D U EG FL I).
    - intros h I. exact (before_exact fuel p ctx re (snd d) m' _ lines h WF D U EG FL I).
    - apply lines_pieces. exact FL.
  Qed.

  (** What is sent. *)
  Lemma hits_sent : forall d : doc, valid_utf8 (snd d) -> (Z.of_nat (length (snd d)) < 2 ^ 63 - 1)%Z ->
    Forall hit_sent (hits_of fuel ctx p (snd d)) /\ Forall hit_valid (hits_of fuel ctx p (snd d)).
  Proof.
    intros d V L. destruct (compiled_wf _ _ _ _ _ _ _ CO) as (WF & _). destruct (hits_grep (snd d)) as (m' & EG).
    destruct (server_in_order fuel p ctx re (snd d) m' _ _ WF D U EG (proj2 (splits_iff _ _) eq_refl)) as (F & _).
    destruct (file_lines_total (snd d)) as (lines & FL & _).
    destruct (hits_lines _ _ _ _ _ _ _ fuel ctx CO NS NE D d lines V FL) as (R & _). pose proof (lines_length _ _ FL) as LL.
    assert (G : forall h, In h (hits_of fuel ctx p (snd d)) -> hit_valid h).
    { intros h I. rewrite Forall_forall in F. destruct (F h I) as (_ & A & B & C).
      assert (PV : forall k t, nth_error (split_nl (snd d)) k = Some t -> valid_utf8 t)
        by (intros k t; apply (piece_valid (snd d)); [exact V|apply splits_iff; reflexivity]).
      split; [eapply PV, A|]. split; apply Forall_forall; intros t It; apply In_nth_error in It; destruct It as (i & E).
      - eapply PV, B, E.
      - eapply PV, C, E. }
    split; apply Forall_forall; intros h I; [|apply G; exact I]. destruct (G h I) as (A & B & C).
    split; [apply valid_utf8_bytes, A|]. split; [specialize (R h I); lia|].
    split; (eapply Forall_impl; [|eassumption]); apply valid_utf8_bytes.
  Qed.

  Definition dummy : response := mkResp [] 0 0 [].
  Definition answer_of (q : search_request) (servers : list (str * (repo * served))) (name : str) : response :=
    match get servers name with
    | Some s => match search_repo fuel compile quote q (snd s) with Some (Some r) => r | _ => dummy end
    | None => dummy
    end.

  Lemma run_all : forall q servers repos,
    (forall n, In n repos -> exists s, get servers n = Some s /\ search_repo fuel compile quote q (snd s) = Some (Some (answer_of q servers n))) ->
    run_searches fuel compile quote q servers repos = Some (map (fun n => (n, sent (Some (answer_of q servers n)))) repos).
  Proof.
    intros q servers. induction repos as [|n repos IH]; intros H; [reflexivity|]. cbn [run_searches].
    destruct (H n (or_introl eq_refl)) as (s & G & S). rewrite G. cbn [bind]. rewrite S. cbn [bind].
    rewrite IH by (intros x I; apply H; right; exact I). reflexivity.
  Qed.

  Theorem whole_output : forall host pattern repos files ic st servers def w docs names en find listing,
    ~ In 35 host -> ~ In 63 host ->
    Forall (fun c => c < 256) pattern -> Forall (fun c => c < 256) repos -> Forall (fun c => c < 256) files -> (ctx <= 20)%nat ->
    compile (GetRegexpPattern pattern ic) = Some (tq, re) -> optional_filter compile files = Some fre ->
    trimmed repos w -> NoDup (map fst servers) ->
    (forall name r s, In (name, (r, s)) servers -> w = [42] \/ element w name ->
       valid_utf8 name /\ repoNameFor listing name = Some (names name) /\ ready sf ex fe def s (docs name)) ->
    (forall t, positions 0 (length t) (find t)) ->
    let q := read_search (form_of (search_url host pattern repos files (Z.of_nat ctx) ic st))
               (map (fun s => (fst s, fst (snd s))) servers) def in
    exists arr, run_searches fuel compile quote q servers (q_repos q) = Some arr /\
    forall arr' short msg dur, Permutation arr arr' -> int64_range dur -> int64_range (opened arr') ->
    exists rs stats, read_answer (search_body short msg (q_stats q) dur arr') = Some (mkRecv (Some rs) stats) /\
    forall order, Permutation rs order ->
    exists out plain, Present en find (fun _ _ => false) (Z.of_nat ctx) listing (shape order) = (out, Done) /\
      coloured plain (concat out) /\
      output_shown ctx sf ex fe docs names (fun r => In r (map fst servers) /\ (w = [42] \/ element w r)) plain.
  Proof.
    intros host pattern repos files ic st servers def w docs names en find listing H1 H2 BP BR BF CX CP OF TR ND RD POS q.
    destruct (compiled_wf _ _ _ _ _ _ _ CO) as (WF & _).
    destruct (request_read host pattern repos files (Z.of_nat ctx) ic st (map (fun s => (fst s, fst (snd s))) servers) def H1 H2 BP BR BF)
      as (A1 & A2 & A3 & A4 & A5 & A6 & A7 & A8 & A9 & A10 & A11 & _).
    fold q in A1, A2, A3, A4, A5, A6, A7, A8, A9, A10, A11.
    assert (CTX : N.to_nat (q_ctx q) = ctx) by (rewrite A11 by lia; lia). clear A11.
    assert (SEL : forall n, In n (q_repos q) <-> In n (map fst servers) /\ (w = [42] \/ element w n)).
    { intros n. rewrite (A10 w n TR), map_map. reflexivity. } clear A10.
    (* each search *)
    assert (ONE : forall n, In n (q_repos q) -> exists s, get servers n = Some s /\ ready sf ex fe def (snd s) (docs n) /\
       valid_utf8 n /\ repoNameFor listing n = Some (names n) /\
       search_repo fuel compile quote q (snd s) = Some (Some (answer_of q servers n)) /\
       rs_matches (answer_of q servers n) = map (doc_entry fuel ctx p (sv_auto (snd s))) (filter kp (docs n)) /\
       rs_found (answer_of q servers n) = Z.of_nat (length (filter kp (docs n))) /\ rs_rev (answer_of q servers n) = sv_rev (snd s)).
    { intros n I. apply SEL in I. destruct I as (I & W). apply get_in in I. destruct I as ([rp s] & G). exists (rp, s). cbn [snd].
      destruct (RD n rp s (get_some_in _ _ _ G) W) as (VN & RN & RY). destruct RY as [SK NN TX MN RV LM].
      assert (TX' : Forall (fun d => valid_utf8 (fst d) /\ valid_utf8 (snd d)) (docs n)) by (eapply Forall_impl; [|exact TX]; cbv beta; tauto).
      destruct (repo_found grow sf om ex P tq p fuel ctx fe fp re fre CO NS NE D U FC (sv_ix s) (sv_raw s) (docs n) (sv_auto s) (sv_rev s)
                  (request_opts q) SK NN TX') as (r & E & R1 & R2 & R3); try (cbn [request_opts o_nctx o_offset o_limit o_max]; assumption).
      { cbn [request_opts o_max]. rewrite A9. exact LM. }
      assert (ES : search_repo fuel compile quote q s = Some (Some r)).
      { unfold search_repo. rewrite A5, A1, A4, CP, A2, OF, A3. cbn [optional_filter]. exact E. }
      assert (EA : answer_of q servers n = r) by (unfold answer_of; rewrite G; cbn [snd]; rewrite ES; reflexivity).
      rewrite EA. split; [exact G|]. split; [constructor; assumption|]. auto 8. }
    exists (map (fun n => (n, sent (Some (answer_of q servers n)))) (q_repos q)). split.
    { apply run_all. intros n I. destruct (ONE n I) as (s & G & _ & _ & _ & S & _). exists s. auto. }
    intros arr' short msg dur PA DU OP.
    assert (INA : forall k x, In (k, x) arr' <-> In k (q_repos q) /\ x = sent (Some (answer_of q servers k))).
    { intros k x. split.
      - intros I. apply (Permutation_in _ (Permutation_sym PA)) in I. apply in_map_iff in I. destruct I as (n & E & I).
        injection E as <- <-. auto.
      - intros (I & ->). apply (Permutation_in _ PA). apply in_map_iff. exists k. auto. }
    assert (CS : consistent arr').
    { intros k a b Ia Ib. apply INA in Ia, Ib. destruct Ia as (_ & ->), Ib as (_ & ->). reflexivity. }
    pose proof (search_all_ok arr') as SA. unfold search_body. destruct (searchAll arr') as [[m n]|e] eqn:ESA.
    2:{ destruct SA as (k & I). apply INA in I. destruct I as (_ & X). discriminate. }
    destruct SA as (_ & EN & GM). specialize (GM CS).
    assert (NM : NoDup (map fst m)) by (eapply (collect_nodup arr' []); [constructor|exact ESA]).
    assert (INR : forall k r, In (k, r) (answered m) <->
      In k (q_repos q) /\ r = answer_of q servers k /\ rs_matches r <> []).
    { intros k r. rewrite answered_in. split.
      - intros (a & I & E). apply (in_get m k a NM) in I. apply GM in I. destruct I as (I & _). apply INA in I. destruct I as (I & X).
        split; [exact I|]. injection X as ->. cbn [a_matches] in E.
        destruct (rs_matches (answer_of q servers k)) eqn:EM; [discriminate|]. injection E as <-. split; [reflexivity|]. congruence.
      - intros (I & -> & NEm). exists (mkAns (Some (answer_of q servers k)) (rs_opened (answer_of q servers k))).
        split; [|reflexivity]. apply get_some_in, GM. split; [|discriminate]. apply INA. split; [exact I|].
        cbn [sent]. destruct (rs_matches (answer_of q servers k)); [contradiction|reflexivity]. }
    (* the answer can be sent *)
    assert (SENT : Forall result_sent (answered m) /\ Forall (fun p => response_valid (snd p)) (answered m)).
    { split; apply Forall_forall; intros (k & r) I; apply INR in I; destruct I as (I & -> & _);
        destruct (ONE k I) as (s & _ & [_ _ TX MN RV _] & VN & _ & _ & R1 & R2 & R3).
      - split; [apply valid_utf8_bytes, VN|]. split; [exact VN|]. cbn [snd]. split; [|split].
        + rewrite R1. apply Forall_forall. intros f If. apply in_map_iff in If. destruct If as (d & <- & Id). apply filter_In in Id.
          rewrite Forall_forall in TX. destruct (TX d (proj1 Id)) as (V1 & V2 & L). split; [apply valid_utf8_bytes, V1|].
          apply (hits_sent d V2 L).
        + rewrite R2. assert (X : (length (filter kp (docs k)) <= length (docs k))%nat)
            by (clear; induction (docs k) as [|x l IH]; [apply le_n|]; cbn [filter length]; destruct (kp x); cbn [length]; lia). lia.
        + rewrite R3. apply valid_utf8_bytes, RV.
      - cbn [snd]. split; [|rewrite R3; exact RV]. rewrite R1. apply Forall_forall. intros f If. apply in_map_iff in If.
        destruct If as (d & <- & Id). apply filter_In in Id. rewrite Forall_forall in TX. destruct (TX d (proj1 Id)) as (V1 & V2 & L).
        split; [exact V1|]. apply (hits_sent d V2 L). }
    destruct SENT as (SENT & VALID).
    assert (STS : stats_sent (if q_stats q then Some (n, dur) else None)) by (destruct (q_stats q); [subst n; split; assumption|exact I]).
    eexists. eexists. split; [apply answer_exact; [exact SENT|apply answered_nodup, NM|exact STS|exact VALID]|].
    set (strip := fun p : str * response => (fst p, mkResp (rs_matches (snd p)) (rs_found (snd p)) 0 (rs_rev (snd p)))).
    intros order PO.
    assert (NDO : NoDup (map fst order)).
    { apply (Permutation_NoDup (Permutation_map fst PO)). rewrite map_map. apply answered_nodup, NM. }
    assert (INO : forall k r, In (k, r) order -> In k (q_repos q) /\ rs_matches r = rs_matches (answer_of q servers k) /\ rs_matches r <> []).
    { intros k r I. apply (Permutation_in _ (Permutation_sym PO)) in I. apply in_map_iff in I. destruct I as ((k' & r') & E & I).
      unfold strip in E. cbn [fst snd] in E. injection E as <- <-. apply INR in I. destruct I as (I & -> & X). cbn [rs_matches]. auto. }
    assert (INK : forall k, In k (map fst order) <-> In k (q_repos q) /\ rs_matches (answer_of q servers k) <> []).
    { intros k. split.
      - intros I. apply in_map_iff in I. destruct I as ((k' & r) & <- & I). destruct (INO _ _ I) as (A & B & C). cbn [fst]. split; [exact A|congruence].
      - intros (A & B). apply in_map_iff. exists (strip (k, answer_of q servers k)). split; [reflexivity|].
        apply (Permutation_in _ PO). apply in_map. apply INR. auto. }
    set (src := fun r name => match get (docs r) name with Some t => split_nl t | None => [] end).
    destruct (server_printed en find (Z.of_nat ctx) listing names src (shape order) POS) as (plain & AT & out & PR & CL).
    { apply Forall_forall. intros x I. apply in_map_iff in I. destruct I as ((k & r) & <- & I). cbn [fst].
      destruct (INO _ _ I) as (A & _). destruct (ONE k A) as (s & _ & _ & _ & X & _). exact X. }
    { apply Forall_forall. intros x I. apply in_map_iff in I. destruct I as ((k & r) & <- & I). cbn [fst snd].
      destruct (INO _ _ I) as (A & B & _). destruct (ONE k A) as (s & _ & RY & _ & _ & _ & R1 & _). rewrite B, R1, map_map.
      apply Forall_forall. intros y Iy. apply in_map_iff in Iy. destruct Iy as (d & <- & Id). cbn [fst snd doc_entry fm_name fm_hits].
      apply filter_In in Id. destruct (hits_grep (snd d)) as (m' & EG). exists fuel, p, ctx, re, m', (snd d).
      do 3 (split; [assumption|]). split; [exact EG|]. apply splits_iff. unfold src.
      rewrite (in_get (docs k) (fst d) (snd d)); [reflexivity|apply (ry_names _ _ _ _ _ _ RY)|destruct d; apply Id]. }
    exists out, plain. split; [exact PR|]. split; [exact CL|].
    assert (KEEP : forall k, In k (q_repos q) -> forall d, In d (docs k) -> (kp d = true <-> wanted sf ex fe d)).
    { intros k A d Id. destruct (ONE k A) as (s & _ & [_ _ TX _ _ _] & _). rewrite Forall_forall in TX. destruct (TX d Id) as (V1 & V2 & _).
      apply (keep_spec grow sf om ex P tq p fuel ctx fe fp fre CO NS NE D FC d V1 V2). }
    destruct AT as (ts & F2 & ->). exists (map fst order), ts. split; [exact NDO|]. split; [|split; [|reflexivity]].
    - intros r. rewrite INK, SEL. split.
      + intros (A & B). split; [exact A|]. apply SEL in A. destruct (ONE r A) as (s & _ & _ & _ & _ & _ & R1 & _). rewrite R1 in B.
        destruct (filter kp (docs r)) as [|d l] eqn:EF; [contradiction|]. exists d.
        assert (Id : In d (filter kp (docs r))) by (rewrite EF; left; reflexivity). apply filter_In in Id. destruct Id as (Id & K).
        split; [exact Id|]. apply (KEEP r A d Id). exact K.
      + intros (A & d & Id & W). split; [exact A|]. apply SEL in A. destruct (ONE r A) as (s & _ & _ & _ & _ & _ & R1 & _). rewrite R1.
        apply (KEEP r A d Id) in W. assert (X : In d (filter kp (docs r))) by (apply filter_In; auto).
        destruct (filter kp (docs r)); [destruct X|discriminate].
    - assert (G : forall l ts, incl l order -> Forall2 (repo_text (Z.of_nat ctx) src names) (shape l) ts ->
        Forall2 (repo_shown ctx sf ex fe docs names) (map fst l) ts).
      { clear ts F2 CL. induction l as [|(k & r) l IH]; intros ts IN F; inversion_clear F as [|? t ? ts' RT F']; [constructor|].
        cbn [map fst]. constructor; [|apply IH; [intros x Ix; apply IN; right; exact Ix|exact F']].
        destruct (INO k r (IN _ (or_introl eq_refl))) as (A & B & _). destruct (ONE k A) as (s & _ & RY & _ & _ & _ & R1 & _).
        destruct RT as (fts & FT & ->). cbn [fst snd] in *. rewrite B, R1, map_map in FT.
        exists kp, fts. split; [apply KEEP; exact A|]. split; [|reflexivity].
        assert (G2 : forall ds fts, incl ds (docs k) ->
          Forall2 (fun f => file_text (Z.of_nat ctx) (src k (fst f)) f)
            (map (fun d => (fm_name (doc_entry fuel ctx p (sv_auto (snd s)) d), fm_hits (doc_entry fuel ctx p (sv_auto (snd s)) d))) ds) fts ->
          Forall2 (file_shown ctx sf ex) ds fts).
        { clear fts FT. induction ds as [|d ds IHd]; intros fts INd FT; inversion_clear FT as [|? t1 ? ts1 T1 FT1]; [constructor|].
          constructor; [|apply IHd; [intros x Ix; apply INd; right; exact Ix|exact FT1]].
          cbn [fst snd doc_entry fm_name fm_hits] in T1. pose proof (INd d (or_introl eq_refl)) as Id.
          pose proof (ry_texts _ _ _ _ _ _ RY) as TX. rewrite Forall_forall in TX. destruct (TX d Id) as (V1 & V2 & _).
          unfold src in T1. rewrite (in_get (docs k) (fst d) (snd d)) in T1; [|apply (ry_names _ _ _ _ _ _ RY)|destruct d; exact Id].
          apply file_rows; assumption. }
        apply G2; [|exact FT]. intros x Ix. apply filter_In in Ix. apply Ix. }
      apply G; [apply incl_refl|exact F2].
  Qed.
End Whole.

(** The index of a directory. *)
From Verif Require Import Model.IndexRun Model.IndexDir Spec.TreeSpec Proofs.IndexProofs Proofs.DirProofs Proofs.DirTop Proofs.TreeSearch.
Theorem stocked_tree : forall cap opt mk_ok cr_ok json_ok mem rname u es b raw excl rdr,
  (1 <= cap)%nat -> good_tree (NDir u es) ->
  index_all_files cap opt mk_ok cr_ok json_ok mem rname (NDir u es) = Some (Some (b, raw, excl)) -> serves rdr raw ->
  exists ix docs, ix_open b = Some ix /\ stocked ix rdr docs /\ NoDup (map fst docs) /\
    (forall name text, In (name, text) docs -> exists cs m pk evs,
       found opt rname (NDir u es) cs m (NFile (Some pk) (Some evs)) /\ joined cs name /\ ~ hidden opt m /\ text = ev_content evs) /\
    (forall cs m pk evs name, found opt rname (NDir u es) cs m (NFile pk (Some evs)) -> joined cs name ->
       ~ special opt m -> ev_ok evs -> ~ In name (map fst excl) -> In (name, ev_content evs) docs).
Proof.
  intros cap opt mk_ok cr_ok json_ok mem rname u es b raw excl rdr C G IA SV.
  destruct (index_tree _ _ _ _ _ _ _ _ _ _ _ _ C G IA) as (files & vs & docs & BI & FO & K & ND & _ & DO & _ & ALL & _).
  destruct (names_roundtrip cap mem [] files vs b C FO (Forall_nil _) BI) as (docs' & ix & _ & OP & _).
  exists ix, docs. split; [exact OP|]. split.
  { exists cap, mem, files, vs, b. do 5 (split; [assumption|]). intros [name c] Id. destruct (DO name c Id) as [IR _]. exact (SV name c IR). }
  split; [|split].
  - clear - ND. induction docs as [|d docs IH]; [constructor|]. cbn [map app] in *. inversion ND as [|? ? N1 N2]; subst.
    constructor; [|apply IH; exact N2]. intros X. apply N1. apply in_or_app. left. exact X.
  - intros name text Id. destruct (DO name text Id) as (_ & cs & m & pk & evs & Fo & J & NH & _ & _ & E & _). exists cs, m, pk, evs. auto.
  - intros cs m pk evs name Fo J NSp OK NX. destruct (ALL cs m pk (Some evs) name Fo J NSp) as [(c & Id)|[(why & Ie)|(evs' & E & NOK)]].
    + destruct (DO name c Id) as (_ & cs' & m' & pk' & evs' & Fo' & J' & _ & _ & OK' & -> & _).
      assert (cs' = cs).
      { apply joined_iff in J. apply joined_iff in J'. destruct J as [N1 J], J' as [N2 J'].
        apply join_inj; try assumption; [apply (found_good _ _ _ _ _ _ Fo' G)|apply (found_good _ _ _ _ _ _ Fo G)|congruence]. }
      subst cs'. destruct (found_fun _ _ _ _ _ _ Fo G _ _ Fo') as [_ EQ]. injection EQ as -> <-. exact Id.
    + exfalso. apply NX. apply (in_map fst) in Ie. exact Ie.
    + injection E as <-. contradiction.
Qed.
