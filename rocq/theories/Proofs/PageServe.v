(** The modelled server answers the page with the asked part of the results. *)
From Verif Require Import Model.Base Model.GoStr Model.Config Model.Query Model.Reader Model.Matcher Model.Grep Model.Search Model.Api Model.Request
  Model.Whole Model.PageState Spec.ApiSpec Spec.SearchSpec Spec.LoadSpec Spec.Names Proofs.StrLemmas Proofs.SearchProofs Proofs.SearchTop
  Proofs.ApiProofs Proofs.WholeTop.
From Coq Require Import Permutation Lia.
Local Open Scope Z_scope.

Lemma bound_det : forall s b b', bound s b -> bound s b' -> b = b'.
Proof.
  intros s b b' [(v & D & L & ->)|(N1 & ->)] [(v' & D' & L' & ->)|(N1' & ->)]; [|specialize (N1' _ D); lia|specialize (N1 _ D'); lia|reflexivity].
  destruct D as (_ & _ & ->), D' as (_ & _ & ->). reflexivity.
Qed.
Lemma page_det : forall s b e b' e', page s b e -> page s b' e' -> b = b' /\ e = e'.
Proof.
  intros s b e b' e' [(N1 & -> & ->)|(l & r & -> & N1 & B & E)] [(N2 & -> & ->)|(l' & r' & Q & N2 & B' & E')].
  - auto.
  - exfalso. apply N1. rewrite Q. apply in_elt.
  - exfalso. apply N2. apply in_elt.
  - assert (l = l' /\ r = r') as (<- & <-).
    { clear - N1 N2 Q. revert l' N2 Q. induction l as [|x l IH]; intros [|y l'] N2 Q.
      - cbn [app] in Q. split; [reflexivity|congruence].
      - exfalso. apply N2. left. cbn [app] in Q. congruence.
      - exfalso. apply N1. left. cbn [app] in Q. congruence.
      - cbn [app] in Q. destruct (IH (fun I => N1 (or_intror I)) l' (fun I => N2 (or_intror I))) as (-> & ->); [congruence|]. split; [|reflexivity]. f_equal. congruence. }
    split; eapply bound_det; eassumption.
Qed.

Section Serve.
Variable fuel : nat.
Variable compile : str -> option (query * matcher).
Variable quote : str -> str.
Variable servers : list (str * (repo * served)).
Variable def : Z.
Variable msg : str.

(** Request.FormValue of the parameters as they were sent *)
Definition form_value (p : params) (k : str) : str := match get_param p k with Some v => v | None => [] end.
Definition request (p : params) : search_request :=
  read_search (form_value p) (map (fun s => (fst s, fst (snd s))) servers) def.
(** Everything of a repository: the same search without a range or a limit. *)
Definition everything (q : search_request) : search_request :=
  mkReq (q_stats q) (q_repos q) (q_query q) 0 0 (q_files q) (q_exclude q) (q_icase q) (q_literal q) 0 (q_ctx q).
Definition all_files (p : params) (r : str) : list file_match :=
  match get servers r with
  | Some s => match search_repo fuel compile quote (everything (request p)) (snd s) with Some (Some res) => rs_matches res | _ => [] end
  | None => []
  end.
(** What is sent: the responses as they are, in any order; or nothing gets through. *)
Definition sends (p : params) (rep : reply) : Prop :=
  rep = Broke \/
  exists arr arr', run_searches fuel compile quote (request p) servers (q_repos (request p)) = Some arr /\ Permutation arr arr' /\
    match searchAll arr' with
    | inr _ => rep = Error msg
    | inl (m, _) => rep = Results (answered m) (q_stats (request p))
    end.
(** The search can be carried out. *)
Definition can_search (p : params) (s : served) : Prop :=
  forall tq re fre xre,
    compile (GetRegexpPattern (if q_literal (request p) then quote (q_query (request p)) else q_query (request p)) (q_icase (request p))) = Some (tq, re) ->
    optional_filter compile (q_files (request p)) = Some fre -> optional_filter compile (q_exclude (request p)) = Some xre ->
    exists prog fp xp docs, searchable fuel prog fp xp (sv_ix s) (sv_raw s) tq re fre xre docs.
(** The configured limit does not cut anything off. *)
Definition not_cut (p : params) (r : str) : Prop := def <= 0 \/ Z.of_nat (length (flat (all_files p r))) < def.

Lemma same_request : forall p p', same_search p p' -> everything (request p) =
  mkReq (q_stats (request p)) (q_repos (request p)) (q_query (request p')) 0 0 (q_files (request p')) (q_exclude (request p'))
        (q_icase (request p')) (q_literal (request p')) 0 (q_ctx (request p')).
Proof.
  intros p p' S. unfold everything, request, read_search.
  assert (G : forall k, k <> text "rng" -> k <> text "repos" -> k <> text "stats" -> form_value p k = form_value p' k)
    by (intros k A B C; unfold form_value; rewrite (S k A B C); reflexivity).
  destruct (parseRangeValue (form_value p f_rng)), (parseRangeValue (form_value p' f_rng)).
  cbn [q_stats q_repos q_query q_files q_exclude q_icase q_literal q_ctx].
  rewrite (G f_q), (G f_files), (G f_exclude), (G f_i), (G f_literal), (G f_ctx); try discriminate. reflexivity.
Qed.
Lemma repo_fields : forall q q' s, q_query q = q_query q' -> q_files q = q_files q' -> q_exclude q = q_exclude q' -> q_icase q = q_icase q' ->
  q_literal q = q_literal q' -> request_opts q = request_opts q' -> search_repo fuel compile quote q s = search_repo fuel compile quote q' s.
Proof. intros q q' s A B C D E F. unfold search_repo. rewrite A, B, C, D, E, F. reflexivity. Qed.
Lemma files_same : forall p p' r, same_search p p' -> all_files p r = all_files p' r.
Proof.
  intros p p' r S. unfold all_files. destruct (get servers r) as [s|]; [|reflexivity].
  rewrite (repo_fields (everything (request p)) (everything (request p')) (snd s)); [reflexivity|..]; rewrite (same_request p p' S); reflexivity.
Qed.

(** One search. *)
Lemma one_search : forall p r s, get servers r = Some s -> get_param p (text "limit") = None -> can_search p (snd s) -> not_cut p r ->
  search_repo fuel compile quote (request p) (snd s) = Some None \/
  exists res, search_repo fuel compile quote (request p) (snd s) = Some (Some res) /\
    rs_matches res = window (q_offset (request p)) (q_limit (request p)) (all_files p r) /\ rs_found res = Z.of_nat (length (all_files p r)).
Proof.
  intros p r s G NL CS NC. set (q := request p) in *.
  assert (QM : q_max q = def).
  { unfold q, request. destruct (read_parameters (form_value p) (map (fun s => (fst s, fst (snd s))) servers) def) as (_ & (_ & M & _) & _).
    apply M. intros z SG. exfalso. assert (X0 : form_value p (text "limit") = []) by (unfold form_value; rewrite NL; reflexivity). change (signed (form_value p (text "limit")) z) in SG. rewrite X0 in SG. destruct SG as (v & [((X & _) & _)|(d & _ & [(X & _)|(X & _)])]); [congruence|discriminate|discriminate]. }
  unfold can_search in CS. fold q in CS. unfold search_repo in *.
  set (pat := GetRegexpPattern (if q_literal q then quote (q_query q) else q_query q) (q_icase q)) in *.
  destruct (compile pat) as [[tq re]|] eqn:CP; [|left; reflexivity].
  destruct (optional_filter compile (q_files q)) as [fre|] eqn:CF; [|left; reflexivity].
  destruct (optional_filter compile (q_exclude q)) as [xre|] eqn:CX; [|left; reflexivity].
  right. destruct (CS tq re fre xre eq_refl eq_refl eq_refl) as (prog & fp & xp & docs & SB).
  destruct (search_pure fuel (request_opts q) prog fp xp (sv_auto (snd s)) (sv_rev (snd s)) _ _ _ _ _ _ _ SB) as (res & E & R & F & _).
  destruct (search_pure fuel (unlimited (o_nctx (request_opts q))) prog fp xp (sv_auto (snd s)) (sv_rev (snd s)) _ _ _ _ _ _ _ SB) as (r0 & E0 & R0 & F0 & _).
  rewrite (entry_nctx fuel (unlimited (o_nctx (request_opts q))) (request_opts q) prog (sv_auto (snd s)) eq_refl) in R0, F0.
  set (fs := map (entry fuel (request_opts q) prog (sv_auto (snd s))) (sel_docs fuel fp xp docs)) in *.
  assert (AF : all_files p r = rs_matches r0).
  { unfold all_files. rewrite G. fold q. unfold search_repo. change (q_literal (everything q)) with (q_literal q). change (q_query (everything q)) with (q_query q).
    change (q_icase (everything q)) with (q_icase q). change (q_files (everything q)) with (q_files q). change (q_exclude (everything q)) with (q_exclude q).
    fold pat. rewrite CP, CF, CX. change (request_opts (everything q)) with (unlimited (o_nctx (request_opts q))). rewrite E0. reflexivity. }
  destruct (pfold_nomax (unlimited (o_nctx (request_opts q))) fs (Z.le_refl 0)) as (A0 & B0 & _). cbn [unlimited o_offset o_limit] in A0. rewrite window_all in A0.
  exists res. split; [exact E|]. unfold not_cut in NC. rewrite AF in *. rewrite R0, A0 in *.
  destruct (Z.leb_spec def 0) as [L|L].
  - destruct (pfold_nomax (request_opts q) fs) as (A & B & _); [cbn [request_opts o_max]; lia|]. rewrite R, F, A, B. auto.
  - destruct NC as [NC|NC]; [lia|]. destruct (pfold_max (request_opts q) fs) as (A & B & _ & _ & _ & C); [cbn [request_opts o_max]; lia|].
    assert (MC : p_mc (fold_left (pstep (request_opts q)) fs p0) < o_max (request_opts q)).
    { rewrite B, A. cbn [request_opts o_max o_offset o_limit]. rewrite QM, firstn_length.
      assert (X : (length (flat (window (q_offset q) (q_limit q) (filter has_hits fs))) <= length (flat (filter has_hits fs)))%nat).
      { assert (FA : forall a b, flat (a ++ b) = flat a ++ flat b) by (intros a b; unfold flat; rewrite map_app, List.concat_app; reflexivity).
        assert (SK : forall n l, (length (flat (skipn n l)) <= length (flat l))%nat)
          by (intros n l; rewrite <- (firstn_skipn n l) at 2; rewrite FA, app_length; lia).
        assert (FI : forall n l, (length (flat (firstn n l)) <= length (flat l))%nat)
          by (intros n l; rewrite <- (firstn_skipn n l) at 2; rewrite FA, app_length; lia).
        unfold window. cbv zeta. destruct (0 <? q_limit q); [eapply Nat.le_trans; [apply FI|]|]; apply SK. }
      lia. }
    destruct (C MC) as (C1 & C2 & _). rewrite R, F, C1, C2. auto.
Qed.

Lemma run_in : forall q repos arr, run_searches fuel compile quote q servers repos = Some arr ->
  forall k x, In (k, x) arr <-> In k repos /\ exists s r, get servers k = Some s /\ search_repo fuel compile quote q (snd s) = Some r /\ x = sent r.
Proof.
  intros q. induction repos as [|n repos IH]; intros arr E k x; cbn [run_searches] in E.
  - injection E as <-. cbn [In]. tauto.
  - destruct (get servers n) as [s|] eqn:G; [|discriminate]. cbn [bind] in E. destruct (search_repo fuel compile quote q (snd s)) as [r|] eqn:S; [|discriminate].
    cbn [bind] in E. destruct (run_searches fuel compile quote q servers repos) as [l|]; [|discriminate]. cbn [bind] in E. injection E as <-.
    cbn [In]. rewrite (IH l eq_refl). split.
    + intros [X|(I & X)]; [|auto]. injection X as <- <-. split; [left; reflexivity|]. exists s, r. auto.
    + intros ([<-|I] & s' & r' & G' & S' & ->); [left; congruence|right]. split; [exact I|]. exists s', r'. auto.
Qed.

(** The searches end. *)
Lemma runs : forall p repos, (forall r, In r repos -> exists s, get servers r = Some s /\ can_search p (snd s)) ->
  run_searches fuel compile quote (request p) servers repos <> None.
Proof.
  intros p. induction repos as [|r repos IH]; intros H; cbn [run_searches]; [discriminate|].
  destruct (H r (or_introl eq_refl)) as (s & G & CS). rewrite G. cbn [bind].
  assert (X : search_repo fuel compile quote (request p) (snd s) <> None).
  { unfold search_repo. unfold can_search in CS. destruct (compile _) as [[tq re]|]; [|discriminate].
    destruct (optional_filter compile (q_files _)) as [fre|]; [|discriminate]. destruct (optional_filter compile (q_exclude _)) as [xre|]; [|discriminate].
    destruct (CS tq re fre xre eq_refl eq_refl eq_refl) as (prog & fp & xp & docs & SB).
    destruct (search_pure fuel (request_opts (request p)) prog fp xp (sv_auto (snd s)) (sv_rev (snd s)) _ _ _ _ _ _ _ SB) as (res & E & _). congruence. }
  destruct (search_repo _ _ _ _ _) as [res|]; [|congruence]. cbn [bind].
  assert (Y : run_searches fuel compile quote (request p) servers repos <> None) by (apply IH; intros r' I; apply H; right; exact I).
  destruct (run_searches _ _ _ _ _ repos); [discriminate|congruence].
Qed.
Lemma asked_known : forall p r, In r (q_repos (request p)) -> exists s, get servers r = Some s.
Proof.
  intros p r I. destruct (read_fields (form_value p) (map (fun s => (fst s, fst (snd s))) servers) def) as (_ & _ & _ & _ & _ & _ & RS).
  apply (RS (trim_space (form_value p (text "repos"))) r (GoStrProofs.trim_space_ok _)) in I. destruct I as (K & _). rewrite map_map in K. apply get_in, K.
Qed.
(** If the texts can be compiled, a reply has results. *)
Lemma replies : forall p rep, sends p rep -> rep <> Broke -> (forall r s, get servers r = Some s -> can_search p (snd s)) ->
  compile (GetRegexpPattern (if q_literal (request p) then quote (q_query (request p)) else q_query (request p)) (q_icase (request p))) <> None ->
  optional_filter compile (q_files (request p)) <> None -> optional_filter compile (q_exclude (request p)) <> None ->
  exists rs st, rep = Results rs st.
Proof.
  intros p rep [E|(arr & arr' & RU & PA & REP)] NB CAN CP CF CX; [congruence|]. pose proof (search_all_ok arr') as SA.
  destruct (searchAll arr') as [[m n]|e]; [eauto|]. exfalso. destruct SA as (k & IK). apply (Permutation_in _ (Permutation_sym PA)) in IK.
  apply (run_in _ _ _ RU) in IK. destruct IK as (_ & s & r & G & S & X). destruct r as [r|]; [discriminate|].
  unfold search_repo in S. unfold can_search in CAN.
  destruct (compile (GetRegexpPattern _ _)) as [[tq re]|]; [|congruence].
  destruct (optional_filter compile (q_files (request p))) as [fre|]; [|congruence].
  destruct (optional_filter compile (q_exclude (request p))) as [xre|]; [|congruence].
  destruct (CAN k s G tq re fre xre eq_refl eq_refl eq_refl) as (prog & fp & xp & docs & SB).
  destruct (search_pure fuel (request_opts (request p)) prog fp xp (sv_auto (snd s)) (sv_rev (snd s)) _ _ _ _ _ _ _ SB) as (res & E & _). congruence.
Qed.

Theorem server_honest_when : forall serve, msg <> [] ->
  (forall p, get_param p (text "limit") = None -> sends p (serve p)) ->
  (forall p r s, get_param p (text "limit") = None -> serve p <> Broke -> get servers r = Some s -> can_search p (snd s) /\ not_cut p r) ->
  honest (fun r => In r (map fst servers)) all_files serve.
Proof.
  intros serve MS SE CAN. split; [intros p p' r; apply files_same|]. intros p NL. destruct (SE p NL) as [->|(arr & arr' & RU & PA & REP)]; [exact I|].
  pose proof (search_all_ok arr') as SA. destruct (searchAll arr') as [[m n]|e] eqn:ESA; [|rewrite REP; exact MS].
  assert (NB : serve p <> Broke) by (rewrite REP; discriminate). rewrite REP. clear REP.
  set (q := request p) in *.
  destruct (read_fields (form_value p) (map (fun s => (fst s, fst (snd s))) servers) def) as (_ & _ & _ & _ & _ & ST & RS).
  destruct (read_parameters (form_value p) (map (fun s => (fst s, fst (snd s))) servers) def) as (_ & _ & PG).
  change (read_search (form_value p) (map (fun s => (fst s, fst (snd s))) servers) def) with q in ST, RS, PG.
  assert (INA : forall k x, In (k, x) arr' <-> In k (q_repos q) /\ exists s r, get servers k = Some s /\ search_repo fuel compile quote q (snd s) = Some r /\ x = sent r).
  { intros k x. rewrite <- (run_in q (q_repos q) arr RU). split; apply Permutation_in; [apply Permutation_sym|]; exact PA. }
  assert (CS : consistent arr').
  { intros k a b Ia Ib. apply INA in Ia, Ib. destruct Ia as (_ & s & r & G & S & ->), Ib as (_ & s' & r' & G' & S' & ->).
    assert (s = s') by congruence. subst s'. congruence. }
  destruct SA as (NOE & _ & GM). specialize (GM CS).
  assert (NM : NoDup (map fst m)) by (eapply (collect_nodup arr' []); [constructor|exact ESA]).
  split; [|split].
  - intros v GV Y. apply ST. unfold form_value. rewrite GV. exact Y.
  - apply answered_nodup, NM.
  - intros v b e GV PV.
    assert (FV : form_value p (text "rng") = v) by (unfold form_value; rewrite GV; reflexivity). change (page (form_value p (text "rng")) (q_offset q) (q_limit q)) in PG. rewrite FV in PG.
    destruct (page_det v _ _ _ _ PV PG) as (-> & ->).
    assert (WT : forall r, wants (fun r => In r (map fst servers)) p r <-> In r (q_repos q)).
    { intros r. rewrite (RS (trim_space (form_value p (text "repos"))) r (GoStrProofs.trim_space_ok _)), map_map. cbn [fst].
      change (fun x : str * (repo * served) => fst x) with (@fst str (repo * served)). unfold wants, form_value. split.
      - intros (K & v0 & w & [G|(G & ->)] & T & W); (split; [exact K|]); rewrite G.
        + rewrite (GoStrProofs.trimmed_unique v0 _ w (GoStrProofs.trim_space_ok v0) T). exact W.
        + rewrite (GoStrProofs.trimmed_unique [] _ w (GoStrProofs.trim_space_ok []) T). exact W.
      - intros (K & W). split; [exact K|]. destruct (get_param p (text "repos")) as [v0|].
        + exists v0, (trim_space v0). split; [left; reflexivity|]. split; [apply GoStrProofs.trim_space_ok|exact W].
        + exists [], (trim_space []). split; [right; auto|]. split; [apply GoStrProofs.trim_space_ok|exact W]. }
    assert (ONE : forall r s res, get servers r = Some s -> search_repo fuel compile quote q (snd s) = Some (Some res) ->
      rs_matches res = window (q_offset q) (q_limit q) (all_files p r) /\ rs_found res = Z.of_nat (length (all_files p r))).
    { intros r s res G S. destruct (CAN p r s NL NB G) as (CN & NC). destruct (one_search p r s G NL CN NC) as [X|(res' & X & Y)]; fold q in X; [congruence|].
      assert (res' = res) by congruence. subst res'. exact Y. }
    split.
    + intros r a IA. apply answered_in in IA. destruct IA as (x & IX & XA). apply (in_get m r x NM) in IX. apply GM in IX. destruct IX as (IX & _).
      apply INA in IX. destruct IX as (IR & s & res & G & S & X). split; [apply WT; exact IR|].
      destruct res as [res|]; cbn [sent] in X; [|discriminate]. injection X as ->. cbn [a_matches] in XA.
      destruct (rs_matches res) as [|f fs] eqn:EM; [discriminate|]. injection XA as <-. destruct (ONE r s res G S) as (A & B).
      split; [exact A|]. split; [congruence|exact B].
    + intros r WR NE. apply WT in WR. pose proof WR as WR'. apply (RS _ r (GoStrProofs.trim_space_ok _)) in WR'. destruct WR' as (KR & _).
      rewrite map_map in KR. cbn [fst] in KR. apply get_in in KR. destruct KR as (s & G).
      assert (IA : exists x, In (r, x) arr' /\ exists res, search_repo fuel compile quote q (snd s) = Some res /\ x = sent res).
      { destruct (CAN p r s NL NB G) as (CN & NC). destruct (one_search p r s G NL CN NC) as [X|(res & X & _)]; fold q in X;
          (eexists; split; [apply INA; split; [exact WR|]; exists s; eexists; split; [exact G|]; split; [exact X|reflexivity]|eauto]). }
      destruct IA as (x & IA & res & S & ->). destruct res as [res|]; [|exfalso; exact (NOE _ _ IA)].
      destruct (ONE r s res G S) as (A & _). cbn [sent] in IA.
      apply in_map_iff. exists (r, res). split; [reflexivity|]. apply answered_in.
      destruct (rs_matches res) as [|f fs] eqn:EM; [congruence|]. eexists. split; [apply get_some_in, GM; split; [exact IA|discriminate]|reflexivity].
Qed.
Theorem server_honest : forall serve, msg <> [] ->
  (forall p, get_param p (text "limit") = None -> sends p (serve p)) ->
  (forall p r s, get_param p (text "limit") = None -> get servers r = Some s -> can_search p (snd s) /\ not_cut p r) ->
  honest (fun r => In r (map fst servers)) all_files serve.
Proof. intros serve MS SE CAN. apply server_honest_when; [exact MS|exact SE|]. intros p r s NL _. apply CAN. exact NL. Qed.
End Serve.
