(** Loading a configuration file. *)
From Verif Require Import Model.Base Model.GoStr Model.JsonText Model.Json Model.Config Model.ConfigCodec Model.Wire Model.ConfigFile
  Spec.Names Spec.ApiSpec Spec.JsonValueSpec Spec.JsonGrammar Spec.ConfigSpec Spec.FileSpec
  Proofs.StrLemmas Proofs.ConfigProofs Proofs.GrammarProofs Proofs.GrammarSound Proofs.ConfigCodecProofs Proofs.SpansProofs Proofs.FileProofs.
Local Open Scope N_scope.

Lemma each_repo_none : forall f l, each_repo f l = None -> (exists n, In (n, None) l) \/ exists n r, In (n, Some r) l /\ f r = None.
Proof.
  intros f. induction l as [|[n [r|]] l IH]; intros E; cbn [each_repo bind] in E; [discriminate| |left; exists n; left; reflexivity].
  destruct (f r) as [[r'|]|] eqn:F; cbn [bind] in E; [|discriminate|right; exists n, r; split; [left; reflexivity|exact F]].
  destruct (each_repo f l) as [m|] eqn:E1; [discriminate|]. destruct (IH eq_refl) as [(k & I)|(k & q & I & F')].
  - left. exists k. right. exact I.
  - right. exists k, q. split; [right; exact I|exact F'].
Qed.
Lemma each_repo_in : forall f l l' n r', each_repo f l = Some (Some l') -> In (n, r') l' -> exists r x, In (n, Some r) l /\ f r = Some (Some x) /\ r' = Some x.
Proof.
  intros f. induction l as [|[k [r|]] l IH]; intros l' n r' E I; cbn [each_repo bind] in E; [|destruct (f r) as [[x|]|] eqn:F; cbn [bind] in E; try discriminate|discriminate].
  - assert (l' = []) as -> by congruence. destruct I.
  - destruct (each_repo f l) as [[m|]|] eqn:E1; cbn [bind] in E; try discriminate. assert (l' = (k, Some x) :: m) as -> by congruence.
    destruct I as [I|I].
    + exists r, x. assert (k = n /\ r' = Some x) as [-> ->] by (split; congruence). split; [left; reflexivity|]. split; [exact F|reflexivity].
    + destruct (IH _ _ _ eq_refl I) as (q & y & I' & R). exists q, y. split; [right; exact I'|exact R].
Qed.
Lemma global_none : forall un l, global_vals un l = None -> exists n, In (n, None) l.
Proof.
  intros un. induction l as [|[n [b|]] l IH]; intros E; cbn [global_vals bind] in E; [discriminate| |exists n; left; reflexivity].
  destruct (un b); [|discriminate]. destruct (global_vals un l) as [m|]; [discriminate|]. destruct (IH eq_refl) as (k & I). exists k. right. exact I.
Qed.
Lemma fill_none : forall g vals, fill_missing vals g = None -> vals = None.
Proof.
  induction g as [|[k v] g IH]; intros vals E; cbn [fill_missing] in E; [discriminate|]. destruct vals as [m|]; [|reflexivity].
  destruct (get m k); apply IH in E; discriminate.
Qed.

(** A crash has one of three causes. *)
Lemma finish_none : forall un ma abs c, finish_load un ma abs c = None ->
  (exists n, In (n, None) (c_repos c)) \/ (exists n, In (n, None) (c_vcs c)) \/
  exists n r b, In (n, Some r) (c_repos c) /\ r_vcsconf r = Some b /\ un b = Some None.
Proof.
  intros un ma abs c E. unfold finish_load in E. destruct (if is_abs (c_dbpath c) then Some (c_dbpath c) else abs (c_dbpath c)) as [db|]; [|discriminate].
  destruct (each_repo (fun r => Some (Some (init_repo r))) (c_repos c)) as [[rs|]|] eqn:ER; cbn [bind] in E; [|discriminate|].
  - right. unfold initConfig, mergeVCSConfigs in E. cbn [c_vcs c_repos] in E.
    destruct (c_vcs c) as [|e g] eqn:CV; [discriminate|]. destruct (global_vals un (e :: g)) as [[gv|]|] eqn:GV; cbn [bind] in E; [|discriminate|].
    + right. destruct (each_repo (merge_repo un ma gv) rs) as [x|] eqn:EM; [discriminate|]. destruct (each_repo_none _ _ EM) as [(n & I)|(n & r & I & F)].
      * destruct (each_repo_in _ _ _ _ _ ER I) as (r & x & _ & _ & X). discriminate.
      * destruct (each_repo_in _ _ _ _ _ ER I) as (q & x & I' & F' & X). assert (r = init_repo q) as -> by congruence.
        unfold merge_repo in F. destruct (get gv (r_vcs (init_repo q))) as [gl|]; [|discriminate].
        destruct (VcsConfig (init_repo q)) as [|b0 b] eqn:VC.
        -- destruct (fill_missing (Some []) _) eqn:FM; [discriminate|]. apply fill_none in FM. discriminate.
        -- destruct (un (b0 :: b)) as [vals|] eqn:U; [|discriminate]. destruct (fill_missing vals _) eqn:FM; [discriminate|]. apply fill_none in FM. subst vals.
           exists n, q, (b0 :: b). split; [exact I'|]. split; [|exact U]. unfold VcsConfig, init_repo in VC. cbn [r_vcsconf] in VC.
           destruct (r_vcsconf q); [congruence|discriminate].
    + left. exact (global_none _ _ GV).
  - left. destruct (each_repo_none _ _ ER) as [H|(n & r & _ & F)]; [exact H|discriminate].
Qed.

Section Null.
  Variable parse_float : str -> option N.
  Variable quoted : str -> str -> Prop.
  Hypothesis READ : forall s lit rest, quoted s lit -> read_literal (lit ++ rest) = Some (s, rest).
  (** The text of a value decodes to that value. *)
  Lemma whole_text : forall v s, text_of quoted v s -> whole s = Some v.
  Proof.
    intros v s T. unfold whole, decode_json.
    pose proof (proj1 (quoted_texts_read quoted READ) v s T [] (S (length s)) [] (Forall_nil _)) as P. cbn [app length] in P. rewrite app_nil_r in P.
    rewrite P; [reflexivity|lia|intros lit _; exact I].
  Qed.
  Lemma own_not_null : forall o r b, Forall (well quoted) o -> repo_said quoted o r -> r_vcsconf r = Some b -> unmarshal_map parse_float b <> Some None.
  Proof.
    intros o r b W (_ & _ & _ & _ & V & _) E U. rewrite E in V. destruct V as [(D & _)|(l1 & k & v & l2 & -> & _ & _ & [(_ & D)|(NN & a & EA & ->)])]; try discriminate.
    assert (b = snd v) as -> by congruence. apply Forall_app in W. destruct W as [_ W]. apply Forall_inv in W. unfold well in W. cbn [snd] in W.
    unfold unmarshal_map in U. rewrite (whole_text _ _ W) in U. cbn [bind] in U. destruct (fst v); try discriminate; [congruence|].
    destruct (to_value parse_float (VObj l)) as [j|]; [|discriminate]. cbn [bind] in U. destruct j; discriminate.
  Qed.
  Lemma entry_null : forall {A} (is : jv * str -> option A -> Prop) name l m n, (forall x, is x None -> fst x = VNull) ->
    entries quoted is name l m -> In (n, None) m -> null_entry quoted name l.
  Proof.
    intros A is name l m n NU (g & G & K & _ & P) I. cbv zeta in *. assert (IN : In n (map fst m)) by (apply in_map_iff; exists (n, None); auto).
    apply K in IN. destruct g as [o|]; [|destruct IN]. destruct (P _ _ I) as (l1 & [v s] & l2 & E & NI & H).
    exists o, n. split; [exact G|]. exists l1, s, l2. apply NU in H. cbn [fst] in H. subst v. auto.
  Qed.
  Theorem crash_cause : forall file l c ma abs, file_says quoted file l -> decode_file file = Some c ->
    finish_load (unmarshal_map parse_float) ma abs c = None ->
    null_entry quoted (text "repos") l \/ null_entry quoted (text "vcs-config") l.
  Proof.
    intros file l c ma abs F D E. destruct (file_refused quoted READ _ _ _ F D) as [_ S]. pose proof (file_well quoted _ _ F) as WL.
    destruct S as (_ & _ & RE & _ & _ & VE & _). destruct (finish_none _ _ _ _ E) as [(n & I)|[(n & I)|(n & r & b & I & C & U)]].
    - left. eapply entry_null; [|exact RE|exact I]. intros x [[N _]|(o' & o & r & _ & _ & X & _)]; [exact N|discriminate].
    - right. eapply entry_null; [|exact VE|exact I]. intros x [[N _]|[_ X]]; [exact N|discriminate].
    - exfalso. destruct RE as (g & G & _ & _ & P). cbv zeta in *. destruct (P _ _ I) as (l1 & x & l2 & _ & _ & [[_ X]|(o' & o & r' & _ & O & X & RS)]); [discriminate|].
      assert (r' = r) as -> by congruence. exact (own_not_null _ _ _ (object_well quoted _ _ O) RS C U).
  Qed.
End Null.

Theorem load_crash : forall parse_float format_float short abs file, Forall is_byte file ->
  LoadFromFile parse_float format_float short abs file = None ->
  exists l, file_says lax_string file l /\ Forall (config_typed lax_string) l /\
    (null_entry lax_string (text "repos") l \/ null_entry lax_string (text "vcs-config") l).
Proof.
  intros pf ff short abs file B E. unfold LoadFromFile in E. destruct (decode_file file) as [c|] eqn:D; [|discriminate].
  destruct (file_found _ _ B D) as (l & F). destruct (file_refused readable readable_read _ _ _ F D) as [T _].
  assert (SUB : forall s lit, readable s lit -> lax_string s lit) by (intros s lit R; apply R).
  exists l. split; [exact (says_mono _ _ SUB _ _ F)|]. split; [eapply Forall_impl; [exact (config_typed_mono _ _ SUB)|exact T]|].
  destruct (crash_cause pf readable readable_read _ _ _ _ _ F D E) as [(o & n & G & N)|(o & n & G & N)]; [left|right];
    exists o, n; (split; [exact (gathered_mono _ _ SUB _ _ _ G)|exact N]).
Qed.

(** What a loaded file gives. *)
Theorem load_file_said : forall parse_float format_float short abs file c', floats_ok parse_float format_float -> Forall is_byte file ->
  LoadFromFile parse_float format_float short abs file = Some (Some c') ->
  exists l c, file_says lax_string file l /\ Forall (config_typed lax_string) l /\ config_said lax_string l c /\ config_filled abs c c'.
Proof.
  intros pf ff short abs file c' FO B E. unfold LoadFromFile in E. destruct (decode_file file) as [c|] eqn:D; [|discriminate].
  destruct (file_refuses _ _ B D) as (l & F & T & S). exists l, c. split; [exact F|]. split; [exact T|]. split; [exact S|].
  exact (load_defaults _ _ _ (json_codec_ok pf ff FO short) _ _ E).
Qed.
