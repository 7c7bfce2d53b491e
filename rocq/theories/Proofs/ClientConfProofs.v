(** The configuration of the client. *)
From Verif Require Import Model.Base Model.GoStr Model.Config Model.Json Model.Wire Model.Request Model.ClientConf
  Spec.Names Spec.JsonGrammar Spec.ClientConfSpec
  Proofs.StrLemmas Proofs.ConfigProofs Proofs.GrammarProofs Proofs.GrammarSound.
From Coq Require Import Permutation.
Local Open Scope N_scope.

(** Names up to case. *)
Lemma any_length : forall s t, any_case s t -> length s = length t.
Proof. intros s t A. induction A; [reflexivity|]. cbn [length]. congruence. Qed.
Lemma lower_name : forall w v, Forall (fun c => ~ upper_case c) w -> (to_lower v = w <-> any_case v w).
Proof.
  unfold upper_case. induction w as [|c w IH]; intros v L; split.
  - intros E. destruct v; [constructor|discriminate].
  - intros A. inversion A. reflexivity.
  - intros E. destruct v as [|x v]; [discriminate|]. cbn [to_lower map] in E. fold (to_lower v) in E.
    assert ((if (65 <=? x) && (x <=? 90) then x + 32 else x) = c) as E1 by congruence.
    assert (to_lower v = w) as E2 by congruence. constructor; [|apply IH; [exact (Forall_inv_tail L)|exact E2]].
    destruct ((65 <=? x) && (x <=? 90)) eqn:B; [|left; exact E1].
    apply andb_prop in B. destruct B as [B1 B2]. apply N.leb_le in B1, B2. right. left. split; [split; assumption|congruence].
  - intros A. inversion A as [|x ? v' ? S R E1 E2]. subst. cbn [to_lower map]. fold (to_lower v').
    rewrite (proj2 (IH v' (Forall_inv_tail L)) R). f_equal. pose proof (Forall_inv L) as Lc. cbv beta in Lc.
    destruct S as [->|[[U ->]|[U ->]]]; [|rewrite (proj2 (N.leb_le _ _) (proj1 U)), (proj2 (N.leb_le _ _) (proj2 U)); reflexivity|exfalso; lia].
    destruct ((65 <=? c) && (c <=? 90)) eqn:B; [|reflexivity].
    apply andb_prop in B. destruct B as [B1 B2]. apply N.leb_le in B1, B2. exfalso. apply Lc. split; assumption.
Qed.
Lemma no_capitals : forall s, forallb (fun c => negb ((65 <=? c) && (c <=? 90))) s = true -> Forall (fun c => ~ upper_case c) s.
Proof.
  intros s F. apply Forall_forall. intros c I [A B]. rewrite forallb_forall in F. specialize (F c I).
  rewrite (proj2 (N.leb_le _ _) A), (proj2 (N.leb_le _ _) B) in F. discriminate.
Qed.
Lemma host_name : forall k, str_eqb (to_lower k) k_host = true <-> any_case k (text "host").
Proof. intros k. rewrite str_eqb_eq. apply (lower_name (text "host")). apply no_capitals. reflexivity. Qed.
Lemma is_host : forall k, same_name k k_host = true <-> any_case k (text "host").
Proof. exact host_name. Qed.
Lemma is_headers : forall k, same_name k k_http_headers = true <-> any_case k (text "http-headers").
Proof. intros k. unfold same_name. rewrite str_eqb_eq. apply (lower_name (text "http-headers")). apply no_capitals. reflexivity. Qed.
Lemma not_host : forall k, same_name k k_host = false <-> ~ any_case k (text "host").
Proof. intros k. rewrite <- is_host. destruct (same_name k k_host); split; congruence. Qed.
Lemma not_headers : forall k, same_name k k_http_headers = false <-> ~ any_case k (text "http-headers").
Proof. intros k. rewrite <- is_headers. destruct (same_name k k_http_headers); split; congruence. Qed.
Lemma headers_not_host : forall k, any_case k (text "http-headers") -> ~ any_case k (text "host").
Proof. intros k A B. apply any_length in A, B. rewrite A in B. discriminate. Qed.

(** Members one after the other. *)
Lemma dec_fields_app : forall {V R} (set : str -> V -> R -> option R) a b r,
  dec_fields set (a ++ b) r = (r' <- dec_fields set a r ;; dec_fields set b r').
Proof.
  intros V R set a b. induction a as [|[k v] a IH]; intros r; [reflexivity|]. cbn [app dec_fields].
  destruct (set k v r) as [r'|]; cbn [bind]; [apply IH|reflexivity].
Qed.
Lemma dec_map_app : forall {V A} (f : V -> option A) a b m, dec_map f (a ++ b) m = (m' <- dec_map f a m ;; dec_map f b m').
Proof.
  intros V A f a b. induction a as [|[k v] a IH]; intros m; [reflexivity|]. cbn [app dec_map].
  destruct (f v) as [x|]; cbn [bind]; [apply IH|reflexivity].
Qed.
Lemma snoc_cases : forall {A} (l l1 l2 : list A) p q, l ++ [p] = l1 ++ q :: l2 ->
  (l2 = [] /\ l = l1 /\ p = q) \/ exists l3, l2 = l3 ++ [p] /\ l = l1 ++ q :: l3.
Proof.
  intros A l l1 l2 p q E. destruct l2 as [|x l2] using rev_ind.
  - left. apply app_inj_tail in E. destruct E; auto.
  - right. clear IHl2. rewrite app_comm_cons, app_assoc in E. apply app_inj_tail in E. destruct E as [E1 ->]. exists l2. auto.
Qed.

Lemma header_dec : forall v x, dec_str v [] = Some x <-> header_value v x.
Proof.
  intros v x. unfold header_value. destruct v; cbn [dec_str]; split; intros E; try (destruct E as [E|[E ?]]); try congruence;
    try (right; split; congruence); try (left; congruence).
Qed.
Lemma object_map : forall o m, Forall (fun p => exists x, header_value (snd p) x) o -> exists m', dec_map (fun v => dec_str v []) o m = Some m'.
Proof.
  induction o as [|[k v] o IH]; intros m F; [eexists; reflexivity|]. cbn [dec_map]. destruct (Forall_inv F) as (x & V). cbn [snd] in V.
  rewrite (proj2 (header_dec _ _) V). cbn [bind]. apply IH. exact (Forall_inv_tail F).
Qed.
Lemma map_object : forall o m m', dec_map (fun v => dec_str v []) o m = Some m' -> Forall (fun p => exists x, header_value (snd p) x) o.
Proof.
  induction o as [|[k v] o IH]; intros m m' D; [constructor|]. cbn [dec_map] in D. destruct (dec_str v []) as [x|] eqn:V; [|discriminate].
  constructor; [exists x; apply header_dec; exact V|]. eapply IH. exact D.
Qed.
Lemma map_value : forall o m m', dec_map (fun v => dec_str v []) o m = Some m' ->
  forall k x, get m' k = Some x <-> last_value o k x \/ (~ In k (map fst o) /\ get m k = Some x).
Proof.
  induction o as [|[k1 v1] o IH] using rev_ind; intros m m' D k x.
  - cbn [dec_map] in D. assert (m' = m) as -> by congruence. split; [intros G; right; split; [intros []|exact G]|].
    intros [(o1 & v & o2 & E & _)|[_ G]]; [destruct o1; discriminate|exact G].
  - rewrite dec_map_app in D. destruct (dec_map _ o m) as [m1|] eqn:D1; [|discriminate]. cbn [bind dec_map] in D.
    destruct (dec_str v1 []) as [x1|] eqn:V; [|discriminate]. cbn [bind] in D. assert (m' = put m1 k1 x1) as -> by congruence. clear D.
    apply (proj1 (header_dec _ _)) in V. rewrite get_put. rewrite map_app. cbn [map fst].
    destruct (str_eqb k k1) eqn:K.
    + apply str_eqb_eq in K. subst k1. split.
      * intros E. left. exists o, v1, []. split; [reflexivity|]. assert (x1 = x) as -> by congruence. split; [exact V|intros []].
      * intros [(o1 & v & o2 & E & H & N)|[N _]].
        -- apply snoc_cases in E. destruct E as [(-> & -> & E)|(o3 & -> & ->)].
           ++ assert (v1 = v) as <- by congruence. apply header_dec in V, H. congruence.
           ++ exfalso. apply N. rewrite map_app. apply in_or_app. right. left. reflexivity.
        -- exfalso. apply N. apply in_or_app. right. left. reflexivity.
    + apply str_eqb_neq in K. rewrite (IH _ _ D1). split.
      * intros [(o1 & v & o2 & -> & H & N)|[N G]].
        -- left. exists o1, v, (o2 ++ [(k1, v1)]). split; [rewrite <- app_assoc; reflexivity|]. split; [exact H|].
           rewrite map_app. intros I. apply in_app_or in I. destruct I as [I|[I|[]]]; [exact (N I)|exact (K (eq_sym I))].
        -- right. split; [|exact G]. intros I. apply in_app_or in I. destruct I as [I|[I|[]]]; [exact (N I)|exact (K (eq_sym I))].
      * intros [(o1 & v & o2 & E & H & N)|[N G]].
        -- apply snoc_cases in E. destruct E as [(-> & -> & E)|(o3 & -> & ->)]; [exfalso; apply K; congruence|].
           left. exists o1, v, o3. split; [reflexivity|]. split; [exact H|]. intros I. apply N. rewrite map_app. apply in_or_app. left. exact I.
        -- right. split; [|exact G]. intros I. apply N. apply in_or_app. left. exact I.
Qed.


Lemma host_snoc : forall start l k v h, (any_case k (text "host") -> v = VNull) -> host_said start l h -> host_said start (l ++ [(k, v)]) h.
Proof.
  intros start l k v h V [(-> & K)|(l1 & n & l2 & -> & A & K)].
  - left. split; [reflexivity|]. apply Forall_app. split; [exact K|]. constructor; [exact V|constructor].
  - right. exists l1, n, (l2 ++ [(k, v)]). split; [rewrite <- app_assoc; reflexivity|]. split; [exact A|].
    apply Forall_app. split; [exact K|]. constructor; [exact V|constructor].
Qed.
(** A member that is not about headers changes none; one that is decides. *)
Lemma header_snoc : forall l n v k x, ~ any_case n (text "http-headers") -> (header_said (l ++ [(n, v)]) k x <-> header_said l k x).
Proof.
  intros l n v k x A. split; intros (l1 & n1 & o & l2 & E & B & L & K).
  - apply snoc_cases in E. destruct E as [(_ & _ & E)|(l3 & -> & ->)]; [exfalso; apply A; congruence|].
    exists l1, n1, o, l3. split; [reflexivity|]. split; [exact B|]. split; [exact L|]. apply Forall_app in K. apply K.
  - subst l. exists l1, n1, o, (l2 ++ [(n, v)]). split; [rewrite <- app_assoc; reflexivity|]. split; [exact B|]. split; [exact L|].
    apply Forall_app. split; [exact K|]. constructor; [intros C; contradiction|constructor].
Qed.
Lemma header_null : forall l n k x, any_case n (text "http-headers") -> ~ header_said (l ++ [(n, VNull)]) k x.
Proof.
  intros l n k x A (l1 & n1 & o & l2 & E & B & L & K). apply snoc_cases in E. destruct E as [(_ & _ & E)|(l3 & -> & ->)]; [congruence|].
  apply Forall_app in K. destruct K as [_ K]. destruct (Forall_inv K A) as (o' & C & _). discriminate.
Qed.
Lemma header_obj : forall l n o k x, any_case n (text "http-headers") ->
  (header_said (l ++ [(n, VObj o)]) k x <-> last_value o k x \/ (~ In k (map fst o) /\ header_said l k x)).
Proof.
  intros l n o k x A. split.
  - intros (l1 & n1 & o1 & l2 & E & B & L & K). apply snoc_cases in E. destruct E as [(-> & -> & E)|(l3 & -> & ->)].
    + left. assert (o1 = o) as <- by congruence. exact L.
    + right. apply Forall_app in K. destruct K as [K1 K2]. destruct (Forall_inv K2 A) as (o' & C & N). cbn [snd] in C.
      assert (o' = o) as -> by congruence. split; [exact N|]. exists l1, n1, o1, l3. auto.
  - intros [L|[N (l1 & n1 & o1 & l2 & -> & B & L & K)]].
    + exists l, n, o, []. split; [reflexivity|]. split; [exact A|]. split; [exact L|constructor].
    + exists l1, n1, o1, (l2 ++ [(n, VObj o)]). split; [rewrite <- app_assoc; reflexivity|]. split; [exact B|]. split; [exact L|].
      apply Forall_app. split; [exact K|]. constructor; [|constructor]. intros _. exists o. auto.
Qed.

Lemma set_describes : forall start l k v c c', describes start l c -> set_cconfig k v c = Some c' -> describes start (l ++ [(k, v)]) c'.
Proof.
  intros start l k v c c' [DH DM] S. unfold set_cconfig in S. destruct (same_name k k_http_headers) eqn:KH.
  - apply is_headers in KH. pose proof (headers_not_host _ KH) as NH. destruct v; try discriminate.
    + assert (c' = mkCC None (cc_host c)) as -> by congruence. split; [apply host_snoc; [contradiction|exact DH]|].
      intros k1 x. split; [discriminate|]. intros C. exfalso. exact (header_null _ _ _ _ KH C).
    + fold (headers_of c) in S. destruct (dec_map _ l0 (headers_of c)) as [m|] eqn:D; [|discriminate]. cbn [bind] in S.
      assert (c' = mkCC (Some m) (cc_host c)) as -> by congruence. split; [apply host_snoc; [contradiction|exact DH]|].
      intros k1 x. cbn [headers_of cc_headers]. rewrite (map_value _ _ _ D), (header_obj _ _ _ _ _ KH), DM. reflexivity.
  - apply not_headers in KH. destruct (same_name k k_host) eqn:K.
    + apply is_host in K. destruct (dec_str v (cc_host c)) as [h|] eqn:D; [|discriminate]. cbn [bind] in S.
      assert (c' = mkCC (cc_headers c) h) as -> by congruence. split.
      * cbn [cc_host]. destruct v; try discriminate; cbn [dec_str] in D; assert (h = h) by reflexivity.
        -- assert (h = cc_host c) as -> by congruence. apply host_snoc; [reflexivity|exact DH].
        -- assert (h = s) as -> by congruence. right. exists l, k, []. split; [reflexivity|]. split; [exact K|constructor].
      * intros k1 x. rewrite (header_snoc _ _ _ _ _ KH). exact (DM k1 x).
    + apply not_host in K. assert (c' = c) as -> by congruence. split; [apply host_snoc; [contradiction|exact DH]|].
      intros k1 x. rewrite (header_snoc _ _ _ _ _ KH). exact (DM k1 x).
Qed.
Lemma fields_describe : forall start l l0 c c', describes start l0 c -> dec_fields set_cconfig l c = Some c' -> describes start (l0 ++ l) c'.
Proof.
  induction l as [|[k v] l IH]; intros l0 c c' D S; cbn [dec_fields] in S.
  - assert (c' = c) as -> by congruence. rewrite app_nil_r. exact D.
  - destruct (set_cconfig k v c) as [c1|] eqn:S1; [|discriminate]. cbn [bind] in S.
    change (l0 ++ (k, v) :: l) with (l0 ++ [(k, v)] ++ l). rewrite app_assoc. eapply IH; [|exact S]. eapply set_describes; eassumption.
Qed.
Lemma start_describes : forall start, describes start [] (mkCC None start).
Proof.
  intros start. split; [left; split; [reflexivity|constructor]|]. intros k x. split; [discriminate|].
  intros (l1 & n & o & l2 & E & _). destruct l1; discriminate.
Qed.

(** Which members are stored. *)
Lemma set_some : forall p c, config_member p -> exists c', set_cconfig (fst p) (snd p) c = Some c'.
Proof.
  intros [k v] c [H1 H2]. cbn [fst snd] in *. unfold set_cconfig. destruct (same_name k k_http_headers) eqn:KH.
  - apply is_headers in KH. destruct (H2 KH) as [->|(o & -> & F)]; [eexists; reflexivity|].
    destruct (object_map o (match cc_headers c with Some m => m | None => [] end) F) as (m & ->). eexists. reflexivity.
  - destruct (same_name k k_host) eqn:K; [|eexists; reflexivity]. apply is_host in K. destruct (H1 K) as [->|(h & ->)]; eexists; reflexivity.
Qed.
Lemma some_set : forall k v c c', set_cconfig k v c = Some c' -> config_member (k, v).
Proof.
  intros k v c c' S. unfold set_cconfig in S. destruct (same_name k k_http_headers) eqn:KH.
  - apply is_headers in KH. split; [intros A; exfalso; exact (headers_not_host _ KH A)|]. intros _. cbn [snd].
    destruct v; try discriminate; [left; reflexivity|]. right. exists l. split; [reflexivity|].
    destruct (dec_map _ l _) as [m|] eqn:D; [|discriminate]. eapply map_object. exact D.
  - apply not_headers in KH. split; [|intros A; contradiction]. cbn [fst snd]. intros A. rewrite (proj2 (is_host k) A) in S.
    destruct v; try discriminate; [left; reflexivity|right; eexists; reflexivity].
Qed.
Lemma fields_some : forall l c, Forall config_member l -> exists c', dec_fields set_cconfig l c = Some c'.
Proof.
  induction l as [|[k v] l IH]; intros c F; [eexists; reflexivity|]. cbn [dec_fields].
  destruct (set_some _ c (Forall_inv F)) as (c1 & E). cbn [fst snd] in E. rewrite E. cbn [bind]. apply IH. exact (Forall_inv_tail F).
Qed.
Lemma some_fields : forall l c c', dec_fields set_cconfig l c = Some c' -> Forall config_member l.
Proof.
  induction l as [|[k v] l IH]; intros c c' D; [constructor|]. cbn [dec_fields] in D.
  destruct (set_cconfig k v c) as [c1|] eqn:S1; [|discriminate]. constructor; [eapply some_set; exact S1|]. eapply IH. exact D.
Qed.

(** One file. *)
Lemma file_loaded : forall f l c c', file_members json_string f l -> dec_fields set_cconfig l c = Some c' ->
  loadConfigFrom f c = Loaded c' \/ (loadConfigFrom f c = NotExist /\ c' = c).
Proof.
  intros f l c c' M D. destruct f as [| |s]; cbn [file_members loadConfigFrom] in *.
  - subst l. right. split; [reflexivity|]. cbn [dec_fields] in D. congruence.
  - destruct M.
  - destruct M as (w & t & rest & v & -> & W & T & V). left.
    rewrite (json_read v t w rest T W) by (intros lit ->; destruct V as [V|[V _]]; discriminate).
    destruct V as [->|[-> ->]]; [rewrite D; reflexivity|]. cbn [dec_fields] in D. congruence.
Qed.
Lemma file_found : forall f c, file_bytes f -> loadConfigFrom f c <> Failed ->
  exists l, file_members lax_string f l /\
    ((loadConfigFrom f c = NotExist /\ l = []) \/ exists c', loadConfigFrom f c = Loaded c' /\ dec_fields set_cconfig l c = Some c').
Proof.
  intros f c B NF. destruct f as [| |s]; cbn [file_members loadConfigFrom file_bytes] in *.
  - exists []. auto.
  - contradiction.
  - destruct (decode_json s) as [[v rest]|] eqn:D; [|contradiction].
    destruct (json_accepted _ _ _ B D) as (w & t & -> & W & T). destruct v; try contradiction.
    + exists []. split; [exists w, t, rest, VNull; auto 7|]. right. exists c. auto.
    + exists l. split; [exists w, t, rest, (VObj l); auto 7|]. right.
      destruct (dec_fields set_cconfig l c) as [c'|]; [|contradiction]. exists c'. auto.
Qed.

Lemma expand_home : forall env, Expand (nth 1 configPaths []) env = env (text "HOME") ++ text "/.hound".
Proof. intros env. reflexivity. Qed.
Lemma expand_etc : forall env, Expand (nth 0 configPaths []) env = text "/etc/hound.conf".
Proof. intros env. reflexivity. Qed.
Lemma load_unfold : forall fs home c, loadConfig fs (Some home) c =
  match loadConfigFrom (fs (text "/etc/hound.conf")) c with
  | Failed => None
  | NotExist => match loadConfigFrom (fs (home ++ text "/.hound")) c with Failed => None | NotExist => Some c | Loaded c => Some c end
  | Loaded c => match loadConfigFrom (fs (home ++ text "/.hound")) c with Failed => None | NotExist => Some c | Loaded c => Some c end
  end.
Proof. reflexivity. Qed.

Lemma start_is : forall d flag, start_host d flag (match flag with Some h => h | None => defaultFlagForHost d end).
Proof.
  intros d [h|]; [left; reflexivity|]. right. split; [reflexivity|]. destruct d; [right; split; reflexivity|left; split; [discriminate|reflexivity]].
Qed.
Lemma start_one : forall d flag h h', start_host d flag h -> start_host d flag h' -> h = h'.
Proof. intros d flag h h' [->|(-> & [[A ->]|[A ->]])] [E|(E & [[B ->]|[B ->]])]; congruence. Qed.

Theorem config_loaded : forall fs home d flag start etc own,
  start_host d flag start ->
  file_members json_string (fs (text "/etc/hound.conf")) etc -> file_members json_string (fs (home ++ text "/.hound")) own ->
  Forall config_member (etc ++ own) ->
  exists c, client_config fs (Some home) d flag = Some c /\ describes start (etc ++ own) c.
Proof.
  intros fs home d flag start etc own ST FE FO M. apply Forall_app in M. destruct M as [ME MO].
  unfold client_config. rewrite (start_one _ _ _ _ (start_is d flag) ST). rewrite load_unfold.
  destruct (fields_some etc (mkCC None start) ME) as (c1 & D1). destruct (fields_some own c1 MO) as (c2 & D2).
  exists c2. split.
  - destruct (file_loaded _ _ _ _ FE D1) as [->|[-> <-]]; destruct (file_loaded _ _ _ _ FO D2) as [->|[-> ->]]; reflexivity.
  - eapply fields_describe; [|exact D2]. change etc with ([] ++ etc). eapply fields_describe; [apply start_describes|exact D1].
Qed.

Theorem config_found : forall fs home d flag start c, start_host d flag start -> (forall p, file_bytes (fs p)) ->
  client_config fs (Some home) d flag = Some c ->
  exists etc own, file_members lax_string (fs (text "/etc/hound.conf")) etc /\ file_members lax_string (fs (home ++ text "/.hound")) own /\
    Forall config_member (etc ++ own) /\ describes start (etc ++ own) c.
Proof.
  intros fs home d flag start c ST B L. unfold client_config in L. rewrite (start_one _ _ _ _ (start_is d flag) ST) in L. rewrite load_unfold in L.
  set (c0 := mkCC None start) in *.
  destruct (file_found (fs (text "/etc/hound.conf")) c0 (B _)) as (etc & FE & RE). { intros F. rewrite F in L. discriminate. }
  assert (E1 : exists c1, dec_fields set_cconfig etc c0 = Some c1 /\
    match loadConfigFrom (fs (home ++ text "/.hound")) c1 with Failed => None | NotExist => Some c1 | Loaded c => Some c end = Some c).
  { destruct RE as [[R ->]|(c' & R & D)]; rewrite R in L; [exists c0; auto|exists c'; auto]. }
  destruct E1 as (c1 & D1 & L1). clear L RE.
  destruct (file_found (fs (home ++ text "/.hound")) c1 (B _)) as (own & FO & RO). { intros F. rewrite F in L1. discriminate. }
  assert (D2 : dec_fields set_cconfig own c1 = Some c).
  { destruct RO as [[R ->]|(c' & R & D)]; rewrite R in L1; [cbn [dec_fields]; congruence|congruence]. }
  exists etc, own. split; [exact FE|]. split; [exact FO|]. split.
  - apply Forall_app. split; eapply some_fields; eassumption.
  - eapply fields_describe; [|exact D2]. change etc with ([] ++ etc). eapply fields_describe; [apply start_describes|exact D1].
Qed.
