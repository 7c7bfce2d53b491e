(** The requests of the client. *)
From Verif Require Import Model.Base Model.GoStr Model.Config Model.Json Model.Wire Model.Request Model.ClientConf
  Spec.Names Spec.ConfigSpec Spec.JsonGrammar Spec.ClientConfSpec
  Proofs.StrLemmas Proofs.ConfigProofs Proofs.ClientConfProofs.
From Coq Require Import Permutation.
Local Open Scope N_scope.

(** Names of headers. *)
Lemma between : forall a b c, (a <=? c) && (c <=? b) = true <-> a <= c <= b.
Proof. intros a b c. rewrite Bool.andb_true_iff, !N.leb_le. reflexivity. Qed.
Lemma token_ok : forall s, forallb token_char s = true <-> token s.
Proof.
  intros s. rewrite forallb_forall. unfold token. rewrite Forall_forall.
  assert (E : forall c, token_char c = true <-> (upper_case c \/ lower_case c \/ 0x30 <= c <= 0x39 \/ In c (text "!#$%&'*+-.^_`|~"))).
  { intros c. unfold token_char, upper_case, lower_case. rewrite !Bool.orb_true_iff, !between.
    assert (X : existsb (N.eqb c) [33; 35; 36; 37; 38; 39; 42; 43; 45; 46; 94; 95; 96; 124; 126] = true <-> In c (text "!#$%&'*+-.^_`|~")).
    { change (text "!#$%&'*+-.^_`|~") with [33; 35; 36; 37; 38; 39; 42; 43; 45; 46; 94; 95; 96; 124; 126]. rewrite existsb_exists. split.
      - intros (x & I & Q). apply N.eqb_eq in Q. subst x. exact I.
      - intros I. exists c. split; [exact I|apply N.eqb_refl]. }
    rewrite X. tauto. }
  split; intros F c I; apply E; apply F; exact I.
Qed.

Fixpoint fits (upper : bool) (n : str) : Prop :=
  match n with
  | [] => True
  | c :: r => (if upper then ~ lower_case c else ~ upper_case c) /\ fits (c =? 45) r
  end.
Definition word_start (a : str) : Prop := a = [] \/ exists a', a = a' ++ text "-".
Lemma word_start_snoc : forall a c, word_start (a ++ [c]) <-> c = 45.
Proof.
  intros a c. split.
  - intros [E|(a' & E)]; [destruct a; discriminate|]. apply app_inj_tail in E. apply E.
  - intros ->. right. exists a. reflexivity.
Qed.
Lemma fits_ok : forall n upper a, (upper = true <-> word_start a) ->
  (fits upper n <-> forall b c d, n = b ++ c :: d -> (word_start (a ++ b) -> ~ lower_case c) /\ (~ word_start (a ++ b) -> ~ upper_case c)).
Proof.
  induction n as [|x n IH]; intros upper a U; cbn [fits].
  - split; [|tauto]. intros _ b c d E. destruct b; discriminate.
  - assert (U' : (x =? 45) = true <-> word_start (a ++ [x])) by (rewrite word_start_snoc; apply N.eqb_eq).
    rewrite (IH _ _ U'). split.
    + intros [F G] b c d E. destruct b as [|y b].
      * cbn [app] in E. assert (c = x) as -> by congruence. rewrite app_nil_r. rewrite <- U.
        destruct upper; split; intros W; try exact F; try discriminate; exfalso; apply W; reflexivity.
      * cbn [app] in E. assert (y = x) as -> by congruence. assert (n = b ++ c :: d) as E' by congruence.
        specialize (G b c d E'). rewrite <- app_assoc in G. exact G.
    + intros F. split.
      * specialize (F [] x n eq_refl). rewrite app_nil_r in F. rewrite <- U in F. destruct upper; [apply F; reflexivity|apply F; discriminate].
      * intros b c d E. rewrite <- app_assoc. apply (F (x :: b) c d). rewrite E. reflexivity.
Qed.
Lemma fits_words : forall n, fits true n <-> capital n /\ small n.
Proof.
  intros n. rewrite (fits_ok n true []) by (split; [intros _; left; reflexivity|reflexivity]). cbn [app]. unfold capital, small, word_start. split.
  - intros F. split; intros a c b E.
    + apply (F a c b E).
    + intros N1 N2. apply (F a c b E). intros [W|W]; contradiction.
  - intros [C S] a c b E. split; [apply (C a c b E)|]. intros W. apply (S a c b E); intros X; apply W; [left|right]; exact X.
Qed.
Lemma same_letter_lower : forall a b, same_letter a b -> ~ lower_case b -> ~ upper_case b -> a = b.
Proof. unfold same_letter, lower_case, upper_case. intros a b [E|[[A B]|[A B]]] L U; [exact E|exfalso; lia|contradiction]. Qed.
Lemma canon_ok : forall k u n, canon u k = n <-> any_case k n /\ fits u n.
Proof.
  unfold any_case. induction k as [|c k IH]; intros u n; cbn [canon].
  - split; [intros <-; split; constructor|]. intros [A _]. inversion A. reflexivity.
  - set (c' := if u && _ then _ else _). split.
    + intros <-. destruct (proj1 (IH (c' =? 45) _) eq_refl) as [A F]. cbn [fits]. split; [|split; [|exact F]].
      * constructor; [|exact A]. unfold c', same_letter. destruct u; cbn [andb negb].
        -- destruct ((97 <=? c) && (c <=? 122)) eqn:B; [|left; reflexivity]. apply between in B. right. right. lia.
        -- destruct ((65 <=? c) && (c <=? 90)) eqn:B; [|left; reflexivity]. apply between in B. right. left. lia.
      * unfold c', lower_case, upper_case. destruct u; cbn [andb negb].
        -- destruct ((97 <=? c) && (c <=? 122)) eqn:B; [apply between in B; lia|]. intros C. apply between in C. congruence.
        -- destruct ((65 <=? c) && (c <=? 90)) eqn:B; [apply between in B; lia|]. intros C. apply between in C. congruence.
    + intros [A F]. inversion A as [|? x ? n' SL A' E1 E2]. subst n. cbn [fits] in F. destruct F as [F1 F2].
      assert (c' = x) as ->; [|f_equal; apply IH; split; assumption].
      unfold c', same_letter, lower_case, upper_case in *. destruct u; cbn [andb negb].
      * destruct ((97 <=? c) && (c <=? 122)) eqn:B; [apply between in B; lia|].
        assert (~ (97 <= c <= 122)) by (intros X; apply between in X; congruence). lia.
      * destruct ((65 <=? c) && (c <=? 90)) eqn:B; [apply between in B; lia|].
        assert (~ (65 <= c <= 90)) by (intros X; apply between in X; congruence). lia.
Qed.
Lemma sent_ok : forall k n, CanonicalHeaderKey k = n <-> sent_name k n.
Proof.
  intros k n. unfold CanonicalHeaderKey, sent_name. destruct (forallb token_char k) eqn:T.
  - apply token_ok in T. rewrite canon_ok, fits_words. tauto.
  - assert (~ token k) by (rewrite <- token_ok; congruence). split; [intros E; right; split; [assumption|congruence]|].
    intros [(T' & _)|[_ E]]; [contradiction|congruence].
Qed.

(** The loop over the headers. *)
Definition listed (l : list (str * str)) (k x : str) : Prop := In (k, x) l.
Lemma carries_all : forall l uri, NoDup (map fst l) -> no_clash (listed l) -> carries (listed l) (doHttpGet l uri) /\ rq_uri (doHttpGet l uri) = uri.
Proof.
  intros l uri. induction l as [|[k x] l IH] using rev_ind; intros ND NC.
  - split; [|reflexivity]. split; [intros n xs|intros x]; cbn [doHttpGet fold_left rq_header rq_host get]; split; try discriminate;
      [intros (k & x & [] & _)|intros (k & [] & _)].
  - assert (NDl : NoDup (map fst l)). { rewrite map_app in ND. apply NoDup_remove_1 in ND. rewrite app_nil_r in ND. exact ND. }
    assert (NKl : ~ In k (map fst l)). { rewrite map_app in ND. apply NoDup_remove_2 in ND. rewrite app_nil_r in ND. exact ND. }
    destruct IH as [[CH CX] CU]; [exact NDl|intros k1 x1 k2 x2 I1 I2; apply (NC k1 x1 k2 x2); apply in_or_app; left; assumption|].
    unfold doHttpGet in *. rewrite fold_left_app. cbn [fold_left fst snd]. set (q := fold_left _ l _) in *. clearbody q.
    destruct (str_eqb (to_lower k) k_host) eqn:K.
    + apply host_name in K. split; [|exact CU]. split; cbn [rq_header rq_host].
      * intros n xs. rewrite CH. split; intros (k1 & x1 & I & NH & R); exists k1, x1; (split; [|split; assumption]).
        -- apply in_or_app. left. exact I.
        -- apply in_app_or in I. destruct I as [I|[I|[]]]; [exact I|]. exfalso. apply NH. congruence.
      * intros x1. split.
        -- intros E. assert (x1 = x) as -> by congruence. exists k. split; [|exact K]. apply in_or_app. right. left. reflexivity.
        -- intros (k1 & I & A). apply in_app_or in I. destruct I as [I|[I|[]]]; [|congruence]. exfalso. apply NKl.
           assert (k1 = k) as <-; [|apply in_map_iff; exists (k1, x1); auto].
           apply (NC k1 x1 k x); [apply in_or_app; left; exact I|apply in_or_app; right; left; reflexivity|right; auto].
    + assert (NH : ~ any_case k (text "host")) by (rewrite <- host_name; congruence). split; [|exact CU]. split; cbn [rq_header rq_host].
      * intros n xs. rewrite get_put. destruct (str_eqb n (CanonicalHeaderKey k)) eqn:Q.
        -- apply str_eqb_eq in Q. symmetry in Q. pose proof (proj1 (sent_ok _ _) Q) as SN. split.
           ++ intros E. exists k, x. split; [apply in_or_app; right; left; reflexivity|]. split; [exact NH|]. split; [exact SN|congruence].
           ++ intros (k1 & x1 & I & NH1 & S1 & ->). apply in_app_or in I. destruct I as [I|[I|[]]]; [|congruence]. exfalso. apply NKl.
              assert (k1 = k) as <-; [|apply in_map_iff; exists (k1, x1); auto].
              apply (NC k1 x1 k x); [apply in_or_app; left; exact I|apply in_or_app; right; left; reflexivity|left; exists n; auto].
        -- apply str_eqb_neq in Q. rewrite CH. split; intros (k1 & x1 & I & NH1 & S1 & E); exists k1, x1; (split; [|split; [exact NH1|split; assumption]]).
           ++ apply in_or_app. left. exact I.
           ++ apply in_app_or in I. destruct I as [I|[I|[]]]; [exact I|]. exfalso. apply Q. apply sent_ok in S1. congruence.
      * intros x1. rewrite CX. split; intros (k1 & I & A); exists k1; (split; [|exact A]).
        -- apply in_or_app. left. exact I.
        -- apply in_app_or in I. destruct I as [I|[I|[]]]; [exact I|]. exfalso. apply NH. congruence.
Qed.

(** A map holds a key once. *)
Lemma put_once : forall {A} (m : list (str * A)) k v, NoDup (keys m) -> NoDup (keys (put m k v)).
Proof.
  intros A m k v N. destruct (get m k) as [x|] eqn:G; [|apply put_nodup; assumption].
  replace (keys (put m k v)) with (keys m); [exact N|]. clear N. induction m as [|[k1 v1] m IH]; [discriminate|]. cbn [get put] in *.
  destruct (str_eqb k k1); [reflexivity|]. unfold keys in *. cbn [map fst]. f_equal. apply IH. exact G.
Qed.
Lemma dec_map_once : forall {A} (f : jv -> option A) l m m', NoDup (keys m) -> dec_map f l m = Some m' -> NoDup (keys m').
Proof.
  intros A f l. induction l as [|[k v] l IH]; intros m m' N D; cbn [dec_map] in D; [congruence|].
  destruct (f v) as [x|]; [|discriminate]. cbn [bind] in D. eapply IH; [|exact D]. apply put_once. exact N.
Qed.
Lemma set_once : forall k v c c', NoDup (keys (headers_of c)) -> set_cconfig k v c = Some c' -> NoDup (keys (headers_of c')).
Proof.
  intros k v c c' N S. unfold set_cconfig in S. destruct (same_name k k_http_headers).
  - destruct v; try discriminate.
    + assert (c' = mkCC None (cc_host c)) as -> by congruence. constructor.
    + fold (headers_of c) in S. destruct (dec_map _ l (headers_of c)) as [m|] eqn:D; [|discriminate]. cbn [bind] in S.
      assert (c' = mkCC (Some m) (cc_host c)) as -> by congruence. exact (dec_map_once _ _ _ _ N D).
  - destruct (same_name k k_host); [|congruence]. destruct (dec_str v (cc_host c)) as [s|]; [|discriminate]. cbn [bind] in S.
    assert (c' = mkCC (cc_headers c) s) as -> by congruence. exact N.
Qed.
Lemma fields_once : forall l c c', NoDup (keys (headers_of c)) -> dec_fields set_cconfig l c = Some c' -> NoDup (keys (headers_of c')).
Proof.
  induction l as [|[k v] l IH]; intros c c' N D; cbn [dec_fields] in D; [congruence|].
  destruct (set_cconfig k v c) as [c1|] eqn:S; [|discriminate]. cbn [bind] in D. eapply IH; [|exact D]. eapply set_once; eassumption.
Qed.
Lemma from_once : forall f c c', NoDup (keys (headers_of c)) -> loadConfigFrom f c = Loaded c' -> NoDup (keys (headers_of c')).
Proof.
  intros f c c' N L. destruct f as [| |s]; cbn [loadConfigFrom] in L; try discriminate.
  destruct (decode_json s) as [[[] ?]|]; try discriminate; [congruence|].
  destruct (dec_fields set_cconfig l c) as [c1|] eqn:D; [|discriminate]. assert (c1 = c') as -> by congruence. eapply fields_once; eassumption.
Qed.
Lemma config_once : forall fs home d flag c, client_config fs home d flag = Some c -> NoDup (keys (headers_of c)).
Proof.
  intros fs home d flag c L. unfold client_config in L. destruct home as [home|]; [|discriminate]. rewrite load_unfold in L.
  set (c0 := mkCC None _) in L. assert (N0 : NoDup (keys (headers_of c0))) by constructor. clearbody c0.
  assert (TAIL : forall c1, NoDup (keys (headers_of c1)) ->
    match loadConfigFrom (fs (home ++ text "/.hound")) c1 with Failed => None | NotExist => Some c1 | Loaded c => Some c end = Some c ->
    NoDup (keys (headers_of c))).
  { intros c1 N1 R. destruct (loadConfigFrom (fs (home ++ text "/.hound")) c1) as [| |c2] eqn:R2; [congruence|discriminate|].
    assert (c2 = c) as <- by congruence. eapply from_once; eassumption. }
  destruct (loadConfigFrom (fs (text "/etc/hound.conf")) c0) as [| |c1] eqn:R1; [exact (TAIL _ N0 L)|discriminate|].
  apply (TAIL c1); [eapply from_once; eassumption|exact L].
Qed.
Lemma get_in : forall {A} (m : list (str * A)) k x, NoDup (keys m) -> (get m k = Some x <-> In (k, x) m).
Proof.
  intros A m k x N. induction m as [|[k1 v1] m IH]; cbn [get In]; [split; [discriminate|intros []]|]. inversion N as [|? ? NI N']; subst.
  destruct (str_eqb k k1) eqn:K.
  - apply str_eqb_eq in K. subst k1. split; [intros E; left; congruence|]. intros [E|I]; [congruence|]. exfalso. apply NI.
    apply in_map_iff. exists (k, x). auto.
  - apply str_eqb_neq in K. rewrite (IH N'). split; [auto|]. intros [E|I]; [exfalso; apply K; congruence|exact I].
Qed.
Lemma carries_iff : forall (h h' : str -> str -> Prop) q, (forall k x, h k x <-> h' k x) -> carries h q -> carries h' q.
Proof.
  intros h h' q E [C1 C2]. split.
  - intros n xs. rewrite C1. split; intros (k & x & H & R); exists k, x; (split; [apply E; exact H|exact R]).
  - intros x. rewrite C2. split; intros (k & H & R); exists k; (split; [apply E; exact H|exact R]).
Qed.

Theorem requests : forall fs home d flag start l c order uri,
  client_config fs home d flag = Some c -> describes start l c -> Permutation order (headers_of c) -> no_clash (header_said l) ->
  carries (header_said l) (doHttpGet order uri) /\ rq_uri (doHttpGet order uri) = uri.
Proof.
  intros fs home d flag start l c order uri C [_ D] P NC. pose proof (config_once _ _ _ _ _ C) as N.
  assert (E : forall k x, listed order k x <-> header_said l k x).
  { intros k x. rewrite <- D, (get_in _ _ _ N). unfold listed. split; apply Permutation_in; [exact P|apply Permutation_sym; exact P]. }
  destruct (carries_all order uri) as [CA U].
  - eapply Permutation_NoDup; [|exact N]. unfold keys. apply Permutation_map, Permutation_sym. exact P.
  - intros k x k' x' H H'. apply (NC k x k' x'); apply E; assumption.
  - split; [exact (carries_iff _ _ _ E CA)|exact U].
Qed.
Lemma get_uri : forall order uri, rq_uri (doHttpGet order uri) = uri.
Proof.
  intros order uri. unfold doHttpGet. change uri with (rq_uri (mkReq uri None [])) at 2. generalize (mkReq uri None []).
  induction order as [|p order IH]; intros q; cbn [fold_left]; [reflexivity|]. rewrite IH. destruct (str_eqb _ _); reflexivity.
Qed.
