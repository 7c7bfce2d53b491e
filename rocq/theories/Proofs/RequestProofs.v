(** The request of the command line client, read by the server. *)
From Verif Require Import Model.Base Model.GoStr Model.GoFmt Model.Api Model.Request
  Spec.ApiSpec Proofs.StrLemmas Proofs.FmtProofs Proofs.ApiProofs.
From Coq Require Import Lia.
Local Open Scope N_scope.

Lemma unhex_upper : forall x, x < 16 -> unhex (upperhex x) = Some x.
Proof.
  intros x H. assert (D : In x (map N.of_nat (seq 0 16))).
  { apply in_map_iff. exists (N.to_nat x). split; [lia|]. apply in_seq. lia. }
  cbn in D. repeat (destruct D as [<-|D]; [reflexivity|]). contradiction.
Qed.
Lemma upper_range : forall x, x < 16 -> unreserved (upperhex x) = true.
Proof.
  intros x H. assert (D : In x (map N.of_nat (seq 0 16))).
  { apply in_map_iff. exists (N.to_nat x). split; [lia|]. apply in_seq. lia. }
  cbn in D. repeat (destruct D as [<-|D]; [reflexivity|]). contradiction.
Qed.

(** Every byte of an escaped string is unreserved, '+' or '%'. *)
Definition plainq (c : byte) : Prop := unreserved c = true \/ c = 43 \/ c = 37.
Lemma escape_plain : forall s, Forall (fun c => c < 256) s -> Forall plainq (QueryEscape s).
Proof.
  induction s as [|c s IH]; intros B; [apply Forall_nil|]. unfold QueryEscape. cbn [flat_map].
  apply Forall_app. split; [|exact (IH (Forall_inv_tail B))]. pose proof (Forall_inv B) as L. cbn beta in L.
  unfold escape_byte. destruct (unreserved c) eqn:U; [|destruct (c =? 32)].
  - apply Forall_cons; [left; exact U|apply Forall_nil].
  - apply Forall_cons; [right; left; reflexivity|apply Forall_nil].
  - apply Forall_cons; [right; right; reflexivity|].
    apply Forall_cons; [left; apply upper_range; apply N.div_lt_upper_bound; lia|].
    apply Forall_cons; [left; apply upper_range; apply N.mod_lt; lia|apply Forall_nil].
Qed.
Lemma plainq_not : forall c x, plainq c -> unreserved x = false -> x <> 43 -> x <> 37 -> c <> x.
Proof. intros c x [P|[P|P]] U A B E; subst; congruence. Qed.

Lemma unescape_escape : forall s, Forall (fun c => c < 256) s -> QueryUnescape (QueryEscape s) = Some s.
Proof.
  induction s as [|c s IH]; intros B; [reflexivity|]. specialize (IH (Forall_inv_tail B)).
  pose proof (Forall_inv B) as L. cbn beta in L.
  change (QueryEscape (c :: s)) with (escape_byte c ++ QueryEscape s).
  unfold escape_byte. destruct (unreserved c) eqn:U; [|destruct (N.eqb_spec c 32) as [->|NE]].
  - cbn [app QueryUnescape].
    assert (N37 : (c =? 37) = false) by (apply N.eqb_neq; intros ->; discriminate).
    assert (N43 : (c =? 43) = false) by (apply N.eqb_neq; intros ->; discriminate).
    rewrite N37, N43, IH. reflexivity.
  - cbn [app QueryUnescape N.eqb Pos.eqb]. rewrite IH. reflexivity.
  - cbn [app QueryUnescape N.eqb Pos.eqb].
    rewrite !unhex_upper by (try (apply N.div_lt_upper_bound; lia); apply N.mod_lt; lia).
    rewrite IH. cbn [option_map]. do 2 f_equal. symmetry. apply N.div_mod. lia.
Qed.

Lemma cut_app : forall s c r, ~ In c s -> cut (s ++ c :: r) c = (s, r).
Proof.
  induction s as [|x s IH]; intros c r NI; cbn [app cut].
  - rewrite N.eqb_refl. reflexivity.
  - destruct (N.eqb_spec x c) as [->|NE]; [destruct NI; left; reflexivity|].
    rewrite IH; [reflexivity|]. intros I. apply NI. right. exact I.
Qed.
Lemma cut_none : forall s c, ~ In c s -> cut s c = (s, []).
Proof.
  induction s as [|x s IH]; intros c NI; [reflexivity|]. cbn [cut].
  destruct (N.eqb_spec x c) as [->|NE]; [destruct NI; left; reflexivity|].
  rewrite IH; [reflexivity|]. intros I. apply NI. right. exact I.
Qed.

Lemma escape_not_in : forall s x, Forall (fun c => c < 256) s -> unreserved x = false -> x <> 43 -> x <> 37 ->
  ~ In x (QueryEscape s).
Proof.
  intros s x B U A C I. pose proof (escape_plain s B) as F. rewrite Forall_forall in F.
  exact (plainq_not x x (F x I) U A C eq_refl).
Qed.

Definition pair_text (kv : str * str) : str := QueryEscape (fst kv) ++ 61 :: QueryEscape (snd kv).
Definition bytes_ok (s : str) : Prop := Forall (fun c => c < 256) s.
Definition pair_ok (kv : str * str) : Prop := bytes_ok (fst kv) /\ bytes_ok (snd kv).

Lemma pair_not_in : forall kv x, pair_ok kv -> unreserved x = false -> x <> 43 -> x <> 37 -> x <> 61 -> ~ In x (pair_text kv).
Proof.
  intros [k v] x [K V] U A B C I. unfold pair_text in I. cbn [fst snd] in *. apply in_app_or in I.
  destruct I as [I|[I|I]].
  - exact (escape_not_in _ _ K U A B I).
  - congruence.
  - exact (escape_not_in _ _ V U A B I).
Qed.

Lemma encode_cons : forall kv rest, encode_values (kv :: rest) =
  pair_text kv ++ match rest with [] => [] | _ => 38 :: encode_values rest end.
Proof.
  intros [k v] rest. unfold pair_text. cbn [fst snd]. destruct rest.
  - cbn [encode_values]. rewrite app_nil_r. reflexivity.
  - change (encode_values ((k, v) :: p :: rest)) with (QueryEscape k ++ 61 :: QueryEscape v ++ 38 :: encode_values (p :: rest)).
    rewrite <- app_assoc. reflexivity.
Qed.

Lemma parse_encode : forall vs fuel, Forall pair_ok vs -> (length (encode_values vs) < fuel)%nat ->
  parse_query fuel (encode_values vs) = vs.
Proof.
  induction vs as [|kv vs IH]; intros fuel F L.
  - destruct fuel; reflexivity.
  - destruct fuel as [|fuel]; [lia|]. rewrite encode_cons in *.
    assert (OK := Forall_inv F). assert (NE : pair_text kv <> []).
    { unfold pair_text. intros X. apply app_eq_nil in X. destruct X; discriminate. }
    assert (C : cut (pair_text kv ++ match vs with [] => [] | _ => 38 :: encode_values vs end) 38 =
                (pair_text kv, encode_values vs)).
    { destruct vs as [|kv' vs].
      - rewrite app_nil_r. apply cut_none. apply pair_not_in; [exact OK|reflexivity|discriminate|discriminate|discriminate].
      - apply cut_app. apply pair_not_in; [exact OK|reflexivity|discriminate|discriminate|discriminate]. }
    assert (M : parse_query fuel (encode_values vs) = vs).
    { apply IH; [exact (Forall_inv_tail F)|]. rewrite app_length in L.
      assert (0 < length (pair_text kv))%nat by (destruct (pair_text kv); [congruence|cbn; lia]).
      destruct vs as [|p vs]; [cbn [encode_values length] in *; lia|]. cbn [length] in L. lia. }
    cbn [parse_query]. rewrite C, M.
    destruct (pair_text kv ++ match vs with [] => [] | _ => 38 :: encode_values vs end) eqn:EQ.
    { apply app_eq_nil in EQ. destruct EQ. congruence. }
    clear EQ. assert (SC : existsb (N.eqb 59) (pair_text kv) = false).
    { destruct (existsb (N.eqb 59) (pair_text kv)) eqn:X; [|reflexivity].
      apply existsb_exists in X. destruct X as (y & I & Y). apply N.eqb_eq in Y. subst y.
      exfalso. revert I. apply pair_not_in; [exact OK|reflexivity|discriminate|discriminate|discriminate]. }
    rewrite SC. destruct (pair_text kv) as [|c0 t0] eqn:EP; [congruence|]. rewrite <- EP.
    unfold pair_text. rewrite cut_app; [|apply escape_not_in; [apply OK|reflexivity|discriminate|discriminate]].
    destruct OK as [OK1 OK2]. rewrite (unescape_escape _ OK1), (unescape_escape _ OK2).
    destruct kv. reflexivity.
Qed.

Lemma encode_not_in : forall vs x, Forall pair_ok vs -> unreserved x = false -> x <> 43 -> x <> 37 -> x <> 61 -> x <> 38 ->
  ~ In x (encode_values vs).
Proof.
  induction vs as [|kv vs IH]; intros x F U A B C D I; [exact I|]. rewrite encode_cons in I.
  apply in_app_or in I. destruct I as [I|I].
  - exact (pair_not_in _ _ (Forall_inv F) U A B C I).
  - destruct vs; [exact I|]. destruct I as [I|I]; [congruence|].
    exact (IH x (Forall_inv_tail F) U A B C D I).
Qed.

(** The form the server reads. *)
Definition client_values (pattern repos files : str) (ctx : Z) (ic st : bool) : list (str * str) :=
  [(f_ctx, fmt_d ctx); (f_files, files); (f_i, fmt_t ic); (f_q, pattern); (f_repos, repos); (f_stats, fmt_t st)].

Lemma fmt_d_bytes : forall z, bytes_ok (fmt_d z).
Proof.
  intros z. unfold fmt_d. assert (G : forall n, bytes_ok (fmt_uint n)).
  { intros n. destruct (fmt_uint_ok n) as [(_ & D & _) _]. eapply Forall_impl; [|exact D].
    intros c H. unfold digit in H. lia. }
  destruct (z <? 0)%Z; [apply Forall_cons; [lia|apply G]|apply G].
Qed.

Lemma client_values_ok : forall pattern repos files ctx ic st, bytes_ok pattern -> bytes_ok repos -> bytes_ok files ->
  Forall pair_ok (client_values pattern repos files ctx ic st).
Proof.
  intros pattern repos files ctx ic st P R F. unfold client_values.
  assert (L : forall l : str, forallb (fun c => c <? 256) l = true -> bytes_ok l).
  { intros l H. apply Forall_forall. intros x I. rewrite forallb_forall in H. apply N.ltb_lt. apply H. exact I. }
  assert (T : forall b, bytes_ok (fmt_t b)) by (intros []; apply L; reflexivity).
  repeat (apply Forall_cons; [split; cbn [fst snd]; try (apply L; reflexivity); try assumption; try apply T; apply fmt_d_bytes|]).
  apply Forall_nil.
Qed.

Theorem form_read : forall host pattern repos files ctx ic st,
  ~ In 35 host -> ~ In 63 host -> bytes_ok pattern -> bytes_ok repos -> bytes_ok files ->
  forall key, form_of (search_url host pattern repos files ctx ic st) key =
    form_value (client_values pattern repos files ctx ic st) key.
Proof.
  intros host pattern repos files ctx ic st H1 H2 P R F key.
  pose proof (client_values_ok pattern repos files ctx ic st P R F) as OK.
  assert (RQ : raw_query (search_url host pattern repos files ctx ic st) =
    encode_values (client_values pattern repos files ctx ic st)).
  { assert (EU : search_url host pattern repos files ctx ic st =
      (http_prefix ++ host ++ search_path) ++ 63 :: encode_values (client_values pattern repos files ctx ic st)).
    { unfold search_url, client_values. rewrite <- !app_assoc. reflexivity. }
    assert (NP : forall x, x = 35 \/ x = 63 -> ~ In x (http_prefix ++ host ++ search_path)).
    { intros x X I. apply in_app_or in I. destruct I as [I|I].
      - unfold http_prefix in I. cbn in I. destruct X; subst; intuition discriminate.
      - apply in_app_or in I. destruct I as [I|I]; [destruct X; subst; tauto|].
        unfold search_path in I. cbn in I. destruct X; subst; intuition discriminate. }
    unfold raw_query. rewrite EU, (cut_none _ 35).
    - cbn [fst]. rewrite cut_app; [reflexivity|]. apply NP. right. reflexivity.
    - intros I. apply in_app_or in I. destruct I as [I|[I|I]].
      + exact (NP 35 (or_introl eq_refl) I).
      + discriminate.
      + revert I. apply encode_not_in; [exact OK|reflexivity|discriminate|discriminate|discriminate|discriminate]. }
  unfold form_of. rewrite RQ, parse_encode; [reflexivity|exact OK|lia].
Qed.

(** The request the server carries out. *)
Theorem request_read : forall host pattern repos files ctx ic st idx def,
  ~ In 35 host -> ~ In 63 host -> bytes_ok pattern -> bytes_ok repos -> bytes_ok files ->
  let q := read_search (form_of (search_url host pattern repos files ctx ic st)) idx def in
  q_query q = pattern /\ q_files q = files /\ q_exclude q = [] /\ q_icase q = ic /\ q_literal q = false /\
  q_stats q = st /\ q_offset q = 0%Z /\ q_limit q = 0%Z /\ q_max q = def /\
  (forall w name, trimmed repos w ->
     (In name (q_repos q) <-> In name (map fst idx) /\ (w = [42] \/ element w name))) /\
  ((0 <= ctx < 2 ^ 54)%Z -> q_ctx q = N.min (Z.to_N ctx) 20) /\ ((ctx < 0)%Z -> q_ctx q = 2).
Proof.
  intros host pattern repos files ctx ic st idx def H1 H2 P R F q.
  assert (FR := form_read host pattern repos files ctx ic st H1 H2 P R F).
  unfold q, read_search. rewrite !FR.
  change (form_value (client_values pattern repos files ctx ic st) f_rng) with (@nil N).
  change (form_value (client_values pattern repos files ctx ic st) f_exclude) with (@nil N).
  change (form_value (client_values pattern repos files ctx ic st) f_literal) with (@nil N).
  change (form_value (client_values pattern repos files ctx ic st) f_limit) with (@nil N).
  change (form_value (client_values pattern repos files ctx ic st) f_q) with pattern.
  change (form_value (client_values pattern repos files ctx ic st) f_files) with files.
  change (form_value (client_values pattern repos files ctx ic st) f_repos) with repos.
  change (form_value (client_values pattern repos files ctx ic st) f_stats) with (fmt_t st).
  change (form_value (client_values pattern repos files ctx ic st) f_i) with (fmt_t ic).
  change (form_value (client_values pattern repos files ctx ic st) f_ctx) with (fmt_d ctx).
  change (parseRangeValue []) with (0, 0)%Z. cbv beta iota.
  cbn [q_query q_files q_exclude q_icase q_literal q_stats q_offset q_limit q_max q_repos q_ctx].
  split; [reflexivity|]. split; [reflexivity|]. split; [reflexivity|]. split; [destruct ic; reflexivity|].
  split; [reflexivity|]. split; [destruct st; reflexivity|]. split; [reflexivity|]. split; [reflexivity|].
  split; [reflexivity|]. split; [intros w name T; apply repo_list; exact T|].
  destruct (ctx_ok (fmt_d ctx)) as (_ & C1 & C2). split.
  - intros L. rewrite fmt_d_pos in * by lia. apply C1; [apply fmt_uint_ok|lia].
  - intros L. apply C2. intros v D. exfalso. destruct D as (_ & D & _). unfold fmt_d in D.
    destruct (Z.ltb_spec ctx 0); [|lia]. apply Forall_inv in D. unfold digit in D. lia.
Qed.
