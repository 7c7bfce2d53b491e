(** The trigrams of the query of an expression are strings of bytes. *)
From Verif Require Import Model.Base Model.Query Model.Utf8 Model.Syntax Model.Analyze
  Spec.QuerySpec Proofs.StrLemmas Proofs.QueryProofs Proofs.StoreProofs Proofs.AnalyzePure Proofs.AnalyzeSim Proofs.LookupProofs.
Local Open Scope nat_scope.

Definition bstr (s : str) : Prop := Forall is_byte s.
Definition bset (l : list str) : Prop := forall s, In s l -> bstr s.

Lemma bq_iff : forall o t s, bytes_query (Query o t s) <-> bset t /\ Forall bytes_query s.
Proof.
  intros o t s. cbn [bytes_query]. split; intros [A B]; (split; [exact A|]); clear A.
  - induction s as [|x s IH]; cbn [fold_right] in B; constructor; [apply B|apply IH, B].
  - induction B; cbn [fold_right]; auto.
Qed.
Lemma bq_tri : forall q, bytes_query q -> bset (q_tri q).
Proof. intros [o t s] H. apply bq_iff in H. apply H. Qed.
Lemma bq_sub : forall q, bytes_query q -> Forall bytes_query (q_sub q).
Proof. intros [o t s] H. apply bq_iff in H. apply H. Qed.
Lemma bset_union : forall b x y, bset x -> bset y -> bset (union_list b x y).
Proof. intros b x y X Y s I. apply (proj1 (union_in _ _ _ _)) in I. destruct I; auto. Qed.
Lemma bset_clean : forall b x, bset x -> bset (clean_list b x).
Proof. intros b x X s I. apply (proj1 (clean_in _ _ _)) in I. auto. Qed.
Lemma bset_app : forall x y, bset x -> bset y -> bset (x ++ y).
Proof. intros x y X Y s I. apply in_app_or in I. destruct I; auto. Qed.
Lemma bset_map : forall f x, (forall s, bstr s -> bstr (f s)) -> bset x -> bset (map f x).
Proof. intros f x F X s I. apply in_map_iff in I. destruct I as (y & <- & I). auto. Qed.
Lemma bset_nil : bset [].
Proof. intros s []. Qed.

Lemma bq_unwrap : forall q, bytes_query q -> bytes_query (unwrap q).
Proof.
  intros [o [|] [|s [|]]] H; cbn [unwrap]; try exact H. apply bq_iff in H. destruct H as (_ & H). apply Forall_inv in H. exact H.
Qed.

Lemma and_or_f_bytes : forall fuel q r op out, bytes_query q -> bytes_query r -> and_or_f fuel q r op = Some out -> bytes_query out.
Proof.
  induction fuel as [|fuel IH]; intros q0 r0 op out Q R E; [discriminate|]. cbn [and_or_f] in E.
  apply bq_unwrap in Q. apply bq_unwrap in R. set (q := unwrap q0) in *. set (r := unwrap r0) in *. clearbody q r. clear q0 r0.
  pose proof (bq_tri q Q) as QT. pose proof (bq_tri r R) as RT. pose proof (bq_sub q Q) as QS. pose proof (bq_sub r R) as RS.
  destruct (implies q r); [injection E as <-; destruct (qop_eqb op QAnd); assumption|].
  destruct (implies r q); [injection E as <-; destruct (qop_eqb op QAnd); assumption|].
  destruct (_ && (_ || _))%bool; [injection E as <-; apply bq_iff; split; [apply bset_union; assumption|apply Forall_app; auto]|].
  destruct (is_op r op && _)%bool; [injection E as <-; apply bq_iff; split; [apply bset_union; assumption|assumption]|].
  destruct (q_atom q && _)%bool; [injection E as <-; apply bq_iff; split; [apply bset_app; assumption|assumption]|].
  destruct (is_op q op); [injection E as <-; apply bq_iff; split; [assumption|apply Forall_app; auto]|].
  destruct (is_op r op); [injection E as <-; apply bq_iff; split; [assumption|apply Forall_app; auto]|].
  destruct (factor_common (q_tri q) (q_tri r)) as [[c a] b] eqn:EF.
  destruct (factor_common_spec _ _ _ _ _ EF) as (HA & HB & _ & _).
  assert (bset a) as BA by (intros s I; apply QT, HA; auto).
  assert (bset b) as BB by (intros s I; apply RT, HB; auto).
  assert (bset c) as BC by (intros s I; apply QT, HA; auto).
  assert (bytes_query (Query (q_op q) a (q_sub q))) as B1 by (apply bq_iff; auto).
  assert (bytes_query (Query (q_op r) b (q_sub r))) as B2 by (apply bq_iff; auto).
  destruct c as [|c cs].
  - injection E as <-. apply bq_iff. split; [apply bset_nil|]. apply Forall_cons; [exact B1|]. apply Forall_cons; [exact B2|constructor].
  - destruct (and_or_f fuel (Query (q_op q) a (q_sub q)) (Query (q_op r) b (q_sub r)) op) as [s|] eqn:ES; [|discriminate].
    cbn [bind] in E. apply IH in E; [exact E| |eapply IH; [| |exact ES]; assumption].
    apply bq_iff. split; [exact BC|constructor].
Qed.
Lemma and_or_bytes : forall q r op, bytes_query q -> bytes_query r -> bytes_query (and_or q r op).
Proof. intros q r op Q R. eapply and_or_f_bytes; [exact Q|exact R|apply and_or_some]. Qed.

Lemma trigrams_bytes : forall s, bstr s -> bset (trigrams_of s).
Proof.
  induction s as [|a s IH]; intros B t I; [destruct I|]. cbn [trigrams_of] in I. apply Forall_cons_iff in B. destruct B as (A & B).
  destruct s as [|b [|c s]]; try contradiction. destruct I as [<-|I]; [|apply (IH B t I)].
  apply Forall_cons_iff in B. destruct B as (B & C). apply Forall_cons_iff in C. destruct C as (C & _). repeat constructor; assumption.
Qed.
Lemma and_trigrams_bytes : forall q t, bytes_query q -> bset t -> bytes_query (and_trigrams q t).
Proof.
  intros q t Q T. unfold and_trigrams. destruct (Nat.ltb _ _); [exact Q|]. apply and_or_bytes; [exact Q|].
  assert (forall l or, bset l -> bytes_query or ->
     bytes_query (fold_left (fun or tt => and_or or (Query QAnd (clean_list false (trigrams_of tt)) []) QOr) l or)) as G.
  { induction l as [|w l IH]; intros or L O; [exact O|]. cbn [fold_left]. apply IH; [intros s I; apply L; right; exact I|].
    apply and_or_bytes; [exact O|]. apply bq_iff. split; [|constructor]. apply bset_clean, trigrams_bytes, L. left. reflexivity. }
  apply G; [exact T|]. cbn. split; [intros ? []|exact I].
Qed.

Definition pbytes (p : pinfo) : Prop := bset (pel (p_exact p)) /\ bset (p_prefix p) /\ bset (p_suffix p) /\ bytes_query (p_match p).

Lemma bstr_firstn : forall n s, bstr s -> bstr (firstn n s).
Proof. intros n s H. unfold bstr in *. rewrite <- (firstn_skipn n s) in H. apply Forall_app in H. apply H. Qed.
Lemma bstr_skipn : forall n s, bstr s -> bstr (skipn n s).
Proof. intros n s H. unfold bstr in *. rewrite <- (firstn_skipn n s) in H. apply Forall_app in H. apply H. Qed.
Lemma bset_round : forall b n l, bset l -> bset (p_round b n l).
Proof.
  intros b n l L. unfold p_round. apply bset_clean. intros s I. apply (proj1 (dedup_none_in _ _)) in I. revert s I. change (bset (map (trunc n b) l)). apply bset_map; [|exact L].
  intros s H. unfold trunc. destruct (Nat.leb _ _); [|exact H]. destruct b; [apply bstr_skipn, H|apply bstr_firstn, H].
Qed.
Lemma drop_in : forall b l last s, In s (drop_longer b last l) -> In s l.
Proof.
  induction l as [|x l IH]; intros last s I; [exact I|]. cbn [drop_longer] in I. cbn [In].
  destruct last as [y|]; [destruct (has_affix b x y)|]; cbn [In] in I; intuition eauto.
Qed.
Lemma bset_reduce : forall b l, bset l -> bset (p_reduce b l).
Proof.
  intros b l L. unfold p_reduce. cbv zeta. intros s I. apply drop_in in I. revert s I. match goal with |- forall s, In s ?x -> _ => change (bset x) end.
  pose proof (bset_round b 3 l L) as H3. set (l3 := p_round b 3 l) in *. clearbody l3.
  assert (bset (if Nat.ltb max_set (length l3) then p_round b 2 l3 else l3)) as H2 by (destruct (Nat.ltb _ _); [apply bset_round, H3|exact H3]).
  set (l2 := if Nat.ltb max_set (length l3) then p_round b 2 l3 else l3) in *. clearbody l2.
  destruct (Nat.ltb _ _); [apply bset_round, H2|exact H2].
Qed.

Ltac pb := unfold pbytes in *; cbn [p_can p_exact p_prefix p_suffix p_match pel] in *.
Lemma sets_bytes : forall p, pbytes p -> pbytes (p_sets p).
Proof.
  intros p (E & P & Q & M). unfold p_sets, p_simplify_set. pb.
  split; [exact E|]. split; [apply bset_reduce, bset_clean, P|]. split; [apply bset_reduce, bset_clean, Q|].
  apply and_trigrams_bytes; [apply and_trigrams_bytes; [exact M|apply bset_clean, P]|apply bset_clean, Q].
Qed.
Lemma simplify_bytes : forall p force, pbytes p -> pbytes (p_simplify p force).
Proof.
  intros p force H. unfold p_simplify. destruct (p_exact p) as [e|] eqn:EE; [|apply sets_bytes, H].
  destruct H as (E & P & Q & M). rewrite EE in E. cbn [pel] in E. pose proof (bset_clean false e E) as C.
  cbv zeta. destruct (big _ _).
  - apply sets_bytes. pb. split; [apply bset_nil|]. split; [|split; [|apply and_trigrams_bytes; assumption]].
    + apply bset_app; [exact P|]. apply bset_map; [|exact C]. intros s H. unfold head2. destruct (Nat.ltb _ _); [exact H|apply bstr_firstn, H].
    + apply bset_app; [exact Q|]. apply bset_map; [|exact C]. intros s H. unfold tail2. destruct (Nat.ltb _ _); [exact H|apply bstr_skipn, H].
  - pb. auto.
Qed.
Lemma bset_cross : forall b s t, bset s -> bset t -> bset (p_cross b s t).
Proof.
  intros b s t S T. unfold p_cross. apply bset_clean. intros x I. unfold cross_list in I. apply in_flat_map in I. destruct I as (y & Iy & I).
  apply in_map_iff in I. destruct I as (z & <- & Iz). apply Forall_app. split; [apply S, Iy|apply T, Iz].
Qed.
Lemma concat_bytes : forall x y, pbytes x -> pbytes y -> pbytes (p_concat x y).
Proof.
  intros x y (XE & XP & XQ & XM) (YE & YP & YQ & YM). unfold p_concat, p_concat_sets. cbv zeta.
  assert (bytes_query (and_or (p_match x) (p_match y) QAnd)) as M by (apply and_or_bytes; assumption).
  destruct (p_exact x) as [e|], (p_exact y) as [f|]; cbn [pel] in *; apply simplify_bytes.
  - pb. split; [apply bset_cross; assumption|]. split; [apply bset_nil|]. split; [apply bset_nil|exact M].
  - pb. split; [apply bset_nil|]. split; [apply bset_cross; assumption|]. split; [|exact M]. destruct (p_can y); [apply bset_union|]; assumption.
  - pb. split; [apply bset_nil|]. split; [destruct (p_can x); [apply bset_union|]; assumption|]. split; [apply bset_cross; assumption|exact M].
  - assert (bset (if p_can x then union_list false (p_prefix x) (p_prefix y) else p_prefix x)) as B1 by (destruct (p_can x); [apply bset_union|]; assumption).
    assert (bset (if p_can y then union_list true (p_suffix y) (p_suffix x) else p_suffix y)) as B2 by (destruct (p_can y); [apply bset_union|]; assumption).
    destruct (_ && _ && _)%bool; pb; (split; [apply bset_nil|]); (split; [exact B1|]); (split; [exact B2|]); [|exact M].
    apply and_trigrams_bytes; [exact M|apply bset_cross; assumption].
Qed.
Lemma add_exact_bytes : forall x, pbytes x -> bytes_query (p_add_exact x).
Proof. intros x (XE & _ & _ & XM). unfold p_add_exact. destruct (p_exact x); [apply and_trigrams_bytes; assumption|exact XM]. Qed.
Lemma alternate_bytes : forall x y, pbytes x -> pbytes y -> pbytes (p_alternate x y).
Proof.
  intros x y HX HY. pose proof (add_exact_bytes x HX) as AX. pose proof (add_exact_bytes y HY) as AY.
  destruct HX as (XE & XP & XQ & XM), HY as (YE & YP & YQ & YM). unfold p_alternate. cbv zeta. apply simplify_bytes.
  destruct (p_exact x) as [e|], (p_exact y) as [f|]; cbn [pel] in *; pb;
    repeat split; try apply bset_nil; try (apply bset_union; assumption); apply and_or_bytes; assumption.
Qed.

Lemma encode_bytes : forall r, bstr (encode_rune r).
Proof.
  intros r. unfold bstr, encode_rune, is_surrogate, max_rune, is_byte. change (2^6)%N with 64%N. change (2^12)%N with 4096%N. change (2^18)%N with 262144%N.
  destruct (N.leb_spec r 0x7F); [repeat constructor; lia|].
  assert (forall x, (x mod 64 < 64)%N) as Mo by (intros; apply N.mod_lt; discriminate).
  destruct (N.leb_spec r 0x7FF).
  { assert (r / 64 < 32)%N by (apply N.div_lt_upper_bound; lia). specialize (Mo r). repeat constructor; lia. }
  destruct (N.ltb_spec 0x10FFFF r); cbn [orb]; [repeat constructor; lia|].
  destruct (_ && _)%bool; [repeat constructor; lia|].
  pose proof (Mo r) as M1. pose proof (Mo (r / 64)%N) as M2. pose proof (Mo (r / 4096)%N) as M3.
  destruct (N.leb_spec r 0xFFFF).
  - assert (r / 4096 < 16)%N by (apply N.div_lt_upper_bound; lia). repeat constructor; lia.
  - assert (r / 262144 < 8)%N by (apply N.div_lt_upper_bound; lia). repeat constructor; lia.
Qed.

Section Run.
Variable simple_fold : N -> N.
Variable orbit_max : nat.

Lemma all_bytes : bytes_query all_query.
Proof. cbn. split; [intros ? []|exact I]. Qed.
Lemma none_bytes : bytes_query none_query.
Proof. cbn. split; [intros ? []|exact I]. Qed.
Lemma bset_one : forall s, bstr s -> bset [s].
Proof. intros s B x [<-|[]]. exact B. Qed.
Lemma exact_bytes : forall l, bset l -> pbytes (p_simplify (mkP false (Some l) [] [] all_query) false).
Proof.
  intros l L. apply simplify_bytes. pb. split; [exact L|]. split; [apply bset_nil|]. split; [apply bset_nil|apply all_bytes].
Qed.
Lemma any_bytes : forall b, pbytes (p_any b).
Proof. intros b. unfold p_any. pb. split; [apply bset_nil|]. split; [|split; [|apply all_bytes]]; apply bset_one; constructor. Qed.
Lemma none_pbytes : pbytes p_none.
Proof. unfold p_none. pb. split; [apply bset_nil|]. split; [apply bset_nil|]. split; [apply bset_nil|apply none_bytes]. Qed.
Lemma empty_bytes : pbytes p_empty.
Proof. unfold p_empty. pb. split; [apply bset_one; constructor|]. split; [apply bset_nil|]. split; [apply bset_nil|apply all_bytes]. Qed.

Lemma class_bytes : forall rs, pbytes (p_class rs).
Proof.
  intros rs. unfold p_class. destruct rs as [|r rs]; [apply none_pbytes|].
  destruct rs as [|s rs]; [apply exact_bytes, bset_one, encode_bytes|].
  destruct (Z.ltb _ _); [apply any_bytes|]. apply exact_bytes. intros x I. apply in_map_iff in I. destruct I as (y & <- & _). apply encode_bytes.
Qed.
Lemma folded_bytes : forall rs, pbytes (p_folded simple_fold orbit_max rs).
Proof.
  intros rs. unfold p_folded. destruct rs as [|r rs]; [apply empty_bytes|]. destruct rs as [|s rs]; [apply class_bytes|].
  set (l := r :: s :: rs). clearbody l. clear r s rs. assert (forall i, pbytes i -> pbytes (fold_left (fun i r => p_concat i (p_folded_rune simple_fold orbit_max r)) l i)) as G.
  { induction l as [|r l IH]; intros i H; [exact H|]. cbn [fold_left]. apply IH, concat_bytes; [exact H|apply class_bytes]. }
  apply G, empty_bytes.
Qed.
Lemma plus_bytes : forall i, pbytes i -> pbytes (p_plus i).
Proof.
  intros i H. unfold p_plus. destruct (p_exact i) as [e|] eqn:E; apply simplify_bytes; [|exact H].
  destruct H as (XE & _ & _ & XM). rewrite E in XE. pb. split; [apply bset_nil|auto].
Qed.
Lemma fold_bytes : forall f l acc, (forall x y, pbytes x -> pbytes y -> pbytes (f x y)) -> Forall pbytes l ->
  (forall x, acc = Some x -> pbytes x) -> forall x, p_fold f acc l = Some x -> pbytes x.
Proof.
  intros f l. induction l as [|i l IH]; intros acc F L A x E; cbn [p_fold fold_left] in E; [apply A; exact E|].
  apply Forall_cons_iff in L. destruct L as (L1 & L2). apply (IH _ F L2) in E; [exact E|].
  intros y Y. destruct acc as [z|]; injection Y as <-; [apply F; [apply A; reflexivity|exact L1]|exact L1].
Qed.

Lemma analyze_bytes : forall re, pbytes (p_analyze simple_fold orbit_max re).
Proof.
  induction re using regexp_ind'; cbn [p_analyze]; try apply any_bytes; try apply none_pbytes; try apply empty_bytes; try assumption.
  - destruct f; [apply folded_bytes|]. apply exact_bytes, bset_one. unfold encode_runes.
    induction rs as [|r rs IH]; cbn [map]; [constructor|]. apply Forall_app. split; [apply encode_bytes|exact IH].
  - apply class_bytes.
  - apply plus_bytes, IHre.
  - apply alternate_bytes; [exact IHre|apply empty_bytes].
  - destruct (Nat.eqb a 0); [apply any_bytes|apply plus_bytes, IHre].
  - destruct (p_fold p_concat None _) as [i|] eqn:E; [|apply empty_bytes]. apply fold_bytes in E; [exact E|apply concat_bytes| |discriminate].
    apply Forall_map. exact H.
  - destruct (p_fold p_alternate None _) as [i|] eqn:E; [|apply none_pbytes]. apply fold_bytes in E; [exact E|apply alternate_bytes| |discriminate].
    apply Forall_map. exact H.
Qed.

Theorem query_bytes : forall grow re h q, regexp_query grow simple_fold orbit_max re = (h, q) -> st_shared h = false -> bytes_query q.
Proof.
  intros grow re h q E S. pose proof (query_ok grow simple_fold orbit_max re) as Q. rewrite E in Q. rewrite (Q S).
  unfold p_query. apply add_exact_bytes, simplify_bytes, analyze_bytes.
Qed.
End Run.
