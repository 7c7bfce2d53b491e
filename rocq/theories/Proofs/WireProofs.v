(** Results arrive. *)
From Verif Require Import Model.Base Model.GoStr Model.GoFmt Model.Config Model.JsonText Model.Json Model.Grep Model.Search Model.Wire
  Spec.ApiSpec Spec.Utf8Spec Spec.JsonSpec Spec.JsonValueSpec Spec.WireSpec Proofs.StrLemmas Proofs.Utf8Proofs Proofs.GoStrProofs Proofs.FmtProofs Proofs.JsonProofs Proofs.JsonValueProofs.
Local Open Scope N_scope.

Lemma ascii_valid : forall s, Forall (fun c => c < 128) s -> valid_utf8 s.
Proof.
  induction s as [|c s IH]; intros F; [apply valid_utf8_nil|].
  apply (valid_utf8_cons c [c] s); [|exact (IH (Forall_inv_tail F))].
  constructor. exact (Forall_inv F).
Qed.
Lemma ascii_bytes : forall s, Forall (fun c => c < 128) s -> Forall is_byte s.
Proof. intros s F. eapply Forall_impl; [|exact F]. intros c L. cbv beta in L. apply (N.lt_trans _ 128); [exact L|reflexivity]. Qed.

(** The members of an object whose names are ASCII keep them. *)
Definition member_arrived (p p' : str * jv) : Prop := fst p' = fst p /\ vreplaced (snd p) (snd p').
Definition ascii_key (p : str * jv) : Prop := Forall (fun c => c < 128) (fst p).
Lemma obj_arrived : forall l v', vreplaced (VObj l) v' -> Forall (fun p => valid_utf8 (fst p)) l ->
  exists l', v' = VObj l' /\ Forall2 member_arrived l l'.
Proof.
  intros l v' R F. inversion R as [| | | | |a l' R']; subst. clear R. exists l'. split; [reflexivity|].
  induction R' as [|p p' l l' [K V] _ IH]; [constructor|]. constructor.
  - split; [|exact V]. apply replaced_exact; [exact K|exact (Forall_inv F)].
  - apply IH. exact (Forall_inv_tail F).
Qed.
Lemma arr_arrived : forall l v', vreplaced (VArr l) v' -> exists l', v' = VArr l' /\ Forall2 vreplaced l l'.
Proof. intros l v' R. inversion R; subst. eexists. split; [reflexivity|assumption]. Qed.
Lemma num_arrived : forall z v', vreplaced (VNum (fmt_d z)) v' -> v' = VNum (fmt_d z).
Proof. intros z v' R. inversion R. reflexivity. Qed.
Lemma bool_arrived : forall b v', vreplaced (VBool b) v' -> v' = VBool b.
Proof. intros z v' R. inversion R. reflexivity. Qed.
Lemma str_arrived : forall s v', vreplaced (VStr s) v' -> exists s', v' = VStr s' /\ replaced s s'.
Proof. intros s v' R. inversion R; subst. eexists. split; [reflexivity|assumption]. Qed.

Ltac ascii := repeat (apply Forall_cons; [reflexivity|]); apply Forall_nil.
Ltac keys := repeat (apply Forall_cons; [cbn [fst]; apply ascii_valid; ascii|]); try apply Forall_nil.
Ltac members H :=
  repeat match type of H with
  | Forall2 member_arrived (_ :: _) _ =>
      let k := fresh "k" in let v := fresh "v" in let K := fresh "K" in let V := fresh "V" in let r := fresh "r" in let H2 := fresh "M" in
      inversion H as [|? [k v] ? r [K V] H2]; subst; clear H; rename H2 into H; cbn [fst snd] in *; subst k
  | Forall2 member_arrived [] _ => inversion H; subst; clear H
  end.

Lemma strs_arrived : forall l l', Forall2 vreplaced (map VStr l) l' ->
  exists ss, dec_list (fun v => dec_str v []) l' = Some ss /\ Forall2 replaced l ss.
Proof.
  induction l as [|s l IH]; intros l' F; inversion F as [|? v' ? r V R]; subst; [exists []; split; [reflexivity|constructor]|].
  destruct (str_arrived s v' V) as (s' & -> & Q). destruct (IH r R) as (ss & E & G).
  exists (s' :: ss). cbn [dec_list dec_str bind]. rewrite E. split; [reflexivity|constructor; assumption].
Qed.
Lemma list_arrived : forall {A} (enc : A -> jv) (dec : jv -> option A) (arr : A -> A -> Prop) l l',
  Forall (fun x => forall v', vreplaced (enc x) v' -> exists x', dec v' = Some x' /\ arr x x') l ->
  Forall2 vreplaced (map enc l) l' -> exists xs, dec_list dec l' = Some xs /\ Forall2 arr l xs.
Proof.
  intros A enc dec arr. induction l as [|x l IH]; intros l' D F; inversion F as [|? v' ? r V R]; subst; [exists []; split; [reflexivity|constructor]|].
  destruct (Forall_inv D v' V) as (x' & E & Q). destruct (IH r (Forall_inv_tail D) R) as (xs & E2 & G).
  exists (x' :: xs). cbn [dec_list]. rewrite E. cbn [bind]. rewrite E2. split; [reflexivity|constructor; assumption].
Qed.
Lemma slice_arrived : forall {A} (enc : A -> jv) (dec : jv -> option A) (arr : A -> A -> Prop) l v,
  Forall (fun x => forall v', vreplaced (enc x) v' -> exists x', dec v' = Some x' /\ arr x x') l ->
  vreplaced (enc_slice enc l) v -> exists xs, dec_slice dec v = Some xs /\ Forall2 arr l xs.
Proof.
  intros A enc dec arr l v D R. destruct l as [|x l].
  - cbn [enc_slice] in R. inversion R. exists []. split; [reflexivity|constructor].
  - cbn [enc_slice] in R. destruct (arr_arrived _ _ R) as (l' & -> & F). exact (list_arrived enc dec arr (x :: l) l' D F).
Qed.

Lemma match_arrived : forall h v', hit_sent h -> vreplaced (enc_match h) v' ->
  exists h', dec_match v' = Some h' /\ hit_arrived h h'.
Proof.
  intros h v' (B1 & B2 & B3 & B4) R. destruct (obj_arrived _ _ R) as (l' & -> & M); [keys|]. clear R. members M.
  destruct (str_arrived _ _ V) as (s & -> & Q). apply num_arrived in V0. subst v0.
  destruct (arr_arrived _ _ V1) as (lb & -> & FB). destruct (arr_arrived _ _ V2) as (la & -> & FA).
  destruct (strs_arrived _ _ FB) as (sb & EB & RB). destruct (strs_arrived _ _ FA) as (sa & EA & RA).
  exists (mkHit s (h_no h) sb sa). split.
  - unfold dec_match, dec_struct. cbn [dec_fields].
    change (set_match k_Line (VStr s) (mkHit [] 0 [] [])) with (Some (mkHit s 0 [] [])). cbn [bind].
    change (set_match k_LineNumber (VNum (fmt_d (Z.of_nat (h_no h)))) (mkHit s 0 [] []))
      with (n <- parse_int (fmt_d (Z.of_nat (h_no h))) ;; if (n <? 0)%Z then None else Some (mkHit s (Z.to_nat n) [] [])).
    rewrite (proj2 (parse_int_ok (fmt_d (Z.of_nat (h_no h))) (Z.of_nat (h_no h)))) by (split; [apply fmt_d_signed|unfold int64_range; lia]).
    cbn [bind]. rewrite (proj2 (Z.ltb_ge _ _)) by lia. cbn [bind]. rewrite Nat2Z.id.
    change (set_match k_Before (VArr lb) (mkHit s (h_no h) [] [])) with
      (l <- dec_list (fun v => dec_str v []) lb ;; Some (mkHit s (h_no h) l [])). rewrite EB. cbn [bind].
    change (set_match k_After (VArr la) (mkHit s (h_no h) sb [])) with
      (l <- dec_list (fun v => dec_str v []) la ;; Some (mkHit s (h_no h) sb l)). rewrite EA. reflexivity.
  - split; assumption || reflexivity.
Qed.

Lemma file_arrives : forall f v', file_sent f -> vreplaced (enc_file f) v' ->
  exists f', dec_file v' = Some f' /\ file_arrived f f'.
Proof.
  intros f v' (B1 & B2) R. destruct (obj_arrived _ _ R) as (l' & -> & M); [keys|]. clear R. members M.
  destruct (str_arrived _ _ V) as (s & -> & Q). apply bool_arrived in V1. subst v1.
  assert (HS : Forall (fun x => forall v', vreplaced (enc_match x) v' -> exists x', dec_match v' = Some x' /\ hit_arrived x x') (fm_hits f)).
  { eapply Forall_impl; [|exact B2]. intros h S v' R. exact (match_arrived h v' S R). }
  destruct (slice_arrived enc_match dec_match hit_arrived (fm_hits f) v0 HS V0) as (hs & E & F).
  exists (mkFM s hs (fm_auto f)). split.
  - unfold dec_file, dec_struct. cbn [dec_fields].
    change (set_file k_Filename (VStr s) (mkFM [] [] false)) with (Some (mkFM s [] false)). cbn [bind].
    change (set_file k_Matches v0 (mkFM s [] false)) with (l <- dec_slice dec_match v0 ;; Some (mkFM s l false)).
    rewrite E. cbn [bind]. reflexivity.
  - split; assumption || reflexivity.
Qed.

Lemma response_arrives : forall r v', response_sent r -> vreplaced (enc_response r) v' ->
  exists r', dec_response v' = Some r' /\ response_arrived r r'.
Proof.
  intros r v' (B1 & B2 & B3) R. destruct (obj_arrived _ _ R) as (l' & -> & M); [keys|]. clear R. members M.
  destruct (str_arrived _ _ V1) as (s & -> & Q). apply num_arrived in V0. subst v0.
  assert (HS : Forall (fun x => forall v', vreplaced (enc_file x) v' -> exists x', dec_file v' = Some x' /\ file_arrived x x') (rs_matches r)).
  { eapply Forall_impl; [|exact B1]. intros f S v' R. exact (file_arrives f v' S R). }
  destruct (slice_arrived enc_file dec_file file_arrived (rs_matches r) v HS V) as (fs & E & F).
  exists (mkResp fs (rs_found r) 0 s). split.
  - unfold dec_response, dec_struct. cbn [dec_fields].
    change (set_response k_Matches v (mkResp [] 0 0 [])) with (l <- dec_slice dec_file v ;; Some (mkResp l 0 0 [])).
    rewrite E. cbn [bind].
    change (set_response k_FilesWithMatch (VNum (fmt_d (rs_found r))) (mkResp fs 0 0 [])) with
      (n <- parse_int (fmt_d (rs_found r)) ;; Some (mkResp fs n 0 [])).
    rewrite (proj2 (parse_int_ok (fmt_d (rs_found r)) (rs_found r))) by (split; [apply fmt_d_signed|exact B2]).
    cbn [bind]. reflexivity.
  - split; assumption || reflexivity.
Qed.

(** Writing. *)
Lemma strs_writable : forall l, Forall (Forall is_byte) l -> Forall writable (map VStr l).
Proof. induction l as [|s l IH]; intros F; [constructor|]. cbn [map]. constructor; [constructor; exact (Forall_inv F)|exact (IH (Forall_inv_tail F))]. Qed.
Lemma list_writable : forall {A} (enc : A -> jv) l, Forall (fun x => writable (enc x)) l -> Forall writable (map enc l).
Proof. intros A enc. induction l as [|s l IH]; intros F; [constructor|]. cbn [map]. constructor; [exact (Forall_inv F)|exact (IH (Forall_inv_tail F))]. Qed.
Lemma slice_writable : forall {A} (enc : A -> jv) l, Forall (fun x => writable (enc x)) l -> writable (enc_slice enc l).
Proof. intros A enc l F. destruct l; cbn [enc_slice]; constructor. apply list_writable, F. Qed.
Ltac wkey := cbn [fst]; apply ascii_bytes; ascii.
Lemma match_writable : forall h, hit_sent h -> writable (enc_match h).
Proof.
  intros h (B1 & B2 & B3 & B4). constructor.
  apply Forall_cons; [split; [wkey|constructor; exact B1]|].
  apply Forall_cons; [split; [wkey|constructor; apply fmt_d_number]|].
  apply Forall_cons; [split; [wkey|constructor; apply strs_writable, B3]|].
  apply Forall_cons; [split; [wkey|constructor; apply strs_writable, B4]|]. constructor.
Qed.
Lemma file_writable : forall f, file_sent f -> writable (enc_file f).
Proof.
  intros f (B1 & B2). constructor.
  apply Forall_cons; [split; [wkey|constructor; exact B1]|].
  apply Forall_cons; [split; [wkey|apply slice_writable; eapply Forall_impl; [|exact B2]; exact match_writable]|].
  apply Forall_cons; [split; [wkey|constructor]|]. constructor.
Qed.
Lemma response_writable : forall r, response_sent r -> writable (enc_response r).
Proof.
  intros r (B1 & B2 & B3). constructor.
  apply Forall_cons; [split; [wkey|apply slice_writable; eapply Forall_impl; [|exact B1]; exact file_writable]|].
  apply Forall_cons; [split; [wkey|constructor; apply fmt_d_number]|].
  apply Forall_cons; [split; [wkey|constructor; exact B3]|]. constructor.
Qed.
Lemma stats_writable : forall st, writable (enc_stats st).
Proof.
  intros st. constructor.
  apply Forall_cons; [split; [wkey|constructor; apply fmt_d_number]|].
  apply Forall_cons; [split; [wkey|constructor; apply fmt_d_number]|]. constructor.
Qed.

Lemma answer_writable : forall results stats, Forall result_sent results -> writable (enc_answer results stats).
Proof.
  intros results stats F. constructor. apply Forall_cons; [split; [wkey|]|].
  - cbn [snd]. constructor. induction results as [|p l IH]; cbn [map]; constructor.
    + destruct (Forall_inv F) as (B & _ & S). split; [exact B|exact (response_writable _ S)].
    + exact (IH (Forall_inv_tail F)).
  - destruct stats as [st|]; [|constructor]. apply Forall_cons; [split; [wkey|apply stats_writable]|constructor].
Qed.

Lemma put_new : forall {A} (m : list (str * A)) k x, ~ In k (map fst m) -> put m k x = m ++ [(k, x)].
Proof.
  intros A. induction m as [|[k' y] m IH]; intros k x N; [reflexivity|]. cbn [put map fst app] in *.
  destruct (str_eqb k k') eqn:E; [exfalso; apply N; left; symmetry; apply str_eqb_eq, E|].
  f_equal. apply IH. intros C. apply N. right. exact C.
Qed.

Lemma map_arrived : forall l l' m, Forall result_sent l -> NoDup (map fst m ++ map fst l) ->
  Forall2 member_arrived (map (fun p => (fst p, enc_response (snd p))) l) l' ->
  exists rs, dec_map dec_response l' m = Some (m ++ rs) /\ Forall2 result_arrived l rs.
Proof.
  induction l as [|[k r] l IH]; intros l' m F N R; cbn [map] in R; inversion R as [|? [k' v'] ? rest [K V] R2]; subst.
  - exists []. rewrite app_nil_r. split; [reflexivity|constructor].
  - cbn [fst snd] in *. subst k'. destruct (Forall_inv F) as (_ & _ & S). cbn [snd] in S.
    destruct (response_arrives r v' S V) as (r' & E & A). cbn [map fst] in N.
    cbn [dec_map]. rewrite E. cbn [bind]. rewrite put_new.
    + destruct (IH rest (m ++ [(k, r')]) (Forall_inv_tail F)) as (rs & E2 & G); [|exact R2|].
      * rewrite map_app. cbn [map fst]. rewrite <- app_assoc. exact N.
      * exists ((k, r') :: rs). rewrite E2, <- app_assoc. split; [reflexivity|]. constructor; [split; [reflexivity|exact A]|exact G].
    + intros C. apply NoDup_remove_2 in N. apply N. apply in_or_app. left. exact C.
Qed.

Lemma valid_keys : forall l, Forall result_sent l ->
  Forall (fun p => valid_utf8 (fst p)) (map (fun p => (fst p, enc_response (snd p))) l).
Proof.
  induction l as [|p l IH]; intros F; [constructor|]. cbn [map]. constructor; [|exact (IH (Forall_inv_tail F))].
  destruct (Forall_inv F) as (_ & V & _). exact V.
Qed.

Lemma stats_arrives : forall o d v', int64_range o -> int64_range d -> vreplaced (enc_stats (o, d)) v' ->
  exists l', v' = VObj l' /\ dec_fields set_stats l' (0, 0)%Z = Some (o, d).
Proof.
  intros o d v' O D R. destruct (obj_arrived _ _ R) as (l' & -> & M); [keys|]. clear R. members M.
  apply num_arrived in V. apply num_arrived in V0. subst v v0. eexists. split; [reflexivity|]. cbn [dec_fields].
  change (set_stats k_FilesOpened (VNum (fmt_d o)) (0, 0)%Z) with (n <- parse_int (fmt_d o) ;; Some (n, 0%Z)).
  rewrite (proj2 (parse_int_ok (fmt_d o) o)) by (split; [apply fmt_d_signed|exact O]). cbn [bind].
  change (set_stats k_Duration (VNum (fmt_d d)) (o, 0%Z)) with (n <- parse_int (fmt_d d) ;; Some (o, n)).
  rewrite (proj2 (parse_int_ok (fmt_d d) d)) by (split; [apply fmt_d_signed|exact D]). reflexivity.
Qed.

Theorem answer_arrives : forall short results stats, Forall result_sent results -> NoDup (map fst results) -> stats_sent stats ->
  exists results', read_answer (write_json short (enc_answer results stats)) = Some (mkRecv (Some results') stats) /\
    Forall2 result_arrived results results'.
Proof.
  intros short results stats F N ST. unfold read_answer, write_json.
  destruct (round_trip short (enc_answer results stats) [10] (answer_writable _ _ F) ltac:(discriminate)) as (v' & E & R).
  rewrite E. cbn [bind]. destruct (obj_arrived _ _ R) as (l' & -> & M).
  { apply Forall_cons; [cbn [fst]; apply ascii_valid; ascii|]. destruct stats; keys. }
  clear R E. destruct stats as [[o d]|].
  - members M. destruct (obj_arrived _ _ V (valid_keys _ F)) as (l' & -> & M2).
    destruct (map_arrived results l' [] F N M2) as (rs & E & G). destruct ST as [O D].
    destruct (stats_arrives o d v0 O D V0) as (sl & -> & E2). exists rs. split; [|exact G].
    cbn [dec_fields].
    change (set_answer k_Results (VObj l') (mkRecv None None)) with (m <- dec_map dec_response l' [] ;; Some (mkRecv (Some m) None)).
    rewrite E. cbn [bind app].
    change (set_answer k_Stats (VObj sl) (mkRecv (Some rs) None)) with
      (st <- dec_fields set_stats sl (0, 0)%Z ;; Some (mkRecv (Some rs) (Some st))). rewrite E2. reflexivity.
  - members M. destruct (obj_arrived _ _ V (valid_keys _ F)) as (l' & -> & M2).
    destruct (map_arrived results l' [] F N M2) as (rs & E & G). exists rs. split; [|exact G]. cbn [dec_fields].
    change (set_answer k_Results (VObj l') (mkRecv None None)) with (m <- dec_map dec_response l' [] ;; Some (mkRecv (Some m) None)).
    rewrite E. reflexivity.
Qed.

(** An error is read as no results. *)
Theorem error_arrives : forall short err, Forall is_byte err -> read_answer (write_json short (enc_error err)) = Some (mkRecv None None).
Proof.
  intros short err B. unfold read_answer, write_json.
  assert (W : writable (enc_error err)). { constructor. apply Forall_cons; [split; [wkey|constructor; exact B]|constructor]. }
  destruct (round_trip short (enc_error err) [10] W ltac:(discriminate)) as (v' & E & R). rewrite E. cbn [bind].
  destruct (obj_arrived _ _ R) as (l' & -> & M); [keys|]. members M. reflexivity.
Qed.

(** UTF-8 arrives as it is. *)
Lemma texts_exact : forall l l', Forall2 replaced l l' -> Forall valid_utf8 l -> l' = l.
Proof.
  intros l l' R. induction R as [|s s' l l' Q _ IH]; intros F; [reflexivity|].
  f_equal; [exact (replaced_exact _ _ Q (Forall_inv F))|exact (IH (Forall_inv_tail F))].
Qed.
Lemma all_exact : forall {A} (arr : A -> A -> Prop) (ok : A -> Prop) l l', (forall x x', arr x x' -> ok x -> x' = x) ->
  Forall2 arr l l' -> Forall ok l -> l' = l.
Proof.
  intros A arr ok l l' X R. induction R as [|s s' l l' Q _ IH]; intros F; [reflexivity|].
  f_equal; [exact (X _ _ Q (Forall_inv F))|exact (IH (Forall_inv_tail F))].
Qed.
Lemma hit_exact : forall h h', hit_arrived h h' -> hit_valid h -> h' = h.
Proof.
  intros h h' [A B C D] (V1 & V2 & V3). destruct h as [a b c d], h' as [a' b' c' d']. cbn in *.
  rewrite (replaced_exact _ _ A V1), B, (texts_exact _ _ C V2), (texts_exact _ _ D V3). reflexivity.
Qed.
Lemma file_exact : forall f f', file_arrived f f' -> file_valid f -> f' = f.
Proof.
  intros f f' [A B C] (V1 & V2). destruct f as [a b c], f' as [a' b' c']. cbn in *.
  rewrite (replaced_exact _ _ A V1), C, (all_exact hit_arrived hit_valid _ _ hit_exact B V2). reflexivity.
Qed.
Lemma response_exact : forall r r', response_arrived r r' -> response_valid r ->
  r' = mkResp (rs_matches r) (rs_found r) 0 (rs_rev r).
Proof.
  intros f f' [A B C D] (V1 & V2). destruct f as [a b c d], f' as [a' b' c' d']. cbn in *.
  rewrite (replaced_exact _ _ D V2), C, B, (all_exact file_arrived file_valid _ _ file_exact A V1). reflexivity.
Qed.
Theorem answer_exact : forall short results stats, Forall result_sent results -> NoDup (map fst results) -> stats_sent stats ->
  Forall (fun p => response_valid (snd p)) results ->
  read_answer (write_json short (enc_answer results stats)) =
    Some (mkRecv (Some (map (fun p => (fst p, mkResp (rs_matches (snd p)) (rs_found (snd p)) 0 (rs_rev (snd p)))) results)) stats).
Proof.
  intros short results stats F N ST V. destruct (answer_arrives short results stats F N ST) as (rs & E & G). rewrite E.
  do 3 f_equal. clear - G V. induction G as [|[k r] [k' r'] l l' [K A] _ IH]; [reflexivity|]. cbn [map fst snd] in *. subst k'.
  f_equal; [f_equal; apply response_exact; [exact A|exact (Forall_inv V)]|exact (IH (Forall_inv_tail V))].
Qed.
