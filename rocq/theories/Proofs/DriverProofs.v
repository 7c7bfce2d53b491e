(** The settings that reach the drivers. *)
From Verif Require Import Model.Base Model.GoStr Model.JsonText Model.Json Model.Config Model.ConfigCodec Model.Wire Model.Vcs Model.LocalVcs Model.Drivers
  Spec.Names Spec.JsonValueSpec Spec.JsonGrammar Spec.ClientConfSpec Spec.ConfigSpec Spec.FileSpec Spec.DriverSpec
  Proofs.StrLemmas Proofs.JsonProofs Proofs.JsonValueProofs Proofs.ConfigProofs Proofs.ConfigExample Proofs.ClientConfProofs Proofs.GrammarProofs Proofs.GrammarSound
  Proofs.OfferProofs Proofs.ConfigCodecProofs Proofs.FileProofs Proofs.LoadProofs.
From Verif Require Import Model.Wire.
From Verif Require Proofs.EndToEnd.
From Coq Require Import Permutation.
Local Open Scope N_scope.

Section Merged.
  Variable parse_float : str -> option N.
  Variable format_float : N -> str.
  Hypothesis FO : floats_ok parse_float format_float.
  Let tv := to_value parse_float.
  Let fv := of_value format_float.
  Let un := unmarshal_map parse_float.
  Let ma := marshal_map format_float.

  Lemma members_map : forall l m, members parse_float l m = dec_map tv l m.
  Proof. induction l as [|[k v] l IH]; intros m; [reflexivity|]. cbn [members dec_map]. unfold tv. destruct (to_value parse_float v); [|reflexivity]. cbn [bind]. apply IH. Qed.
  Lemma unmarshal_text : forall l b m, json_text (VObj l) b -> un b = Some m -> exists m0, dec_map tv l [] = Some m0 /\ m = Some (by_key m0).
  Proof.
    intros l b m T U. unfold un, unmarshal_map in U. rewrite (whole_text json_string string_read _ _ T) in U. cbn [bind] in U.
    pose proof (to_obj parse_float l) as E. cbv zeta in E. rewrite E in U. rewrite members_map in U.
    destruct (dec_map tv l []) as [m0|]; [|discriminate]. cbn [bind] in U. exists m0. split; [reflexivity|congruence].
  Qed.
  (** A map that was decoded: the last member of each name. *)
  Lemma map_got : forall l m0, dec_map tv l [] = Some m0 ->
    NoDup (keys m0) /\ forall k, match get (by_key m0) k with
      | Some j => exists l1 v l2, l = l1 ++ (k, v) :: l2 /\ ~ In k (keys l2) /\ tv v = Some j
      | None => ~ In k (keys l)
      end.
  Proof.
    intros l m0 D. destruct (map_entries _ _ _ D) as (K & N & P). split; [exact N|]. intros k.
    rewrite (proj2 (by_key_ok m0 N)). destruct (get m0 k) as [j|] eqn:G.
    - apply get_in in G. exact (P _ _ G).
    - apply get_none in G. unfold keys in *. rewrite <- K. exact G.
  Qed.

  Variable own glob : list (str * jv).
  Variable mo mg m' : list (str * json).
  Hypothesis MO : dec_map tv own [] = Some mo.
  Hypothesis MG : dec_map tv glob [] = Some mg.
  Hypothesis ND : NoDup (keys m').
  Hypothesis GET : forall k, get m' k = match get (by_key mo) k with Some v => Some v | None => get (by_key mg) k end.
  Definition merged : list (str * jv) := map (fun e => (fst e, fv (snd e))) (by_key m').

  Lemma origin : forall k, match get m' k with
    | Some j => (exists l1 v l2, own = l1 ++ (k, v) :: l2 /\ ~ In k (keys l2) /\ tv v = Some j) \/
                (~ In k (keys own) /\ exists l1 v l2, glob = l1 ++ (k, v) :: l2 /\ ~ In k (keys l2) /\ tv v = Some j)
    | None => ~ In k (keys own) /\ ~ In k (keys glob)
    end.
  Proof.
    intros k. rewrite GET. pose proof (proj2 (map_got _ _ MO) k) as A. pose proof (proj2 (map_got _ _ MG) k) as B.
    destruct (get (by_key mo) k) as [j|]; [left; exact A|]. destruct (get (by_key mg) k) as [j|]; [right|]; auto.
  Qed.
  Lemma in_merged : forall k v, In (k, v) merged -> exists j, get m' k = Some j /\ v = fv j.
  Proof.
    intros k v I. unfold merged in I. apply in_map_iff in I. destruct I as ([k' j] & E & I). cbn [fst snd] in E.
    assert (k' = k /\ v = fv j) as [-> ->] by (split; congruence). exists j. split; [|reflexivity].
    apply in_get; [exact ND|]. eapply Permutation_in; [apply by_key_perm|exact I].
  Qed.
  Lemma merged_in : forall k j, get m' k = Some j -> In (k, fv j) merged.
  Proof.
    intros k j G. unfold merged. apply in_map_iff. exists (k, j). split; [reflexivity|]. apply get_in in G.
    eapply Permutation_in; [apply Permutation_sym, by_key_perm|exact G].
  Qed.

  Section Option.
    Context {A : Type}.
    Variable is : jv -> A -> Prop.
    Variable name : str.
    Hypothesis STABLE : forall v x j, is v x -> tv v = Some j -> fv j = v.
    Hypothesis NONNULL : forall x, ~ is VNull x.
    Hypothesis EX : exactly is name (glob ++ own).
    Lemma exact_own : exactly is name own. Proof. apply Forall_app in EX. apply EX. Qed.
    Lemma exact_glob : exactly is name glob. Proof. apply Forall_app in EX. apply EX. Qed.
    Lemma self_case : any_case name name.
    Proof. clear. unfold any_case. induction name as [|c l IH]; constructor; [left; reflexivity|exact IH]. Qed.
    (** A member of the merged settings that goes by the name of the option. *)
    Lemma merged_named : forall k v, In (k, v) merged -> any_case k name ->
      k = name /\ exists l1 l2, glob ++ own = l1 ++ (name, v) :: l2 /\ ~ In name (keys l2) /\ exists a, is v a.
    Proof.
      intros k v I AC. destruct (in_merged _ _ I) as (j & G & ->). pose proof (origin k) as O. rewrite G in O.
      destruct O as [(l1 & v & l2 & EO & NI & T)|(NO & l1 & v & l2 & EG & NI & T)].
      - pose proof exact_own as E. rewrite EO in E. apply Forall_app in E. destruct E as [_ E]. destruct (Forall_inv E AC) as (EK & a & H). cbn [fst snd] in EK, H. subst k.
        split; [reflexivity|]. rewrite (STABLE _ _ _ H T). exists (glob ++ l1), l2. split; [rewrite EO, <- app_assoc; reflexivity|]. split; [exact NI|exists a; exact H].
      - pose proof exact_glob as E. rewrite EG in E. apply Forall_app in E. destruct E as [_ E]. destruct (Forall_inv E AC) as (EK & a & H). cbn [fst snd] in EK, H. subst k.
        split; [reflexivity|]. rewrite (STABLE _ _ _ H T). exists l1, (l2 ++ own). split; [rewrite EG, <- app_assoc; reflexivity|].
        split; [|exists a; exact H]. unfold keys in *. rewrite map_app, in_app_iff. tauto.
    Qed.
    Lemma merged_typed : Forall (fun p => any_case (fst p) name -> exists a, is (snd p) a) merged.
    Proof.
      apply Forall_forall. intros [k v] I AC. cbn [fst snd] in *. destruct (merged_named _ _ I AC) as (_ & _ & _ & _ & _ & H). exact H.
    Qed.
    Lemma not_named : forall l, exactly is name l -> ~ In name (keys l) -> unsaid (fun v : jv => v) name l.
    Proof.
      intros l E NI. apply Forall_forall. intros [k v] I AC. exfalso. apply NI. unfold exactly in E. rewrite Forall_forall in E.
      destruct (E _ I AC) as [EK _]. cbn [fst] in EK. subst k. apply in_map_iff. exists (name, v). auto.
    Qed.
    Lemma merged_said : forall zero x, last_said is name zero merged x -> last_said is name zero (glob ++ own) x.
    Proof.
      intros zero x [(-> & U)|(l1 & k & v & l2 & E & AC & H & _)].
      - left. split; [reflexivity|]. apply not_named; [exact EX|]. intros I. pose proof (origin name) as O.
        destruct (get m' name) as [j|] eqn:G.
        + pose proof (merged_in _ _ G) as IM. destruct (merged_named _ _ IM self_case) as (_ & _ & _ & _ & _ & a & H).
          unfold unsaid in U. rewrite Forall_forall in U. pose proof (U _ IM self_case) as V. cbn [snd] in V. rewrite V in H. exact (NONNULL _ H).
        + unfold keys in *. rewrite map_app, in_app_iff in I. tauto.
      - assert (I : In (k, v) merged) by (rewrite E; apply in_or_app; right; left; reflexivity).
        destruct (merged_named _ _ I AC) as (-> & o1 & o2 & EO & NI & _). right. exists o1, name, v, o2. split; [exact EO|].
        split; [exact self_case|]. split; [exact H|]. apply not_named; [|exact NI].
        pose proof EX as Q. rewrite EO in Q. apply Forall_app in Q. destruct Q as [_ Q]. exact (Forall_inv_tail Q).
    Qed.
  End Option.
End Merged.

Definition carried {A} (is : jv -> A -> Prop) (name : str) (M l : list (str * jv)) : Prop :=
  exactly is name l ->
  Forall (fun p => any_case (fst p) name -> exists a, is (snd p) a) M /\
  forall zero x, last_said is name zero M x -> last_said is name zero l x.
Definition conf_is (conf : option bytes) (M : list (str * jv)) : Prop :=
  (conf = None /\ M = []) \/ exists b, conf = Some b /\ whole b = Some (VObj M).

Section Load.
  Variable parse_float : str -> option N.
  Variable format_float : N -> str.
  Variable short : bool.
  Variable abs : str -> option str.
  Hypothesis FO : floats_ok parse_float format_float.
  Let tv := to_value parse_float.
  Let fv := of_value format_float.
  Let un := unmarshal_map parse_float.
  Let ma := marshal_map format_float short.

  Definition kept {A} (is : jv -> A -> Prop) : Prop :=
    (forall v x j, is v x -> tv v = Some j -> fv j = v) /\ (forall x, ~ is VNull x).
  Lemma text_kept : kept is_text.
  Proof. split; [|intros x H; discriminate]. intros v x j H E. unfold is_text in H. subst v. cbn in E. assert (j = JStr x) as -> by congruence. reflexivity. Qed.
  Lemma switch_kept : kept is_switch.
  Proof. split; [|intros x H; discriminate]. intros v x j H E. unfold is_switch in H. subst v. cbn in E. assert (j = JBool x) as -> by congruence. reflexivity. Qed.
  Lemma texts_kept : kept is_texts.
  Proof.
    split; [|intros x (l & H & _); discriminate]. intros v x j (l & -> & F) E. unfold tv in E. rewrite (to_arr parse_float) in E.
    destruct (items parse_float l) as [l'|] eqn:I; [|discriminate]. cbn [bind] in E. assert (j = JArr l') as -> by congruence. unfold fv. cbn [of_value]. f_equal. clear E.
    revert l' I. induction F as [|v s l x H F IH]; intros l' I.
    - cbn in I. assert (l' = []) as -> by congruence. reflexivity.
    - cbn [items] in I. destruct H as [->|[-> ->]]; cbn [to_value bind] in I.
      + destruct (items parse_float l) as [xs|] eqn:Q; [|discriminate]. cbn [bind] in I. assert (l' = JStr s :: xs) as -> by congruence. cbn [map of_value]. f_equal. apply IH. reflexivity.
      + destruct (items parse_float l) as [xs|] eqn:Q; [|discriminate]. cbn [bind] in I. assert (l' = JNull :: xs) as -> by congruence. cbn [map of_value]. f_equal. apply IH. reflexivity.
  Qed.

  Lemma same_carried : forall {A} (is : jv -> A -> Prop) name l, carried is name l l.
  Proof.
    intros A is name l E. split; [|auto]. eapply Forall_impl; [|exact E]. intros p H AC. apply H. exact AC.
  Qed.
  Lemma own_conf : forall r own, own_settings r own -> conf_is (r_vcsconf r) own.
  Proof.
    intros r own [[E ->]|(b & E & T)]; [left; auto|]. right. exists b. split; [exact E|]. exact (whole_text json_string string_read _ _ T).
  Qed.
  Lemma written_whole : forall m, NoDup (keys m) -> Forall (decoded un) m -> whole (ma (Some m)) = Some (VObj (merged format_float m)).
  Proof.
    intros m N D. pose proof (decoded_good parse_float m N D) as G.
    assert (E : fv (JObj (by_key m)) = VObj (merged format_float m)).
    { unfold fv, merged. cbn [of_value]. rewrite by_key_map, (by_key_sorted (by_key m)); [reflexivity|]. apply by_key_ok. exact N. }
    unfold ma. destruct (marshal_sorted format_float short m) as [->|C]; [|contradiction]. fold fv.
    destruct (sound_ok _ (of_sound parse_float format_float FO _ G)) as [W V]. fold fv in W, V. unfold whole.
    destruct (round_trip short (fv (JObj (by_key m))) [] W) as (v' & DJ & R); [rewrite E; discriminate|]. rewrite app_nil_r in DJ. rewrite DJ. cbn [bind skip_space].
    rewrite (vreplaced_exact _ _ R V). rewrite E. reflexivity.
  Qed.
  Lemma merged_conf : forall l g r r' own glob, global_vals un l = Some (Some g) -> merge_repo un ma g r = Some (Some r') ->
    own_settings r own ->
    ((get l (r_vcs r) = None /\ glob = []) \/ exists b, get l (r_vcs r) = Some (Some b) /\ json_text (VObj glob) b) ->
    r_vcs r' = r_vcs r /\ exists M, conf_is (r_vcsconf r') M /\ forall A (is : jv -> A -> Prop) name, kept is -> carried is name M (glob ++ own).
  Proof.
    intros l g r r' own glob GV H OW GS. unfold merge_repo in H. pose proof (global_vals_get un l g GV (r_vcs r)) as GG.
    destruct (global_vals_dom un l g GV) as (_ & _ & GD). specialize (GD (r_vcs r)).
    destruct GS as [[GN ->]|(gb & GB & GT)].
    - rewrite (proj2 GD GN) in H. assert (r' = r) as -> by congruence. split; [reflexivity|]. exists own. split; [exact (own_conf _ _ OW)|].
      intros A is name _. apply same_carried.
    - rewrite GB in GG. destruct (get g (r_vcs r)) as [gv|] eqn:G; [|destruct GD as [GD _]; specialize (GD eq_refl); congruence].
      destruct (unmarshal_text parse_float _ _ _ GT (eq_sym GG)) as (mg & MG & ->).
      assert (OU : exists mo, dec_map tv own [] = Some mo /\ Forall (decoded un) (by_key mo) /\
                 exists vals', fill_missing (Some (by_key mo)) (by_key mg) = Some vals' /\ r' = with_vcsconf r (ma vals')).
      { unfold VcsConfig in H. destruct OW as [[E ->]|(ob & E & OT)]; rewrite E in H.
        - exists []. split; [reflexivity|]. split; [constructor|]. change (by_key []) with (@nil (str * json)).
          destruct (fill_missing (Some []) (by_key mg)) as [vals'|]; [|discriminate]. cbn [bind] in H. exists vals'. split; [reflexivity|congruence].
        - destruct ob as [|c ob]. { pose proof (whole_text json_string string_read _ _ OT) as W. discriminate W. }
          destruct (un (c :: ob)) as [m|] eqn:U; [|discriminate]. destruct (unmarshal_text parse_float _ _ _ OT U) as (mo & MO & ->).
          exists mo. split; [exact MO|]. split. { apply Forall_forall. intros e I. exists (c :: ob), (by_key mo). auto. }
          destruct (fill_missing (Some (by_key mo)) (by_key mg)) as [vals'|]; [|discriminate]. cbn [bind] in H. exists vals'. split; [reflexivity|congruence]. }
      destruct OU as (mo & MO & DO & vals' & F & ->). split; [reflexivity|].
      destruct (map_got parse_float _ _ MO) as [NO _]. destruct (map_got parse_float _ _ MG) as [NG _].
      assert (NO' : NoDup (keys (by_key mo))) by (apply ksorted_nodup, by_key_ok; exact NO).
      assert (NG' : NoDup (keys (by_key mg))) by (apply ksorted_nodup, by_key_ok; exact NG).
      destruct (fill_missing_some (by_key mg) (by_key mo) NO' NG') as (m' & F' & N' & GK). rewrite F in F'. assert (vals' = Some m') as -> by congruence. clear F'.
      assert (DG : Forall (decoded un) (by_key mg)). { apply Forall_forall. intros e I. exists gb, (by_key mg). split; [symmetry; exact GG|exact I]. }
      pose proof (fill_missing_all _ _ _ _ F DO DG) as D'.
      exists (merged format_float m'). split. { right. exists (ma (Some m')). split; [reflexivity|]. apply written_whole; assumption. }
      intros A is name [ST NN] EX. split.
      + eapply (merged_typed parse_float format_float own glob mo mg m'); try eassumption; eauto.

      + intros zero x. eapply merged_said; eauto.
  Qed.
End Load.

(** The structures of the drivers. *)
Lemma struct_fields : forall {R} (set : str -> jv -> R -> option R) zero conf M, conf_is conf M -> unmarshal_struct set zero conf = dec_fields set M zero.
Proof. intros R set zero conf M [[-> ->]|(b & -> & W)]; cbn [unmarshal_struct]; [reflexivity|]. rewrite W. reflexivity. Qed.

Ltac at_field s := let k := fresh "k" in let x := fresh "x" in let r := fresh "r" in let r' := fresh "r'" in let E := fresh "E" in let SN := fresh "SN" in
  intros k x r r' E; unfold s in E;
  repeat match type of E with (if same_name ?a ?b then _ else _) = _ => let Q := fresh "Q" in destruct (same_name a b) eqn:Q end;
  try match type of E with match ?e with Some _ => _ | None => _ end = _ => let D := fresh "D" in destruct e eqn:D; [cbn [bind] in E|discriminate] end;
  unfold bind in E; try match type of E with match ?e with Some _ => _ | None => _ end = _ => let D := fresh "D" in destruct e eqn:D; [|discriminate] end;
  match type of E with Some ?t = Some _ => assert (r' = t) as -> by congruence end;
  split; intros SN; cbn [DetectRef Ref Username Password WatchChanges IgnoredFiles]; try reflexivity; try assumption; try congruence;
  match goal with Q : same_name k ?b = true, SN : same_name k ?c = true |- _ => rewrite (same_other k b c Q) in SN by reflexivity; discriminate end.

Lemma at_detect : stores set_git DetectRef (fun v => dec_bool v) k_detect_ref. Proof. at_field set_git. Qed.
Lemma at_ref : stores set_git Ref (fun v => dec_str v) k_ref. Proof. at_field set_git. Qed.
Lemma at_username : stores set_svn Username (fun v => dec_str v) k_username. Proof. at_field set_svn. Qed.
Lemma at_password : stores set_svn Password (fun v => dec_str v) k_password. Proof. at_field set_svn. Qed.
Lemma at_watch : stores set_local WatchChanges (fun v => dec_bool v) k_watch_changes. Proof. at_field set_local. Qed.
Lemma at_ignored : stores set_local IgnoredFiles (fun v _ => dec_slice (fun v => dec_str v []) v) k_ignored_files. Proof. at_field set_local. Qed.

Definition is_slice (v : jv) (x : list str) : Prop := is_texts v x \/ (v = VNull /\ x = []).
Lemma slice_dec : forall v (old new : list str), dec_slice (fun v => dec_str v []) v = Some new -> (v = VNull /\ new = old) \/ is_slice v new.
Proof.
  intros [] old new E; try discriminate; cbn [dec_slice] in E; right; [right; split; congruence|left].
  exists l. split; [reflexivity|]. apply list_dec. exact E.
Qed.
Lemma slice_made : forall v, (exists a, is_texts v a) -> exists new, dec_slice (fun v => dec_str v []) v = Some new.
Proof. intros v (a & l & -> & F). exists a. apply list_dec. exact F. Qed.
Lemma slice_said : forall M name x, Forall (fun p => any_case (fst p) name -> exists a, is_texts (snd p) a) M ->
  last_said is_slice name [] M x -> last_said is_texts name [] M x.
Proof.
  intros M name x F [L|(l1 & k & v & l2 & E & AC & [H|[-> ->]] & U)]; [left; exact L|right|exfalso].
  - exists l1, k, v, l2. auto.
  - rewrite E in F. apply Forall_app in F. destruct F as [_ F]. destruct (Forall_inv F AC) as (a & l & H & _). discriminate H.
Qed.

Ltac made k nm SN L := destruct (same_name k nm) eqn:SN;
  [apply (same_any k nm) in SN; [|names|names]; L; eexists; reflexivity|].
Definition has {A} (is : jv -> A -> Prop) (name : str) (p : str * jv) : Prop := any_case (fst p) name -> exists a, is (snd p) a.
Lemma git_made : forall k v g, has is_switch k_detect_ref (k, v) /\ has is_text k_ref (k, v) -> exists g', set_git k v g = Some g'.
Proof.
  intros k v g [T1 T2]. unfold has in *. cbn [fst snd] in *. unfold set_git.
  made k k_detect_ref SN ltac:(destruct (switch_made _ (DetectRef g) (or_intror (T1 SN))) as (y & ->)).
  made k k_ref SN2 ltac:(destruct (text_made _ (Ref g) (or_intror (T2 SN2))) as (y & ->)). eexists; reflexivity.
Qed.
Lemma svn_made : forall k v g, has is_text k_username (k, v) /\ has is_text k_password (k, v) -> exists g', set_svn k v g = Some g'.
Proof.
  intros k v g [T1 T2]. unfold has in *. cbn [fst snd] in *. unfold set_svn.
  made k k_username SN ltac:(destruct (text_made _ (Username g) (or_intror (T1 SN))) as (y & ->)).
  made k k_password SN2 ltac:(destruct (text_made _ (Password g) (or_intror (T2 SN2))) as (y & ->)). eexists; reflexivity.
Qed.
Lemma local_made : forall k v g, has is_switch k_watch_changes (k, v) /\ has is_texts k_ignored_files (k, v) -> exists g', set_local k v g = Some g'.
Proof.
  intros k v g [T1 T2]. unfold has in *. cbn [fst snd] in *. unfold set_local.
  made k k_watch_changes SN ltac:(destruct (switch_made _ (WatchChanges g) (or_intror (T1 SN))) as (y & ->)).
  made k k_ignored_files SN2 ltac:(destruct (slice_made _ (T2 SN2)) as (y & ->)). eexists; reflexivity.
Qed.
Lemma Forall_both : forall {A} (P Q : A -> Prop) l, Forall P l -> Forall Q l -> Forall (fun x => P x /\ Q x) l.
Proof. intros A P Q l F G. rewrite Forall_forall in *. auto. Qed.

Lemma driver_made : forall parse_float format_float vcs conf M L, conf_is conf M ->
  (forall A (is : jv -> A -> Prop) name, kept parse_float format_float is -> carried is name M L) ->
  known_vcs vcs -> options_ok vcs L -> exists w, New vcs conf = Some w /\ driver_for vcs L w.
Proof.
  intros pf ff vcs conf M L C CA K (O1 & O2 & O3).
  assert (SVN : vcs = text "svn" \/ vcs = text "subversion" -> exists g, newSvn conf = Some g /\
            last_said is_text (text "username") [] L (Username g) /\ last_said is_text (text "password") [] L (Password g)).
  { intros E. destruct (O2 E) as [E1 E2].
    destruct (CA _ is_text k_username (text_kept pf ff) E1) as [T1 S1]. destruct (CA _ is_text k_password (text_kept pf ff) E2) as [T2 S2].
    destruct (fields_made set_svn _ M (mkSvn [] []) svn_made (Forall_both _ _ _ T1 T2)) as (g & D).
    exists g. unfold newSvn. rewrite (struct_fields _ _ _ _ C). split; [exact D|]. split.
    - apply S1. eapply (field_scalar (fun v => v)); [names|names|exact at_username|intros ?; apply text_dec|exact D|reflexivity].
    - apply S2. eapply (field_scalar (fun v => v)); [names|names|exact at_password|intros ?; apply text_dec|exact D|reflexivity]. }
  destruct K as [<-|[<-|[<-|[<-|[<-|[<-|[<-|[]]]]]]]].
  - destruct (O1 eq_refl) as [E1 E2].
    destruct (CA _ is_switch k_detect_ref (switch_kept pf ff) E1) as [T1 S1]. destruct (CA _ is_text k_ref (text_kept pf ff) E2) as [T2 S2].
    destruct (fields_made set_git _ M (mkGit false []) git_made (Forall_both _ _ _ T1 T2)) as (g & D).
    exists (Command (Git g)). split. { change (bind (newGit conf) (fun g => Some (Command (Git g))) = Some (Command (Git g))). unfold newGit. rewrite (struct_fields _ _ _ _ C), D. reflexivity. }
    left. split; [reflexivity|]. exists g. split; [reflexivity|]. split.
    + apply S1. eapply (field_scalar (fun v => v)); [names|names|exact at_detect|intros ?; apply switch_dec|exact D|reflexivity].
    + apply S2. eapply (field_scalar (fun v => v)); [names|names|exact at_ref|intros ?; apply text_dec|exact D|reflexivity].
  - exists (Command Hg). split; [reflexivity|]. right. left. auto.
  - exists (Command Hg). split; [reflexivity|]. right. left. auto.
  - destruct SVN as (g & N & H); [auto|]. exists (Command (Svn g)). split. { change (bind (newSvn conf) (fun g => Some (Command (Svn g))) = Some (Command (Svn g))). rewrite N. reflexivity. }
    right. right. left. split; [auto|]. exists g. auto.
  - destruct SVN as (g & N & H); [auto|]. exists (Command (Svn g)). split. { change (bind (newSvn conf) (fun g => Some (Command (Svn g))) = Some (Command (Svn g))). rewrite N. reflexivity. }
    right. right. left. split; [auto|]. exists g. auto.
  - exists (Command Bzr). split; [reflexivity|]. right. right. right. left. auto.
  - destruct (O3 eq_refl) as [E1 E2].
    destruct (CA _ is_switch k_watch_changes (switch_kept pf ff) E1) as [T1 S1]. destruct (CA _ is_texts k_ignored_files (texts_kept pf ff) E2) as [T2 S2].
    destruct (fields_made set_local _ M (mkLocal false []) local_made (Forall_both _ _ _ T1 T2)) as (g & D).
    exists (Local g). split. { change (bind (newLocal conf) (fun g => Some (Local g)) = Some (Local g)). unfold newLocal. rewrite (struct_fields _ _ _ _ C), D. reflexivity. }
    right. right. right. right. split; [reflexivity|]. exists g. split; [reflexivity|]. split.
    + apply S1. eapply (field_scalar (fun v => v)); [names|names|exact at_watch|intros ?; apply switch_dec|exact D|reflexivity].
    + apply S2. apply slice_said; [exact T2|]. eapply (field_scalar (fun v => v)); [names|names|exact at_ignored|intros x old new; apply slice_dec|exact D|reflexivity].
Qed.

Theorem drivers_told : forall parse_float format_float short abs c c', floats_ok parse_float format_float ->
  finish_load (unmarshal_map parse_float) (marshal_map format_float short) abs c = Some (Some c') ->
  Forall2 (fun a b => fst a = fst b /\ match snd a, snd b with
    | Some r, Some r' => forall own glob, own_settings r own -> global_settings c (r_vcs r') glob ->
        known_vcs (r_vcs r') -> options_ok (r_vcs r') (glob ++ own) ->
        exists w, New (r_vcs r') (r_vcsconf r') = Some w /\ driver_for (r_vcs r') (glob ++ own) w
    | _, _ => False end) (c_repos c) (c_repos c').
Proof.
  intros pf ff short abs c c' FO H. destruct (load_inv _ _ abs c c' H) as (db & rs & _ & IR & M).
  apply each_repo_inv in IR. destruct (merge_inv _ _ _ _ M) as (_ & _ & _ & _ & V & _ & R). cbn [c_vcs c_repos prepared] in V, R.
  destruct R as [[V0 R]|[V0 (g & GV & E)]].
  - rewrite R. eapply EndToEnd.Forall2_imp; [|exact IR]. intros [n r] [n' r'] [E1 E2]. cbn [fst snd] in *. split; [exact E1|].
    destruct r as [r|], r' as [r'|]; try contradiction. intros own glob OW GS K O.
    assert (glob = []) as -> by (destruct GS as [[_ G]|(b & G & _)]; [exact G|rewrite V0 in G; discriminate G]).
    eapply (driver_made pf ff); [apply own_conf| |exact K|exact O].
    + assert (r' = init_repo r) as -> by congruence. destruct r as [u d ms v cf p ex po pu au]. exact OW.
    + intros A is name _. apply same_carried.
  - apply each_repo_inv in E. refine (Forall2_comp _ _ _ _ _ _ _ IR E).
    intros [n r] [n1 r1] [n2 r2] [E1 E2] [E3 E4]. cbn [fst snd] in *. split; [congruence|].
    destruct r as [r|]; [|contradiction]. destruct r1 as [r1|]; [|contradiction]. destruct r2 as [r2|]; [|contradiction].
    intros own glob OW GS K O. assert (r1 = init_repo r) as -> by congruence.
    assert (OW' : own_settings (init_repo r) own) by (destruct r; exact OW).
    assert (SV : r_vcs r2 = r_vcs (init_repo r)). { unfold merge_repo in E4. destruct (get g _); [|congruence]. destruct (match VcsConfig _ with [] => _ | b => _ end) as [vals|]; [|discriminate]. destruct (fill_missing vals _) as [vals'|]; [|discriminate]. cbn [bind] in E4. injection E4 as <-. reflexivity. }
    unfold global_settings in GS. rewrite SV in GS.
    destruct (merged_conf pf ff short FO _ _ _ _ _ _ GV E4 OW' GS) as (_ & MM & CI & CA).
    eapply (driver_made pf ff); [exact CI|exact CA|exact K|exact O].
Qed.

Lemma driver_known : forall vcs conf w, New vcs conf = Some w -> known_vcs vcs.
Proof.
  intros vcs conf w H. unfold New in H. destruct (get drivers vcs) as [f|] eqn:G; [|discriminate].
  apply get_in in G. apply (in_map fst) in G. exact G.
Qed.

(** For the examples: a text that is read as a value and written as the same text. *)
Lemma text_checked : forall v b, decode_json b = Some (v, []) -> print true v = b -> json_text v b.
Proof.
  intros v b D P. destruct (sound_ok _ (decode_sound _ _ _ D)) as [W V]. destruct (json_written true v W) as (v' & R & T).
  rewrite (vreplaced_exact _ _ R V), P in T. exact T.
Qed.
Definition ex_format (n : N) : str := [48 + n].
Definition ex_parse (s : str) : option N := match s with [c] => if (48 <=? c) && (c <=? 57) then Some (c - 48) else None | _ => None end.
Lemma ex_floats : floats_ok ex_parse ex_format.
Proof.
  assert (L : forall lit n, ex_parse lit = Some n -> n <= 9).
  { intros [|c [|c2 r]] n E; try discriminate. unfold ex_parse in E. destruct ((48 <=? c) && (c <=? 57)) eqn:C; [|discriminate].
    rewrite andb_true_iff in C. destruct C as [A B]. apply N.leb_le in A, B. assert (n = c - 48) as -> by congruence. lia. }
  constructor; intros lit n E; apply L in E.
  - exists [], [48 + n], [], []. split; [reflexivity|]. split; [left; reflexivity|]. split; [|split; left; reflexivity].
    split; [discriminate|]. split; [constructor; [split; lia|constructor]|]. intros r X. congruence.
  - unfold ex_format, ex_parse. rewrite (proj2 (N.leb_le 48 (48 + n))), (proj2 (N.leb_le (48 + n) 57)) by lia. cbn [andb]. f_equal. lia.
Qed.
Definition ex_repo (vcs : str) (conf : option bytes) : repo := mkRepo (text "u") [] 0 vcs conf None false None None None.
Definition ex_config (vcs name : str) (global : bytes) (conf : option bytes) : config :=
  mkConfig (text "/d") [] [(text "r", Some (ex_repo vcs conf))] 0 [] [(name, Some global)] 0.

(** Settings that are no object. *)
Definition with_settings (vcs : str) : Prop := In vcs [text "git"; text "svn"; text "subversion"; text "local"].
Lemma unsaid_nothing : forall {A} (is : jv -> A -> Prop) name zero, last_said is name zero [] zero.
Proof. intros. left. split; [reflexivity|constructor]. Qed.
Lemma driver_default : forall vcs, known_vcs vcs -> exists w, New vcs None = Some w /\ driver_for vcs [] w.
Proof.
  intros vcs K. cbn [known_vcs In] in K. destruct K as [<-|[<-|[<-|[<-|[<-|[<-|[<-|[]]]]]]]].
  - eexists. split; [reflexivity|]. left. split; [reflexivity|]. eexists. split; [reflexivity|]. split; apply unsaid_nothing.
  - eexists. split; [reflexivity|]. right. left. auto.
  - eexists. split; [reflexivity|]. right. left. auto.
  - eexists. split; [reflexivity|]. right. right. left. split; [auto|]. eexists. split; [reflexivity|]. split; apply unsaid_nothing.
  - eexists. split; [reflexivity|]. right. right. left. split; [auto|]. eexists. split; [reflexivity|]. split; apply unsaid_nothing.
  - eexists. split; [reflexivity|]. right. right. right. left. auto.
  - eexists. split; [reflexivity|]. right. right. right. right. split; [reflexivity|]. eexists. split; [reflexivity|]. split; apply unsaid_nothing.
Qed.
Lemma null_settings : forall vcs b, json_text VNull b -> New vcs (Some b) = New vcs None.
Proof.
  intros vcs b T. pose proof (whole_text json_string string_read _ _ T) as W. unfold New.
  destruct (get drivers vcs) as [f|] eqn:G; [|reflexivity]. cbn [bind]. apply get_in in G. cbn [drivers In] in G.
  repeat (destruct G as [G|G]; [apply (f_equal snd) in G; cbn [snd] in G; subst f; unfold newGit, newSvn, newLocal, unmarshal_struct; rewrite ?W; reflexivity|]).
  destruct G.
Qed.
Lemma other_settings : forall vcs v b, with_settings vcs -> json_text v b -> v <> VNull -> (forall l, v <> VObj l) -> New vcs (Some b) = None.
Proof.
  intros vcs v b K T NN NO. pose proof (whole_text json_string string_read _ _ T) as W.
  assert (U : forall R (set : str -> jv -> R -> option R) zero, unmarshal_struct set zero (Some b) = None).
  { intros R set zero. unfold unmarshal_struct. rewrite W. cbn [bind]. destruct v; try reflexivity; [contradiction|exfalso; eapply NO; reflexivity]. }
  cbn [with_settings In] in K. destruct K as [<-|[<-|[<-|[<-|[]]]]].
  - change (New (text "git") (Some b)) with (g <- newGit (Some b) ;; Some (Command (Git g))). unfold newGit. rewrite U. reflexivity.
  - change (New (text "svn") (Some b)) with (g <- newSvn (Some b) ;; Some (Command (Svn g))). unfold newSvn. rewrite U. reflexivity.
  - change (New (text "subversion") (Some b)) with (g <- newSvn (Some b) ;; Some (Command (Svn g))). unfold newSvn. rewrite U. reflexivity.
  - change (New (text "local") (Some b)) with (g <- newLocal (Some b) ;; Some (Local g)). unfold newLocal. rewrite U. reflexivity.
Qed.
