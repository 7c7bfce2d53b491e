(** Loading a configuration: merging, secrecy of the listing, defaults. *)
From Verif Require Import Model.Base Model.Config Spec.Names Spec.ConfigSpec Proofs.StrLemmas.
Local Open Scope Z_scope.

Lemma str_eqb_sym : forall a b, str_eqb a b = str_eqb b a.
Proof.
  intros. destruct (str_eqb a b) eqn:E.
  - apply str_eqb_eq in E. subst. symmetry. apply str_eqb_refl.
  - symmetry. apply str_eqb_neq. apply str_eqb_neq in E. congruence.
Qed.

Lemma get_put : forall {A} (m : list (str * A)) k v k',
  get (put m k v) k' = if str_eqb k' k then Some v else get m k'.
Proof.
  induction m as [|[x w] m IH]; intros k v k'; cbn [put get]; [reflexivity|].
  destruct (str_eqb k x) eqn:E; cbn [get].
  - apply str_eqb_eq in E. subst x. destruct (str_eqb k' k); reflexivity.
  - rewrite IH. destruct (str_eqb k' x) eqn:E1; [|reflexivity].
    destruct (str_eqb k' k) eqn:E2; [|reflexivity].
    apply str_eqb_eq in E1, E2. subst. rewrite str_eqb_refl in E. discriminate.
Qed.

Lemma put_keys : forall {A} (m : list (str * A)) k v, get m k = None -> keys (put m k v) = keys m ++ [k].
Proof.
  induction m as [|[x w] m IH]; intros k v H; cbn in *; [reflexivity|].
  destruct (str_eqb k x) eqn:E; [discriminate|]. cbn. f_equal. apply IH. exact H.
Qed.

Lemma get_none : forall {A} (m : list (str * A)) k, get m k = None <-> ~ In k (keys m).
Proof.
  induction m as [|[x w] m IH]; intros k; cbn; [tauto|].
  destruct (str_eqb k x) eqn:E.
  - apply str_eqb_eq in E. subst. split; [discriminate|]. intros H. exfalso. apply H. left. reflexivity.
  - apply str_eqb_neq in E. rewrite IH. split; [|tauto]. intros H [->|H1]; [congruence|tauto].
Qed.

Lemma NoDup_snoc : forall {A} (l : list A) x, NoDup l -> ~ In x l -> NoDup (l ++ [x]).
Proof.
  induction l as [|y l IH]; intros x N I; cbn; [constructor; [tauto|constructor]|].
  inversion N as [|? ? NI ND]; subst. constructor.
  - rewrite in_app_iff. cbn in *. intros [H|[->|[]]]; tauto.
  - apply IH; [assumption|]. cbn in I. tauto.
Qed.

Lemma put_nodup : forall {A} (m : list (str * A)) k v, get m k = None -> NoDup (keys m) -> NoDup (keys (put m k v)).
Proof.
  intros A m k v G N. rewrite put_keys by exact G. apply NoDup_snoc; [exact N|]. apply get_none. exact G.
Qed.

Lemma fill_missing_some : forall g m, NoDup (keys m) -> NoDup (keys g) ->
  exists m', fill_missing (Some m) g = Some (Some m') /\ NoDup (keys m') /\
    forall k, get m' k = match get m k with Some v => Some v | None => get g k end.
Proof.
  induction g as [|[x v] g IH]; intros m NM NG; cbn [fill_missing].
  - exists m. split; [reflexivity|]. split; [exact NM|]. intros k. destruct (get m k); reflexivity.
  - apply NoDup_cons_iff in NG. destruct NG as [NI NG].
    destruct (get m x) as [w|] eqn:G.
    + destruct (IH m NM NG) as (m' & E & N & GK). exists m'. split; [exact E|]. split; [exact N|].
      intros k. rewrite GK. destruct (get m k) eqn:GM; [reflexivity|]. cbn [get].
      destruct (str_eqb k x) eqn:EK; [|reflexivity]. apply str_eqb_eq in EK. congruence.
    + destruct (IH (put m x v)) as (m' & E & N & GK); [apply put_nodup; assumption|exact NG|].
      exists m'. split; [exact E|]. split; [exact N|]. intros k. rewrite GK, get_put. cbn [get].
      destruct (str_eqb k x) eqn:EK; [|reflexivity]. apply str_eqb_eq in EK. subst. rewrite G. reflexivity.
Qed.

Lemma put_all : forall {A} (P : str * A -> Prop) m k v, get m k = None -> Forall P m -> P (k, v) -> Forall P (put m k v).
Proof.
  intros A P. induction m as [|[x w] m IH]; intros k v G F Q; cbn [put get] in *; [constructor; [exact Q|constructor]|].
  destruct (str_eqb k x) eqn:E; [discriminate|]. constructor; [exact (Forall_inv F)|]. apply IH; [exact G|exact (Forall_inv_tail F)|exact Q].
Qed.
Lemma fill_missing_all : forall (P : str * json -> Prop) g m m', fill_missing (Some m) g = Some (Some m') ->
  Forall P m -> Forall P g -> Forall P m'.
Proof.
  intros P. induction g as [|[x v] g IH]; intros m m' E FM FG; cbn [fill_missing] in E.
  - assert (m' = m) as -> by congruence. exact FM.
  - destruct (get m x) as [w|] eqn:G; (eapply IH; [exact E| |exact (Forall_inv_tail FG)]); [exact FM|].
    apply put_all; [exact G|exact FM|exact (Forall_inv FG)].
Qed.

Lemma fill_missing_noop : forall g m, (forall k, In k (keys g) -> get m k <> None) ->
  fill_missing (Some m) g = Some (Some m).
Proof.
  induction g as [|[x v] g IH]; intros m H; cbn [fill_missing]; [reflexivity|].
  destruct (get m x) eqn:G; [|exfalso; apply (H x); [left; reflexivity|exact G]].
  apply IH. intros k I. apply H. right. exact I.
Qed.

Lemma or_default_idem : forall s d, or_default (or_default s d) d = or_default s d.
Proof. intros [|c s] [|x d]; reflexivity. Qed.
Lemma or_default_int_idem : forall s d, or_default_int (or_default_int s d) d = or_default_int s d.
Proof.
  intros s d. unfold or_default_int at 2 3. destruct (Z.eqb_spec s 0).
  - unfold or_default_int. destruct (d =? 0); reflexivity.
  - unfold or_default_int. destruct (Z.eqb_spec s 0); [contradiction|reflexivity].
Qed.
Lemma fills_str : forall s d, fills (s = []) s d (or_default s d).
Proof. intros [|c s] d; [left; auto|right; split; [discriminate|reflexivity]]. Qed.
Lemma fills_int : forall s d, fills (s = 0) s d (or_default_int s d).
Proof. intros s d. unfold or_default_int, fills. destruct (Z.eqb_spec s 0); tauto. Qed.

Lemma each_repo_inv : forall f l l', each_repo f l = Some (Some l') ->
  Forall2 (fun a b => fst a = fst b /\
     match snd a, snd b with Some r, Some r' => f r = Some (Some r') | _, _ => False end) l l'.
Proof.
  induction l as [|[n r] l IH]; intros l' H; cbn [each_repo] in H.
  - injection H as <-. constructor.
  - destruct r as [r|]; cbn [bind] in H; [|discriminate].
    destruct (f r) as [[r'|]|] eqn:F; cbn [bind] in H; try discriminate.
    destruct (each_repo f l) as [[m|]|] eqn:E; cbn [bind] in H; try discriminate.
    injection H as <-. constructor; [cbn; auto|]. apply IH. reflexivity.
Qed.

Lemma each_repo_intro : forall f l l',
  Forall2 (fun a b => fst a = fst b /\
     match snd a, snd b with Some r, Some r' => f r = Some (Some r') | _, _ => False end) l l' ->
  each_repo f l = Some (Some l').
Proof.
  intros f l l' H. induction H as [|[n r] [n' r'] l l' [E1 E2] F IH]; cbn [each_repo]; [reflexivity|].
  cbn in E1, E2. subst n'. destruct r as [r|]; [|contradiction]. destruct r' as [r'|]; [|contradiction].
  cbn [bind]. rewrite E2. cbn [bind]. rewrite IH. reflexivity.
Qed.

Lemma init_repo_filled : forall r, repo_filled r (init_repo r).
Proof.
  intros [u d ms v cf p ex po pu au]. unfold repo_filled, init_repo. cbn.
  repeat (split; [reflexivity|]). split; [apply fills_int|]. split; [apply fills_str|].
  destruct p as [[b a]|]; eexists; (split; [reflexivity|]); cbn; [|auto]. split; apply fills_str.
Qed.

Lemma init_repo_idem : forall r, init_repo (init_repo r) = init_repo r.
Proof.
  intros [u d ms v cf p ex po pu au]. unfold init_repo. cbn [r_url r_display r_ms r_vcs r_vcsconf r_pattern r_exdot r_poll r_push r_auto].
  rewrite or_default_int_idem, or_default_idem. destruct p as [[b a]|]; cbn [up_base up_anchor].
  - rewrite !or_default_idem. reflexivity.
  - reflexivity.
Qed.

Section Json.
  Variable un : bytes -> option (option (list (str * json))).
  Variable ma : option (list (str * json)) -> bytes.
  Variable abs : str -> option str.
  Hypothesis CO : codec_ok un ma.

  Lemma global_vals_get : forall l g, global_vals un l = Some (Some g) ->
    forall vcs, get g vcs = match get l vcs with
                            | Some (Some b) => un b
                            | _ => None
                            end.
  Proof.
    induction l as [|[x b] l IH]; intros g H vcs; cbn [global_vals] in H.
    - injection H as <-. reflexivity.
    - destruct b as [b|]; cbn [bind] in H; [|discriminate]. destruct (un b) as [vals|] eqn:U; [|discriminate].
      destruct (global_vals un l) as [[m|]|] eqn:E; cbn [bind] in H; try discriminate.
      injection H as <-. cbn [get]. destruct (str_eqb vcs x); [congruence|]. apply IH. reflexivity.
  Qed.

  Lemma global_vals_dom : forall l g, global_vals un l = Some (Some g) ->
    keys g = keys l /\ Forall (fun e => snd e <> None) l /\
    forall vcs, get g vcs = None <-> get l vcs = None.
  Proof.
    induction l as [|[x b] l IH]; intros g H; cbn [global_vals] in H.
    - injection H as <-. repeat split; auto.
    - destruct b as [b|]; cbn [bind] in H; [|discriminate]. destruct (un b) as [vals|] eqn:U; [|discriminate].
      destruct (global_vals un l) as [[m|]|] eqn:E; cbn [bind] in H; try discriminate.
      injection H as <-. destruct (IH m eq_refl) as (K & F & G). cbn [keys map fst get].
      split; [f_equal; exact K|]. split; [constructor; [discriminate|exact F]|].
      intros vcs. destruct (str_eqb vcs x); [split; discriminate|]. apply G.
  Qed.

  Lemma merge_repo_ok : forall l g r r', global_vals un l = Some (Some g) ->
    merge_repo un ma g r = Some (Some r') ->
    same_but_conf r r' /\
    (get l (r_vcs r) = None -> r' = r) /\
    (get l (r_vcs r) <> None -> present (r_vcsconf r') = true) /\
    forall k, setting un (r_vcsconf r') k =
      match setting un (r_vcsconf r) k with
      | Some v => Some v
      | None => match get l (r_vcs r) with Some conf => setting un conf k | None => None end
      end.
  Proof.
    intros l g r r' GV H. unfold merge_repo in H.
    pose proof (global_vals_get l g GV (r_vcs r)) as GG.
    destruct (global_vals_dom l g GV) as (_ & _ & GD). specialize (GD (r_vcs r)).
    destruct (get g (r_vcs r)) as [gv|] eqn:G.
    2:{ injection H as <-. split; [repeat split; reflexivity|].
        assert (N : get l (r_vcs r) = None) by (apply GD; reflexivity). rewrite N.
        split; [reflexivity|]. split; [congruence|].
        intros k. destruct (setting un (r_vcsconf r) k); reflexivity. }
    destruct (get l (r_vcs r)) as [conf|] eqn:L; [|discriminate].
    destruct conf as [gb|]; [|discriminate].
    set (gl := match gv with None => [] | Some g => g end) in *.
    assert (GS : forall k, setting un (Some gb) k = get gl k \/ gb = []).
    { intros k. cbn [setting]. destruct gb as [|c gb]; [right; reflexivity|left]. rewrite <- GG.
      destruct gv; reflexivity. }
    assert (NG : NoDup (keys gl)).
    { unfold gl. destruct gv as [gv|]; [|constructor]. eapply co_nodup; [exact CO|]. symmetry. exact GG. }
    set (own := match VcsConfig r with [] => Some (Some []) | b => un b end) in *.
    destruct own as [vals|] eqn:EO; [|discriminate]. subst own.
    destruct (fill_missing vals gl) as [vals'|] eqn:F; cbn [bind] in H; [|discriminate].
    injection H as <-. split; [repeat split; reflexivity|].
    split; [discriminate|]. split; [reflexivity|]. intros k. cbn [r_vcsconf with_vcsconf].
    assert (OWN : setting un (r_vcsconf r) k = match vals with Some m => get m k | None => None end).
    { unfold VcsConfig in EO. destruct (r_vcsconf r) as [[|c b]|]; cbn [setting].
      - injection EO as <-. reflexivity.
      - rewrite EO. destruct vals; reflexivity.
      - injection EO as <-. reflexivity. }
    rewrite OWN.
    assert (GE : setting un (Some gb) k = get gl k).
    { destruct gb as [|c gb]; [rewrite (co_empty un ma CO) in GG; discriminate|]. cbn [setting].
      rewrite <- GG. destruct gv; reflexivity. }
    rewrite GE. cbn [setting]. pose proof (co_text un ma CO vals') as TX.
    destruct (ma vals') as [|c tx] eqn:TE; [contradiction|]. rewrite <- TE. clear TX.
    destruct vals as [m|].
    - assert (NM : NoDup (keys m)).
      { unfold VcsConfig in EO. destruct (r_vcsconf r) as [[|c0 b]|];
          try (injection EO as <-; constructor). eapply co_nodup; [exact CO|exact EO]. }
      assert (DG : Forall (decoded un) gl).
      { unfold gl. destruct gv as [gv|]; [|constructor]. apply Forall_forall. intros e I. eexists _, gv. split; [symmetry; exact GG|exact I]. }
      assert (DM : Forall (decoded un) m).
      { unfold VcsConfig in EO. destruct (r_vcsconf r) as [[|c0 b]|]; try (injection EO as <-; constructor).
        apply Forall_forall. intros e I. eexists _, m. split; [exact EO|exact I]. }
      destruct (fill_missing_some gl m NM NG) as (m' & F' & N' & GK). rewrite F in F'. injection F' as ->.
      pose proof (fill_missing_all _ _ _ _ F DM DG) as D'.
      destruct (co_round un ma CO m' N' D') as (m2 & -> & R). rewrite R, GK. reflexivity.
    - destruct gl as [|[x v] gl']; [|discriminate]. cbn [fill_missing] in F. injection F as <-.
      rewrite (co_null un ma CO). reflexivity.
  Qed.

  Lemma merge_repo_idem : forall l g r r', global_vals un l = Some (Some g) ->
    merge_repo un ma g r = Some (Some r') -> merge_repo un ma g r' = Some (Some r').
  Proof.
    intros l g r r' GV H. pose proof H as H0. unfold merge_repo in H.
    destruct (get g (r_vcs r)) as [gv|] eqn:G; [|injection H as <-; exact H0].
    pose proof (global_vals_get l g GV (r_vcs r)) as GG. rewrite G in GG.
    set (gl := match gv with None => [] | Some g => g end) in *.
    assert (NG : NoDup (keys gl)).
    { unfold gl. destruct gv as [gv|]; [|constructor].
      destruct (get l (r_vcs r)) as [[b|]|]; try discriminate.
      eapply co_nodup; [exact CO|]. symmetry. exact GG. }
    set (own := match VcsConfig r with [] => Some (Some []) | b => un b end) in *.
    destruct own as [vals|] eqn:EO; [|discriminate]. subst own.
    destruct (fill_missing vals gl) as [vals'|] eqn:F; cbn [bind] in H; [|discriminate].
    injection H as <-. unfold merge_repo. cbn [r_vcs with_vcsconf]. rewrite G. fold gl.
    unfold VcsConfig at 1. cbn [r_vcsconf with_vcsconf].
    pose proof (co_text un ma CO vals') as TX.
    destruct (ma vals') as [|c tx] eqn:TE; [contradiction|]. rewrite <- TE. clear TX.
    assert (W : forall b, with_vcsconf (with_vcsconf r (ma vals')) b = with_vcsconf r b) by reflexivity.
    destruct vals as [m|].
    - assert (NM : NoDup (keys m)).
      { unfold VcsConfig in EO. destruct (r_vcsconf r) as [[|c0 b]|];
          try (injection EO as <-; constructor). eapply co_nodup; [exact CO|exact EO]. }
      assert (DG : Forall (decoded un) gl).
      { unfold gl. destruct gv as [gv|]; [|constructor]. destruct (get l (r_vcs r)) as [[gb|]|]; try discriminate. apply Forall_forall. intros e I. eexists _, gv. split; [symmetry; exact GG|exact I]. }
      assert (DM : Forall (decoded un) m).
      { unfold VcsConfig in EO. destruct (r_vcsconf r) as [[|c0 b]|]; try (injection EO as <-; constructor).
        apply Forall_forall. intros e I. eexists _, m. split; [exact EO|exact I]. }
      destruct (fill_missing_some gl m NM NG) as (m' & F' & N' & GK). rewrite F in F'. injection F' as ->.
      pose proof (fill_missing_all _ _ _ _ F DM DG) as D'.
      destruct (co_round un ma CO m' N' D') as (m2 & E2 & R). rewrite E2.
      rewrite fill_missing_noop.
      + cbn [bind]. rewrite W. do 3 f_equal. apply (co_ext un ma CO); [eapply co_nodup; eassumption|exact N'| |exact D'|exact R].
        apply Forall_forall. intros e I. eexists _, m2. split; [exact E2|exact I].
      + intros k I. rewrite R, GK. destruct (get m k); [discriminate|]. intros N. apply get_none in N. contradiction.
    - destruct gl as [|[x v] gl']; [|discriminate]. cbn [fill_missing] in F. injection F as <-.
      rewrite (co_null un ma CO). cbn [fill_missing bind]. reflexivity.
  Qed.

  Lemma merge_inv : forall c c', mergeVCSConfigs un ma c = Some (Some c') ->
    c_dbpath c' = c_dbpath c /\ c_title c' = c_title c /\ c_maxidx c' = c_maxidx c /\
    c_health c' = c_health c /\ c_vcs c' = c_vcs c /\ c_limit c' = c_limit c /\
    (c_vcs c = [] /\ c_repos c' = c_repos c \/
     c_vcs c <> [] /\ exists g, global_vals un (c_vcs c) = Some (Some g) /\
       each_repo (merge_repo un ma g) (c_repos c) = Some (Some (c_repos c'))).
  Proof.
    intros c c' H. unfold mergeVCSConfigs in H. destruct (c_vcs c) as [|e l] eqn:V.
    - injection H as <-. repeat (split; [reflexivity || exact V|]). left. auto.
    - destruct (global_vals un (e :: l)) as [[g|]|] eqn:GV; cbn [bind] in H; try discriminate.
      destruct (each_repo (merge_repo un ma g) (c_repos c)) as [[rs|]|] eqn:E; cbn [bind] in H; try discriminate.
      injection H as <-. cbn. repeat (split; [reflexivity || exact V|]). right. split; [discriminate|].
      exists g. auto.
  Qed.

  Lemma merge_settings : forall c c', mergeVCSConfigs un ma c = Some (Some c') ->
    c_dbpath c' = c_dbpath c /\ c_title c' = c_title c /\ c_maxidx c' = c_maxidx c /\
    c_health c' = c_health c /\ c_vcs c' = c_vcs c /\ c_limit c' = c_limit c /\
    (c_vcs c = [] -> c_repos c' = c_repos c) /\
    (c_vcs c <> [] ->
    Forall2 (fun a b => fst a = fst b /\
       match snd a, snd b with
       | Some r, Some r' => same_but_conf r r' /\
           (get (c_vcs c) (r_vcs r) = None -> r' = r) /\
           forall k, setting un (r_vcsconf r') k =
             match setting un (r_vcsconf r) k with
             | Some v => Some v
             | None => global_setting un c (r_vcs r) k
             end
       | _, _ => False
       end) (c_repos c) (c_repos c')).
  Proof.
    intros c c' H. destruct (merge_inv c c' H) as (D & T & M & HC & V & L & R).
    repeat (split; [assumption|]). destruct R as [[V0 R]|[V0 (g & GV & E)]].
    - split; [intros; exact R|]. intros H0. contradiction.
    - split; [intros; contradiction|]. intros _. apply each_repo_inv in E. revert E. generalize (c_repos c) (c_repos c').
      intros l1 l2 E. induction E as [|[n r] [n' r'] l1 l2 [E1 E2] F IH]; constructor; [|exact IH].
      split; [exact E1|]. cbn [fst snd] in *. destruct r as [r|], r' as [r'|]; try contradiction.
      destruct (merge_repo_ok (c_vcs c) g r r' GV E2) as (S & N & _ & K). split; [exact S|]. split; [exact N|].
      unfold global_setting. exact K.
  Qed.

  Definition prepared (c : config) (db : str) (rs : list (str * option repo)) : config :=
    mkConfig db (or_default (c_title c) defaultTitle) rs
      (or_default_int (c_maxidx c) defaultMaxConcurrentIndexers)
      (or_default (c_health c) defaultHealthCheckURI) (c_vcs c) (or_default_int (c_limit c) defaultResultLimit).

  Lemma load_inv : forall c c', finish_load un ma abs c = Some (Some c') ->
    exists db rs, (if is_abs (c_dbpath c) then Some (c_dbpath c) else abs (c_dbpath c)) = Some db /\
      each_repo (fun r => Some (Some (init_repo r))) (c_repos c) = Some (Some rs) /\
      mergeVCSConfigs un ma (prepared c db rs) = Some (Some c').
  Proof.
    intros c c' H. unfold finish_load in H.
    destruct (if is_abs (c_dbpath c) then Some (c_dbpath c) else abs (c_dbpath c)) as [db|]; [|discriminate].
    destruct (each_repo (fun r => Some (Some (init_repo r))) (c_repos c)) as [[rs|]|]; cbn [bind] in H; try discriminate.
    exists db, rs. split; [reflexivity|]. split; [reflexivity|]. exact H.
  Qed.

  Lemma Forall2_comp : forall {A B C} (P : A -> B -> Prop) (Q : B -> C -> Prop) (R : A -> C -> Prop),
    (forall a b c, P a b -> Q b c -> R a c) -> forall l1 l2 l3, Forall2 P l1 l2 -> Forall2 Q l2 l3 -> Forall2 R l1 l3.
  Proof.
    intros A B C P Q R H l1 l2 l3 F. revert l3. induction F as [|a b l1 l2 H1 F IH]; intros l3 G; inversion G; subst; constructor.
    - eapply H; eassumption.
    - apply IH. assumption.
  Qed.

  Lemma merge_repos_shape : forall c c', mergeVCSConfigs un ma c = Some (Some c') ->
    Forall (fun e => snd e <> None) (c_repos c) ->
    Forall2 (fun a b => fst a = fst b /\
      match snd a, snd b with Some r, Some r' => same_but_conf r r' | _, _ => False end) (c_repos c) (c_repos c').
  Proof.
    intros c c' H N. destruct (merge_settings c c' H) as (_ & _ & _ & _ & _ & _ & E & S).
    destruct (c_vcs c) as [|e l].
    - rewrite E by reflexivity. clear - N. induction N as [|[n r] l H N IH]; constructor; [|exact IH].
      cbn in *. split; [reflexivity|]. destruct r; [|congruence]. repeat split; reflexivity.
    - specialize (S ltac:(discriminate)). clear - S. induction S as [|[n r] [n' r'] l1 l2 [E1 E2] F IH]; constructor; [|exact IH].
      split; [exact E1|]. cbn in *. destruct r, r'; try contradiction. apply E2.
  Qed.

  Lemma load_defaults : forall c c', finish_load un ma abs c = Some (Some c') -> config_filled abs c c'.
  Proof.
    intros c c' H. destruct (load_inv c c' H) as (db & rs & DB & IR & M).
    destruct (merge_inv _ _ M) as (D & T & MI & HC & V & L & _). cbn in D, T, MI, HC, V, L.
    unfold config_filled. rewrite D, T, MI, HC, V, L.
    split; [apply fills_str|]. split; [apply fills_int|]. split; [apply fills_str|]. split; [apply fills_int|].
    split; [reflexivity|]. split.
    - destruct (c_dbpath c) as [|x p] eqn:P; cbn [is_abs] in DB.
      + right. split; [discriminate|exact DB].
      + destruct (N.eqb_spec x 47) as [->|NE].
        * left. exists p. split; [reflexivity|]. congruence.
        * right. split; [congruence|exact DB].
    - apply each_repo_inv in IR.
      assert (N : Forall (fun e => snd e <> None) rs).
      { clear - IR. induction IR as [|[n r] [n' r'] l1 l2 [E1 E2] F IH]; constructor; [|exact IH].
        cbn in *. destruct r, r'; try contradiction. discriminate. }
      pose proof (merge_repos_shape _ _ M N) as S. cbn [c_repos prepared] in S.
      refine (Forall2_comp _ _ _ _ _ _ _ IR S).
      intros [n r] [n1 r1] [n2 r2] [E1 E2] [E3 E4]. cbn in *. split; [congruence|].
      destruct r as [r|]; [|contradiction]. destruct r1 as [r1|]; [|contradiction]. destruct r2 as [r2|]; [|contradiction].
      injection E2 as <-. destruct (init_repo_filled r) as (A1 & A2 & A3 & A4 & A5 & A6 & A7 & A8 & p & A9 & A10).
      destruct E4 as (B1 & B2 & B3 & B4 & B5 & B6 & B7 & B8 & B9).
      unfold repo_filled. rewrite <- B1, <- B2, <- B3, <- B4, <- B6, <- B7, <- B8, <- B9.
      repeat (split; [assumption|]). exists p. rewrite <- B5. auto.
  Qed.

  Lemma init_of_merged : forall r r', same_but_conf (init_repo r) r' -> init_repo r' = r'.
  Proof.
    intros r r' (B1 & B2 & B3 & B4 & B5 & B6 & B7 & B8 & B9).
    pose proof (init_repo_idem r) as I. revert I B1 B2 B3 B4 B5 B6 B7 B8 B9. generalize (init_repo r).
    intros ir I B1 B2 B3 B4 B5 B6 B7 B8 B9.
    assert (I1 : r_ms (init_repo ir) = r_ms ir) by (rewrite I; reflexivity).
    assert (I2 : r_vcs (init_repo ir) = r_vcs ir) by (rewrite I; reflexivity).
    assert (I3 : r_pattern (init_repo ir) = r_pattern ir) by (rewrite I; reflexivity).
    unfold init_repo in I1, I2, I3. cbn [r_ms r_vcs r_pattern] in I1, I2, I3. unfold init_repo.
    rewrite B3 in I1. rewrite B4 in I2. rewrite B5 in I3. rewrite I1, I2, I3. destruct r'; reflexivity.
  Qed.

  Lemma load_twice : forall c c', (forall p q, abs p = Some q -> is_abs q = true) ->
    finish_load un ma abs c = Some (Some c') -> finish_load un ma abs c' = Some (Some c').
  Proof.
    intros c c' AB H. destruct (load_inv c c' H) as (db & rs & DB & IR & M).
    destruct (merge_inv _ _ M) as (D & T & MI & HC & V & L & R). cbn in D, T, MI, HC, V, L.
    apply each_repo_inv in IR.
    assert (N : Forall (fun e => snd e <> None) rs).
    { clear - IR. induction IR as [|[n r] [n' r'] l1 l2 [E1 E2] F IH]; constructor; [|exact IH].
      cbn in *. destruct r, r'; try contradiction. discriminate. }
    pose proof (merge_repos_shape _ _ M N) as S. cbn [c_repos prepared] in S, R.
    assert (DB' : is_abs (c_dbpath c') = true).
    { rewrite D. destruct (is_abs (c_dbpath c)) eqn:A; [congruence|]. eapply AB. exact DB. }
    assert (IR' : each_repo (fun r => Some (Some (init_repo r))) (c_repos c') = Some (Some (c_repos c'))).
    { apply each_repo_intro.
      assert (F : Forall2 (fun _ b : str * option repo => match snd b with Some r' => init_repo r' = r' | None => False end)
                    (c_repos c) (c_repos c')).
      { refine (Forall2_comp _ _ _ _ _ _ _ IR S).
        intros [n r] [n1 r1] [n2 r2] [E1 E2] [E3 E4]. cbn [fst snd] in *.
        destruct r as [r|]; [|contradiction]. destruct r1 as [r1|]; [|contradiction]. destruct r2 as [r2|]; [|contradiction].
        injection E2 as <-. eapply init_of_merged. exact E4. }
      assert (FA : Forall (fun b : str * option repo => match snd b with Some r' => init_repo r' = r' | None => False end) (c_repos c')).
      { clear - F. induction F; constructor; assumption. }
      clear - FA. induction FA as [|[n [r|]] l H F IH]; constructor; try assumption; cbn [fst snd] in *; [|contradiction].
      split; [reflexivity|]. rewrite H. reflexivity. }
    unfold finish_load. rewrite DB', IR'. cbn [bind]. unfold initConfig. cbn [c_dbpath c_title c_repos c_maxidx c_health c_vcs c_limit].
    rewrite T, MI, HC, L, !or_default_idem, !or_default_int_idem, <- T, <- MI, <- HC, <- L.
    assert (ETA : mkConfig (c_dbpath c') (c_title c') (c_repos c') (c_maxidx c') (c_health c') (c_vcs c') (c_limit c') = c')
      by (destruct c'; reflexivity).
    rewrite ETA. unfold mergeVCSConfigs. destruct R as [[V0 R]|[V0 (g & GV & E)]].
    - cbn in V0. rewrite V, V0. reflexivity.
    - cbn in V0, GV. rewrite V. destruct (c_vcs c) as [|e0 l0]; [contradiction|]. rewrite GV. cbn [bind].
      assert (E' : each_repo (merge_repo un ma g) (c_repos c') = Some (Some (c_repos c'))).
      { apply each_repo_intro. apply each_repo_inv in E. clear - E GV CO.
        induction E as [|[n r] [n' r'] l1 l2 [E1 E2] F IH]; constructor; [|exact IH].
        cbn [fst snd] in *. split; [reflexivity|]. destruct r as [r|]; [|contradiction]. destruct r' as [r'|]; [|contradiction].
        eapply merge_repo_idem; eassumption. }
      rewrite E'. cbn [bind]. unfold with_repos. rewrite ETA. reflexivity.
  Qed.

  Lemma load_settings : forall c c', finish_load un ma abs c = Some (Some c') ->
    Forall2 (fun a b => fst a = fst b /\
       match snd a, snd b with
       | Some r, Some r' =>
           (get (c_vcs c) (or_default (r_vcs r) defaultVcs) = None -> r_vcsconf r' = r_vcsconf r) /\
           forall k, setting un (r_vcsconf r') k =
             match setting un (r_vcsconf r) k with
             | Some v => Some v
             | None => global_setting un c (or_default (r_vcs r) defaultVcs) k
             end
       | _, _ => False
       end) (c_repos c) (c_repos c').
  Proof.
    intros c c' H. destruct (load_inv c c' H) as (db & rs & DB & IR & M).
    destruct (merge_settings _ _ M) as (_ & _ & _ & _ & _ & _ & S0 & S1). cbn [c_vcs c_repos prepared] in S0, S1.
    apply each_repo_inv in IR. destruct (c_vcs c) as [|e l] eqn:V.
    - rewrite S0 by reflexivity. clear - IR V.
      induction IR as [|[n r] [n' r'] l1 l2 [E1 E2] F IH]; constructor; [|exact IH].
      cbn in *. split; [exact E1|]. destruct r as [r|]; [|contradiction]. destruct r' as [r'|]; [|contradiction].
      injection E2 as <-. split; [reflexivity|]. intros k. unfold global_setting. rewrite V. cbn.
      destruct (setting un (r_vcsconf r) k); reflexivity.
    - specialize (S1 ltac:(discriminate)). rewrite <- V in *.
      refine (Forall2_comp _ _ _ _ _ _ _ IR S1).
      intros [n r] [n1 r1] [n2 r2] [E1 E2] [E3 E4]. cbn [fst snd] in *. split; [congruence|].
      destruct r as [r|]; [|contradiction]. destruct r1 as [r1|]; [|contradiction]. destruct r2 as [r2|]; [|contradiction].
      injection E2 as <-. destruct E4 as (_ & E5 & E6). cbn [init_repo r_vcs r_vcsconf] in E5, E6.
      split; [|exact E6]. intros G. rewrite E5 by exact G. reflexivity.
  Qed.
End Json.

(** In terms of the file. *)
Lemma fills_file : forall {A} (given : option A) (zero def x : A), given <> Some zero ->
  fills ((match given with Some a => a | None => zero end) = zero) (match given with Some a => a | None => zero end) def x ->
  setting_of given def x.
Proof.
  intros A [a|] zero def x NZ [[M E]|[M E]].
  - exfalso. apply NZ. congruence.
  - left. congruence.
  - right. auto.
  - exfalso. apply M. reflexivity.
Qed.
Lemma load_file : forall un ma abs, codec_ok un ma -> forall d c',
  finish_load un ma abs (decode_config d) = Some (Some c') ->
  d_title d <> Some [] -> d_maxidx d <> Some 0 -> d_health d <> Some [] -> d_limit d <> Some 0 ->
  setting_of (d_title d) (text "Hound") (c_title c') /\ setting_of (d_maxidx d) 2 (c_maxidx c') /\
  setting_of (d_health d) (text "/healthz") (c_health c') /\ setting_of (d_limit d) 5000 (c_limit c').
Proof.
  intros un ma abs C d c' L N1 N2 N3 N4. destruct (load_defaults un ma abs C _ _ L) as (F1 & F2 & F3 & F4 & _).
  split; [exact (fills_file _ _ _ _ N1 F1)|]. split; [exact (fills_file _ _ _ _ N2 F2)|].
  split; [exact (fills_file _ _ _ _ N3 F3)|exact (fills_file _ _ _ _ N4 F4)].
Qed.
