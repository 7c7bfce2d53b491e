(** Links to files. *)
From Verif Require Import Model.Base Model.GoFmt Model.PageLinks Spec.ApiSpec Spec.Names Spec.LinkSpec Proofs.StrLemmas Proofs.FmtProofs.
From Coq Require Import Lia.
Local Open Scope N_scope.

(** Replacing. *)
Lemma substitution_same : forall m b a v, ~ In 36 v -> substitution m b a v = v.
Proof.
  intros m b a v. induction v as [|c v IH]; intros NI; [reflexivity|]. cbn [substitution].
  assert (C : c =? 36 = false) by (apply N.eqb_neq; intros ->; apply NI; left; reflexivity).
  destruct v as [|d v]; [reflexivity|]. rewrite C. cbn [negb]. f_equal. apply IH. intros I. apply NI. right. exact I.
Qed.
Lemma after_prefix_app : forall p s, after_prefix p (p ++ s) = Some s.
Proof. induction p as [|a p IH]; intros s; [reflexivity|]. cbn [app after_prefix]. rewrite N.eqb_refl. apply IH. Qed.
Lemma after_prefix_eq : forall p s r, after_prefix p s = Some r -> s = p ++ r.
Proof.
  induction p as [|a p IH]; intros s r E; cbn [after_prefix] in E; [cbn [app]; congruence|]. destruct s as [|b s]; [discriminate|].
  destruct (N.eqb_spec a b); [|discriminate]. subst b. cbn [app]. f_equal. apply IH. exact E.
Qed.
Lemma find_skip : forall n x s, ~ In 123 x -> find_first (braces n) (x ++ s) = option_map (fun '(a, b) => (x ++ a, b)) (find_first (braces n) s).
Proof.
  intros n x s. induction x as [|c x IH]; intros NI.
  - cbn [app]. destruct (find_first (braces n) s) as [(a & b)|]; reflexivity.
  - cbn [app find_first]. unfold braces at 1. cbn [after_prefix].
    assert (C : 123 =? c = false) by (apply N.eqb_neq; intros <-; apply NI; left; reflexivity). rewrite C.
    rewrite IH by (intros I; apply NI; right; exact I). destruct (find_first (braces n) s) as [(a & b)|]; reflexivity.
Qed.
Lemma other_name : forall n m s, ~ In 125 n -> ~ In 125 m -> n <> m -> after_prefix (n ++ [125]) (m ++ 125 :: s) = None.
Proof.
  induction n as [|a n IH]; intros m s A B D; destruct m as [|b m]; [congruence| | |]; cbn [app after_prefix].
  - assert (C : 125 =? b = false) by (apply N.eqb_neq; intros <-; apply B; left; reflexivity). rewrite C. reflexivity.
  - assert (C : a =? 125 = false) by (apply N.eqb_neq; intros ->; apply A; left; reflexivity). rewrite C. reflexivity.
  - destruct (N.eqb_spec a b); [|reflexivity]. subst b. apply IH; [intros I; apply A; right; exact I|intros I; apply B; right; exact I|congruence].
Qed.
Lemma find_other : forall n m s, ~ In 125 n -> ~ In 123 m -> ~ In 125 m -> n <> m ->
  find_first (braces n) (braces m ++ s) = option_map (fun '(a, b) => (braces m ++ a, b)) (find_first (braces n) s).
Proof.
  intros n m s A B0 B D. unfold braces at 2. cbn [app find_first]. unfold braces at 1. cbn [after_prefix]. rewrite N.eqb_refl.
  rewrite <- app_assoc. cbn [app]. rewrite other_name by assumption.
  change (m ++ 125 :: s) with (m ++ [125] ++ s). rewrite app_assoc. rewrite find_skip.
  - destruct (find_first (braces n) s) as [(a & b)|]; reflexivity.
  - intros I. apply in_app_or in I. destruct I as [I|[I|[]]]; [contradiction|discriminate].
Qed.
Definition well (p : piece) : Prop := match p with Plain s => ~ In 123 s | Var n => ~ In 123 n /\ ~ In 125 n end.
Lemma template_cons : forall p ps, template (p :: ps) = match p with Plain s => s | Var n => braces n end ++ template ps.
Proof. reflexivity. Qed.
Lemma template_app : forall a b, template (a ++ b) = template a ++ template b.
Proof. intros a b. unfold template. rewrite map_app, concat_app. reflexivity. Qed.
Lemma find_absent : forall n ps, ~ In 125 n -> Forall well ps -> ~ In n (names ps) -> find_first (braces n) (template ps) = None.
Proof.
  intros n ps B F. induction F as [|p ps W F IH]; intros NI; [reflexivity|]. rewrite template_cons. destruct p as [s|m].
  - rewrite find_skip by exact W. rewrite IH by exact NI. reflexivity.
  - destruct W as (W1 & W2). cbn [names flat_map app In] in NI. rewrite find_other; [|exact B|exact W1|exact W2|intros ->; apply NI; left; reflexivity].
    rewrite IH by (intros I; apply NI; right; exact I). reflexivity.
Qed.
Lemma find_present : forall n a b, ~ In 125 n -> Forall well a -> ~ In n (names a) ->
  find_first (braces n) (template (a ++ Var n :: b)) = Some (template a, template b).
Proof.
  intros n a b B F. induction F as [|p a W F IH]; intros NI.
  - cbn [app]. rewrite template_cons. change (find_first (braces n) (braces n ++ template b)) with
      (match after_prefix (braces n) (braces n ++ template b) with Some rest => Some ([], rest) | None =>
         '(x, y) <- find_first (braces n) ((n ++ [125]) ++ template b) ;; Some (123 :: x, y) end).
    rewrite after_prefix_app. reflexivity.
  - cbn [app]. rewrite template_cons. destruct p as [s|m].
    + rewrite find_skip by exact W. rewrite IH by exact NI. reflexivity.
    + destruct W as (W1 & W2). cbn [names flat_map app In] in NI. rewrite find_other; [|exact B|exact W1|exact W2|intros ->; apply NI; left; reflexivity].
      rewrite IH by (intros I; apply NI; right; exact I). reflexivity.
Qed.
Lemma names_app : forall a b, names (a ++ b) = names a ++ names b.
Proof. intros a b. unfold names. apply flat_map_app. Qed.
Lemma in_names : forall n ps, In n (names ps) -> exists a b, ps = a ++ Var n :: b /\ ~ In n (names a).
Proof.
  intros n ps. induction ps as [|p ps IH]; intros I; [destruct I|]. destruct p as [s|m].
  - destruct (IH I) as (a & b & -> & N1). exists (Plain s :: a), b. split; [reflexivity|exact N1].
  - destruct (list_eq_dec N.eq_dec m n) as [->|D]; [exists [], ps; split; [reflexivity|intros []]|].
    destruct I as [I|I]; [congruence|]. destruct (IH I) as (a & b & -> & N1). exists (Var m :: a), b. split; [reflexivity|].
    intros [J|J]; [congruence|contradiction].
Qed.
Lemma filled_app : forall f a b, filled f (a ++ b) = filled f a ++ filled f b.
Proof. intros f a b. unfold filled. rewrite map_app, concat_app. reflexivity. Qed.
Lemma filled_ext : forall f g ps, (forall n, In n (names ps) -> f n = g n) -> filled f ps = filled g ps.
Proof.
  intros f g ps. induction ps as [|p ps IH]; intros H0; [reflexivity|]. destruct p as [s|m].
  - change (s ++ filled f ps = s ++ filled g ps). f_equal. apply IH. exact H0.
  - change (match f m with Some v => v | None => braces m end ++ filled f ps = match g m with Some v => v | None => braces m end ++ filled g ps).
    rewrite (H0 m (or_introl eq_refl)). f_equal. apply IH. intros n I. apply H0. right. exact I.
Qed.
Lemma filled_none : forall ps, filled (fun _ => None) ps = template ps.
Proof. reflexivity. Qed.

Definition name_ok (n : str) : Prop := ~ In 125 n.
Theorem expand_ok : forall values ps, proper ps -> Forall (fun kv => name_ok (fst kv) /\ fillable (snd kv)) values ->
  ExpandVars (template ps) (map (fun kv => (fst kv, Some (snd kv))) values) = filled (value_of values) ps.
Proof.
  induction values as [|(k, v) values IH]; intros ps P F; [reflexivity|].
  pose proof (Forall_inv F) as FV. cbn [fst snd] in FV. destruct FV as (NK & F36 & F123). apply Forall_inv_tail in F.
  destruct P as (ND & W). cbn [map ExpandVars fst snd to_string]. change (123 :: k ++ [125]) with (braces k).
  unfold replace. destruct (in_dec (list_eq_dec N.eq_dec) k (names ps)) as [I|NI].
  - destruct (in_names _ _ I) as (a & b & -> & NA). apply Forall_app in W. destruct W as (WA & WB). pose proof (Forall_inv_tail WB) as WB'.
    rewrite find_present by assumption. rewrite substitution_same by exact F36.
    assert (E : template a ++ v ++ template b = template (a ++ Plain v :: b)) by (rewrite template_app, template_cons; reflexivity). rewrite E.
    rewrite names_app in ND. change (names (Var k :: b)) with (k :: names b) in ND.
    rewrite IH; [| |exact F].
    + rewrite !filled_app. assert (NB : ~ In k (names b)) by (apply NoDup_remove_2 in ND; intros J; apply ND, in_or_app; right; exact J).
      assert (EXT : forall l, ~ In k (names l) -> filled (value_of values) l = filled (value_of ((k, v) :: values)) l).
      { intros l NL. apply filled_ext. intros n J. cbn [value_of]. destruct (list_eq_dec N.eq_dec n k); [subst; contradiction|reflexivity]. }
      rewrite (EXT a NA). f_equal.
      change (v ++ filled (value_of values) b = match value_of ((k, v) :: values) k with Some v => v | None => braces k end ++ filled (value_of ((k, v) :: values)) b).
      rewrite (EXT b NB). cbn [value_of]. destruct (list_eq_dec N.eq_dec k k); [reflexivity|congruence].
    + split; [rewrite names_app; exact (NoDup_remove_1 _ _ _ ND)|]. apply Forall_app. split; [exact WA|]. constructor; [exact F123|exact WB'].
  - rewrite find_absent by assumption. rewrite IH; [|split; assumption|exact F]. apply filled_ext. intros n J. cbn [value_of].
    destruct (list_eq_dec N.eq_dec n k); [subst; contradiction|reflexivity].
Qed.

(** Endings. *)
Lemma without_end_app : forall e s, e <> [] -> without_end e (s ++ e) = s.
Proof.
  intros e s NE. induction s as [|c s IH].
  - cbn [app]. destruct e as [|x e]; [congruence|]. cbn [without_end]. rewrite str_eqb_refl. reflexivity.
  - cbn [app without_end]. assert (str_eqb (c :: s ++ e) e = false) as ->.
    { apply str_eqb_neq. intros E. apply (f_equal (@List.length N)) in E. cbn [List.length] in E. rewrite app_length in E. lia. }
    f_equal. exact IH.
Qed.
Lemma without_end_none : forall e s, e <> [] -> ~ ends e s -> without_end e s = s.
Proof.
  intros e s NE. induction s as [|c s IH]; intros NX; cbn [without_end].
  - destruct (str_eqb [] e) eqn:E; reflexivity.
  - destruct (str_eqb (c :: s) e) eqn:E; [apply str_eqb_eq in E; exfalso; apply NX; exists []; exact E|].
    f_equal. apply IH. intros (a & ->). apply NX. exists (c :: a). reflexivity.
Qed.
Lemma ends_with_ok : forall e s, ends_with e s = true <-> ends e s.
Proof.
  intros e s. induction s as [|c s IH]; cbn [ends_with].
  - rewrite Bool.orb_false_r, str_eqb_eq. split.
    + intros <-. exists []. reflexivity.
    + intros (a & E). symmetry in E. apply app_eq_nil in E. symmetry. apply E.
  - rewrite Bool.orb_true_iff, str_eqb_eq, IH. split.
    + intros [<-|(a & ->)]; [exists []; reflexivity|exists (c :: a); reflexivity].
    + intros (a & E). destruct a as [|d a]; [left; exact E|right]. exists a. cbn [app] in E. congruence.
Qed.
Lemma last_split_none : forall c s, ~ In c s -> last_split c s = None.
Proof.
  intros c s. induction s as [|x s IH]; intros NI; [reflexivity|]. cbn [last_split]. rewrite IH by (intros I; apply NI; right; exact I).
  destruct (N.eqb_spec x c); [subst; exfalso; apply NI; left; reflexivity|reflexivity].
Qed.
Lemma last_split_app : forall c a b, ~ In c b -> last_split c (a ++ c :: b) = Some (a, b).
Proof.
  intros c a b NI. induction a as [|x a IH]; cbn [app last_split].
  - rewrite last_split_none by exact NI. rewrite N.eqb_refl. reflexivity.
  - rewrite IH. reflexivity.
Qed.

(** Logins. *)
Lemma digits_app : forall d c r, Forall digit d -> ~ digit c -> digits (d ++ c :: r) = (d, c :: r).
Proof.
  intros d c r F NC. induction F as [|x d D F IH]; cbn [app digits].
  - destruct (N.leb_spec 48 c); destruct (N.leb_spec c 57); cbn [andb]; try reflexivity. exfalso. apply NC. split; lia.
  - destruct D as (D1 & D2). apply N.leb_le in D1, D2. rewrite D1, D2. cbn [andb]. rewrite IH. reflexivity.
Qed.
Lemma host_skip : forall h s, ~ In 58 h -> ~ In 47 h -> ssh_host (h ++ s) = option_map (fun '(x, p, q, r) => (h ++ x, p, q, r)) (ssh_host s).
Proof.
  intros h s. induction h as [|c h IH]; intros A B.
  - cbn [app]. destruct (ssh_host s) as [[[[x p] q] r]|]; reflexivity.
  - cbn [app ssh_host]. unfold ssh_port, ssh_path.
    assert (C1 : c =? 58 = false) by (apply N.eqb_neq; intros ->; apply A; left; reflexivity).
    assert (C2 : c =? 47 = false) by (apply N.eqb_neq; intros ->; apply B; left; reflexivity). rewrite C1, C2. cbn [orb option_map].
    rewrite IH; [|intros I; apply A; right; exact I|intros I; apply B; right; exact I]. destruct (ssh_host s) as [[[[x p] q] r]|]; reflexivity.
Qed.
Lemma ssh_host_ok : forall host port sep owner name,
  ~ In 58 host -> ~ In 47 host -> ~ In 47 name ->
    (port = [] /\ sep = 58 /\ (forall c r, owner = c :: r -> ~ digit c)) \/
    (port = [] /\ sep = 47) \/
    (sep = 47 /\ exists d, port = 58 :: d /\ d <> [] /\ Forall digit d) ->
  ssh_host (host ++ port ++ sep :: owner ++ 47 :: name) = Some (host, port, owner, name).
Proof.
  intros host port sep owner name A B C K. rewrite host_skip by assumption.
  assert (E : ssh_port (port ++ sep :: owner ++ 47 :: name) = Some (port, owner, name)).
  { destruct K as [(-> & -> & ND)|[(-> & ->)|(-> & d & -> & NE & F)]]; cbn [app].
    - unfold ssh_port. change (ssh_path (58 :: owner ++ 47 :: name)) with (last_split 47 (owner ++ 47 :: name)). rewrite last_split_app by exact C.
      change (58 =? 58) with true. cbv iota.
      assert (digits (owner ++ 47 :: name) = ([], owner ++ 47 :: name)) as ->.
      { destruct owner as [|c owner]; [reflexivity|]. cbn [app]. apply (digits_app [] c (owner ++ 47 :: name)); [constructor|]. exact (ND c owner eq_refl). }
      reflexivity.
    - unfold ssh_port. change (ssh_path (47 :: owner ++ 47 :: name)) with (last_split 47 (owner ++ 47 :: name)). rewrite last_split_app by exact C. reflexivity.
    - unfold ssh_port. change (58 =? 58) with true. cbv iota. rewrite digits_app; [|exact F|unfold digit; lia].
      change (ssh_path (47 :: owner ++ 47 :: name)) with (last_split 47 (owner ++ 47 :: name)). rewrite last_split_app by exact C.
      destruct d; [congruence|reflexivity]. }
  assert (E2 : forall s x, ssh_port s = Some x -> ssh_host s = Some ([], fst (fst x), snd (fst x), snd x)).
  { intros s [[x y] z] E2. destruct s; cbn [ssh_host]; rewrite E2; reflexivity. }
  rewrite (E2 _ _ E). cbn [option_map fst snd]. rewrite app_nil_r. reflexivity.
Qed.
Lemma parts_cons : forall c s, ssh_parts (c :: s) =
  match (match after_prefix (text "git@") (c :: s) with
         | Some r => ssh_host r
         | None => match after_prefix (text "hg@") (c :: s) with Some r => ssh_host r | None => None end
         end) with Some m => Some m | None => ssh_parts s end.
Proof. reflexivity. Qed.
Lemma parts_skip : forall pre who s, who = text "git" \/ who = text "hg" -> ~ In 64 pre -> 
  ssh_host s <> None -> ssh_parts (pre ++ who ++ 64 :: s) = ssh_host s.
Proof.
  intros pre who s HW. induction pre as [|c pre IH]; intros NI NN.
  - destruct HW as [->| ->].
    + change ([] ++ text "git" ++ 64 :: s) with (103 :: 105 :: 116 :: 64 :: s). rewrite parts_cons. 
      change (after_prefix (text "git@") (103 :: 105 :: 116 :: 64 :: s)) with (Some s). cbv iota. destruct (ssh_host s); [reflexivity|congruence].
    + change ([] ++ text "hg" ++ 64 :: s) with (104 :: 103 :: 64 :: s). rewrite parts_cons. 
      change (after_prefix (text "git@") (104 :: 103 :: 64 :: s)) with (@None str).
      change (after_prefix (text "hg@") (104 :: 103 :: 64 :: s)) with (Some s). cbv iota. destruct (ssh_host s); [reflexivity|congruence].
  - cbn [app]. rewrite parts_cons.
    assert (NP : ~ In 64 pre) by (intros I; apply NI; right; exact I).
    assert (G : forall w, (exists x, w = x ++ [64] /\ ~ In 64 x /\ x <> c :: pre ++ who) -> after_prefix w (c :: pre ++ who ++ 64 :: s) = None).
    { intros w (x & -> & NX & D). destruct (after_prefix (x ++ [64]) (c :: pre ++ who ++ 64 :: s)) as [r|] eqn:E; [|reflexivity].
      exfalso. apply after_prefix_eq in E. apply D. rewrite <- app_assoc in E. cbn [app] in E.
      assert (NW : ~ In 64 (c :: pre ++ who)).
      { intros [I|I]; [apply NI; left; exact I|]. apply in_app_or in I. destruct I as [I|I]; [contradiction|].
        destruct HW as [->| ->]; cbn in I; repeat (destruct I as [I|I]; [discriminate|]); exact I. }
      change (c :: pre ++ who ++ 64 :: s) with ((c :: pre) ++ who ++ 64 :: s) in E. rewrite app_assoc in E. change ((c :: pre) ++ who) with (c :: pre ++ who) in E.
      revert E NX NW. generalize (c :: pre ++ who). clear. intros y. revert x. induction y as [|b y IH]; intros x E NX NY; destruct x as [|a x]; cbn [app] in E.
      - reflexivity.
      - exfalso. apply NX. left. congruence.
      - exfalso. apply NY. left. congruence.
      - f_equal; [congruence|]. apply IH; [congruence|intros I; apply NX; right; exact I|intros I; apply NY; right; exact I]. }
    rewrite G.
    + rewrite G.
      * apply IH; assumption.
      * exists (text "hg"). split; [reflexivity|]. split; [cbn; intros [I|[I|[]]]; discriminate|].
        destruct HW as [->| ->]; intros E; apply (f_equal (@List.length N)) in E; cbn [List.length] in E; rewrite app_length in E; cbn in E; lia.
    + exists (text "git"). split; [reflexivity|]. split; [cbn; intros [I|[I|[I|[]]]]; discriminate|].
      destruct HW as [->| ->]; intros E.
      * apply (f_equal (@List.length N)) in E; cbn [List.length] in E; rewrite app_length in E; cbn in E; lia.
      * destruct pre as [|p pre]; [cbn in E; congruence|]. apply (f_equal (@List.length N)) in E; cbn [List.length app] in E; rewrite app_length in E; cbn in E; lia.
Qed.
Lemma parts_login : forall u pl, login_url u pl -> ssh_parts u = Some (pl_host pl, pl_port pl, pl_owner pl, pl_name pl).
Proof.
  intros u pl L. destruct L as [pre who host port sep owner name HW A B C D K].
  pose proof (ssh_host_ok host port sep owner name B C D K) as E. rewrite parts_skip; [exact E|exact HW|exact A|]. rewrite E. discriminate.
Qed.
Lemma parts_none : forall u, no_login u -> ssh_parts u = None.
Proof.
  intros u. induction u as [|c u IH]; intros NL; [reflexivity|]. rewrite parts_cons.
  destruct (after_prefix (text "git@") (c :: u)) as [r|] eqn:E.
  - apply after_prefix_eq in E. exfalso. apply (proj1 (NL [] r)). exact E.
  - destruct (after_prefix (text "hg@") (c :: u)) as [r|] eqn:E2.
    + apply after_prefix_eq in E2. exfalso. apply (proj2 (NL [] r)). exact E2.
    + apply IH. intros a b. destruct (NL (c :: a) b) as (A & B). cbn [app] in A, B. split; intros ->; [apply A|apply B]; reflexivity.
Qed.

(** The parts. *)
Definition known (p : url_parts) : list (str * str) :=
  [(text "url", p_url p); (text "hostname", p_hostname p); (text "port", p_port p); (text "project", p_project p); (text "repo", p_repo p)].
Lemma site_parts : forall u vs path rev anchor, site u vs ->
  let p := match ssh_parts u with
           | Some (host, port, project, name) =>
               let hostname := text "//" ++ host in mkParts (hostname ++ port ++ 47 :: project ++ 47 :: name) hostname port project name path rev anchor
           | None => mkParts u [] [] [] [] path rev anchor
           end in
  known p = vs /\ p_path p = path /\ p_rev p = rev /\ p_anchor p = anchor.
Proof.
  intros u vs path rev anchor S0. destruct S0 as [u NL|u host port owner name L].
  - rewrite parts_none by exact NL. cbv zeta. repeat split.
  - rewrite (parts_login _ _ L). cbn [pl_host pl_port pl_owner pl_name]. cbv zeta. repeat split.
Qed.
Definition anchor_of (repo : link_conf) (path : str) (line : option N) : str :=
  match line with
  | Some n => if n =? 0 then [] else ExpandVars (l_anchor repo)
      [(text "line", Some (fmt_d (Z.of_N n))); (text "filename", Some match last_split 47 path with Some (_, b) => b | None => path end)]
  | None => []
  end.
Lemma UrlParts_eq : forall repo path line rev, UrlParts repo path line rev =
  let url := without_end (text ".git") (l_url repo) in
  let '(url, path, anchor) :=
    if ends_with (text ".wiki") url then (replace url (text ".wiki") (text "/wiki"), without_end (text ".md") path, [])
    else (url, path, anchor_of repo path line) in
  match ssh_parts url with
  | Some (host, port, project, name) =>
      let hostname := text "//" ++ host in mkParts (hostname ++ port ++ 47 :: project ++ 47 :: name) hostname port project name path rev anchor
  | None => mkParts url [] [] [] [] path rev anchor
  end.
Proof. reflexivity. Qed.
Lemma find_single : forall w u, (forall a b, u ++ w = a ++ w ++ b -> a = u) -> find_first w (u ++ w) = Some (u, []).
Proof.
  intros w u. induction u as [|c u IH]; intros U.
  - cbn [app]. assert (E : after_prefix w w = Some []) by (pose proof (after_prefix_app w []) as E; rewrite app_nil_r in E; exact E).
    destruct w; cbn [find_first]; rewrite E; reflexivity.
  - cbn [app find_first]. destruct (after_prefix w (c :: u ++ w)) as [r|] eqn:E.
    + apply after_prefix_eq in E. exfalso. specialize (U [] r). cbn [app] in U. rewrite E in U. specialize (U eq_refl). discriminate.
    + rewrite IH; [reflexivity|]. intros a b X. specialize (U (c :: a) b). cbn [app] in U. rewrite X in U. specialize (U eq_refl). congruence.
Qed.
Lemma home_parts : forall repo vs path line rev, home (l_url repo) vs ->
  let p := UrlParts repo path line rev in known p = vs /\ p_path p = path /\ p_rev p = rev /\ p_anchor p = anchor_of repo path line.
Proof.
  intros repo vs path line rev H0. rewrite UrlParts_eq. cbv zeta.
  assert (E : exists u, site u vs /\ ~ ends (text ".wiki") u /\ without_end (text ".git") (l_url repo) = u).
  { inversion H0 as [u vs' S0 NW EU|u vs' S0 NW NG EU]; subst.
    - exists u. split; [exact S0|]. split; [exact NW|]. apply without_end_app. discriminate.
    - exists (l_url repo). split; [exact S0|]. split; [exact NW|]. apply without_end_none; [discriminate|exact NG]. }
  destruct E as (u & S0 & NW & ->).
  destruct (ends_with (text ".wiki") u) eqn:EW; [apply ends_with_ok in EW; contradiction|].
  exact (site_parts u vs path rev (anchor_of repo path line) S0).
Qed.
Lemma wiki_parts : forall repo vs path line rev, wiki (l_url repo) vs ->
  let p := UrlParts repo path line rev in known p = vs /\ p_path p = without_end (text ".md") path /\ p_rev p = rev /\ p_anchor p = [].
Proof.
  intros repo vs path line rev H0. rewrite UrlParts_eq. cbv zeta.
  assert (E : exists u, site (u ++ text "/wiki") vs /\ (forall a b, u ++ text ".wiki" = a ++ text ".wiki" ++ b -> a = u) /\
              without_end (text ".git") (l_url repo) = u ++ text ".wiki").
  { destruct H0 as [u vs S0 NW|u vs S0 NW].
    - exists u. split; [exact S0|]. split; [exact NW|]. replace (u ++ text ".wiki.git") with ((u ++ text ".wiki") ++ text ".git") by (rewrite <- app_assoc; reflexivity). apply without_end_app. discriminate.
    - exists u. split; [exact S0|]. split; [exact NW|]. apply without_end_none; [discriminate|]. intros (a & X).
      apply (f_equal (fun l => hd 0 (List.rev l))) in X. rewrite !rev_app_distr in X. discriminate. }
  destruct E as (u & S0 & NW & ->).
  assert (EW : ends_with (text ".wiki") (u ++ text ".wiki") = true) by (apply ends_with_ok; exists u; reflexivity). rewrite EW.
  assert (ER : replace (u ++ text ".wiki") (text ".wiki") (text "/wiki") = u ++ text "/wiki").
  { unfold replace. rewrite find_single by exact NW. rewrite substitution_same by (cbn; intuition discriminate). rewrite app_nil_r. reflexivity. }
  rewrite ER.
  exact (site_parts (u ++ text "/wiki") vs (without_end (text ".md") path) rev [] S0).
Qed.
Lemma link_parts : forall repo vs ps path line rev p, UrlParts repo path line (Some rev) = p -> known p = vs -> p_rev p = Some rev ->
  l_base repo = template ps -> proper ps -> Forall (fun kv => fillable (snd kv)) vs -> fillable rev -> fillable (p_path p) -> fillable (p_anchor p) ->
  UrlToRepo repo path line (Some rev) = filled (value_of (vs ++ [(text "path", p_path p); (text "rev", rev); (text "anchor", p_anchor p)])) ps.
Proof.
  intros repo vs ps path line rev p EP K ER EB P FV FR FP FA. unfold UrlToRepo. rewrite EP, EB. cbv zeta. rewrite ER.
  rewrite <- K in *. rewrite <- (expand_ok (known p ++ [(text "path", p_path p); (text "rev", rev); (text "anchor", p_anchor p)]) ps P); [reflexivity|].
  assert (OK : Forall (fun n => name_ok n) [text "url"; text "hostname"; text "port"; text "project"; text "repo"; text "path"; text "rev"; text "anchor"])
    by (repeat constructor; unfold name_ok; cbn; intuition discriminate).
  unfold known in *. cbn [app]. rewrite Forall_forall in *. intros x I. split.
  - apply OK. apply (in_map fst) in I. exact I.
  - repeat (destruct I as [I|I]; [rewrite <- I; first [assumption|apply FV; cbn [In]; tauto]|]). destruct I.
Qed.
Lemma file_name_ok : forall path f, file_name path f -> match last_split 47 path with Some (_, b) => b | None => path end = f.
Proof.
  intros path f (N1 & [->|(d & ->)]); [rewrite last_split_none by exact N1; reflexivity|]. rewrite last_split_app by exact N1. reflexivity.
Qed.
Lemma digits_fillable : forall d n, decimal d n -> fillable d.
Proof.
  intros d n (_ & D & _). rewrite Forall_forall in D. split; intros I; apply D in I; unfold ApiSpec.digit in I; lia.
Qed.
Lemma anchor_ok : forall repo aps path f n, l_anchor repo = template aps -> proper aps -> file_name path f -> fillable path -> n <> 0 ->
  exists d, decimal d n /\ (forall r, d = 48 :: r -> r = []) /\
  anchor_of repo path (Some n) = filled (value_of [(text "line", d); (text "filename", f)]) aps.
Proof.
  intros repo aps path f n EA PA FN FP N0. exists (fmt_uint n). destruct (fmt_uint_ok n) as (D & CN). split; [exact D|]. split; [exact CN|].
  unfold anchor_of. destruct (N.eqb_spec n 0); [contradiction|]. rewrite (file_name_ok _ _ FN), EA, fmt_d_pos, N2Z.id by lia.
  rewrite <- (expand_ok [(text "line", fmt_uint n); (text "filename", f)] aps PA); [reflexivity|].
  constructor; [|constructor; [|constructor]]; cbn [fst snd]; (split; [unfold name_ok; cbn; intuition discriminate|]).
  - exact (digits_fillable _ _ D).
  - destruct FN as (_ & [->|(d & ->)]); [exact FP|]. destruct FP as (A & B).
    split; intros I; [apply A|apply B]; apply in_or_app; right; right; exact I.
Qed.
Lemma filled_in : forall vals ps x, incl (names ps) (map fst vals) -> Forall (fun kv => ~ In x (snd kv)) vals ->
  Forall (fun p => match p with Plain s => ~ In x s | Var _ => True end) ps -> ~ In x (filled (value_of vals) ps).
Proof.
  intros vals ps x IN FV F. induction F as [|p ps W F IH]; [intros []|]. destruct p as [s|m].
  - change (~ In x (s ++ filled (value_of vals) ps)). intros I. apply in_app_or in I. destruct I as [I|I]; [contradiction|]. exact (IH IN I).
  - change (~ In x (match value_of vals m with Some v => v | None => braces m end ++ filled (value_of vals) ps)).
    intros I. apply in_app_or in I. destruct I as [I|I]; [|exact (IH (fun k J => IN k (or_intror J)) I)].
    specialize (IN m (or_introl eq_refl)). clear IH. induction vals as [|(k, v) vals IHv]; [destruct IN|]. cbn [value_of] in I.
    pose proof (Forall_inv FV) as V0. cbn [snd] in V0.
    destruct (list_eq_dec N.eq_dec m k) as [->|D]; [contradiction|]. destruct IN as [E|IN]; [cbn [fst] in E; congruence|].
    exact (IHv IN (Forall_inv_tail FV) I).
Qed.

(** A link to a line, to a file, and to a page of a wiki. *)
Theorem line_link : forall repo vs ps aps path f n rev, home (l_url repo) vs -> l_base repo = template ps -> proper ps ->
  l_anchor repo = template aps -> proper aps -> ~ In 36 (l_anchor repo) -> incl (names aps) [text "line"; text "filename"] ->
  Forall (fun kv => fillable (snd kv)) vs -> fillable path -> fillable rev -> file_name path f -> n <> 0 ->
  exists d, decimal d n /\ (forall r, d = 48 :: r -> r = []) /\
  UrlToRepo repo path (Some n) (Some rev) =
    filled (value_of (vs ++ [(text "path", path); (text "rev", rev);
      (text "anchor", filled (value_of [(text "line", d); (text "filename", f)]) aps)])) ps.
Proof.
  intros repo vs ps aps path f n rev H0 EB P EA PA NA IA FV FP FR FN N0.
  destruct (anchor_ok repo aps path f n EA PA FN FP N0) as (d & D & CN & AE). exists d. split; [exact D|]. split; [exact CN|].
  destruct (home_parts repo vs path (Some n) (Some rev) H0) as (K & K1 & K2 & K3). cbv zeta in *.
  rewrite AE in K3. pose proof (link_parts repo vs ps path (Some n) rev _ eq_refl K K2 EB P FV FR) as L. rewrite K1, K3 in L. apply L; [exact FP|].
  assert (FF : fillable f).
  { destruct FN as (_ & [->|(d0 & ->)]); [exact FP|]. destruct FP as (A & B).
    split; intros I; [apply A|apply B]; apply in_or_app; right; right; exact I. }
  destruct (digits_fillable _ _ D) as (D1 & D2). destruct FF as (F1 & F2).
  split; apply filled_in; try exact IA.
  - repeat constructor; assumption.
  - rewrite EA in NA. apply Forall_forall. intros [s|m] I; [|exact Logic.I]. intros J. apply NA. unfold template. apply in_concat. exists s.
    split; [apply (in_map (fun p => match p with Plain s => s | Var n => braces n end)) in I; exact I|exact J].
  - repeat constructor; assumption.
  - destruct PA as (_ & W). rewrite Forall_forall in *. intros [s|m] I; [|exact Logic.I]. exact (W _ I).
Qed.
Lemma empty_fillable : fillable [].
Proof. split; intros []. Qed.
Theorem file_link : forall repo vs ps path rev, home (l_url repo) vs -> l_base repo = template ps -> proper ps ->
  Forall (fun kv => fillable (snd kv)) vs -> fillable path -> fillable rev ->
  UrlToRepo repo path None (Some rev) = filled (value_of (vs ++ [(text "path", path); (text "rev", rev); (text "anchor", [])])) ps.
Proof.
  intros repo vs ps path rev H0 EB P FV FP FR.
  destruct (home_parts repo vs path None (Some rev) H0) as (K & K1 & K2 & K3). cbv zeta in *. cbn [anchor_of] in K3.
  pose proof (link_parts repo vs ps path None rev _ eq_refl K K2 EB P FV FR) as L. rewrite K1, K3 in L. apply L; [exact FP|exact empty_fillable].
Qed.
Theorem wiki_link : forall repo vs ps path line rev, wiki (l_url repo) vs -> l_base repo = template ps -> proper ps ->
  Forall (fun kv => fillable (snd kv)) vs -> fillable path -> fillable rev -> ~ ends (text ".md") path ->
  UrlToRepo repo (path ++ text ".md") line (Some rev) = filled (value_of (vs ++ [(text "path", path); (text "rev", rev); (text "anchor", [])])) ps /\
  UrlToRepo repo path line (Some rev) = filled (value_of (vs ++ [(text "path", path); (text "rev", rev); (text "anchor", [])])) ps.
Proof.
  intros repo vs ps path line rev H0 EB P FV FP FR NM. split.
  - destruct (wiki_parts repo vs (path ++ text ".md") line (Some rev) H0) as (K & K1 & K2 & K3). cbv zeta in *. rewrite without_end_app in K1 by discriminate.
    pose proof (link_parts repo vs ps (path ++ text ".md") line rev _ eq_refl K K2 EB P FV FR) as L. rewrite K1, K3 in L. apply L; [exact FP|exact empty_fillable].
  - destruct (wiki_parts repo vs path line (Some rev) H0) as (K & K1 & K2 & K3). cbv zeta in *. rewrite without_end_none in K1 by first [discriminate|exact NM].
    pose proof (link_parts repo vs ps path line rev _ eq_refl K K2 EB P FV FR) as L. rewrite K1, K3 in L. apply L; [exact FP|exact empty_fillable].
Qed.

(** The patterns used unless others are given. *)
Definition usual : list piece := [Var (text "url"); Plain (text "/blob/"); Var (text "rev"); Plain (text "/"); Var (text "path"); Var (text "anchor")].
Definition usual_anchor : list piece := [Plain (text "#L"); Var (text "line")].
Lemma usual_proper : proper usual /\ proper usual_anchor.
Proof.
  split; (split; [|repeat constructor; cbn; intuition discriminate]); cbn [names usual usual_anchor flat_map app].
  - repeat (constructor; [cbn; intuition discriminate|]). constructor.
  - repeat (constructor; [cbn; intuition discriminate|]). constructor.
Qed.
Theorem usual_line : forall repo vs web path n rev, home (l_url repo) vs -> value_of vs (text "url") = Some web ->
  l_base repo = default_base -> l_anchor repo = default_anchor -> Forall (fun kv => fillable (snd kv)) vs -> fillable path -> fillable rev -> n <> 0 ->
  exists d, decimal d n /\ (forall r, d = 48 :: r -> r = []) /\
  UrlToRepo repo path (Some n) (Some rev) = web ++ text "/blob/" ++ rev ++ text "/" ++ path ++ text "#L" ++ d.
Proof.
  intros repo vs web path n rev H0 EW EB EA FV FP FR N0.
  assert (FN : exists f, file_name path f).
  { clear. induction path as [|c path (f & N1 & [E|(d & E)])].
    - exists []. split; [intros []|left; reflexivity].
    - destruct (N.eq_dec c 47) as [->|D].
      + exists f. split; [exact N1|]. right. exists []. rewrite E. reflexivity.
      + exists (c :: f). rewrite E. split; [intros [I|I]; [congruence|contradiction]|left; reflexivity].
    - exists f. split; [exact N1|]. right. exists (c :: d). rewrite E. reflexivity. }
  destruct FN as (f & FN). destruct usual_proper as (PU & PA).
  destruct (line_link repo vs usual usual_anchor path f n rev) as (d & D & C & E); try assumption.
  - rewrite EA. cbn. intuition discriminate.
  - intros x [<-|[]]. left. reflexivity.
  - exists d. split; [exact D|]. split; [exact C|]. rewrite E.
    destruct H0 as [u vs S0 _|u vs S0 _ _]; destruct S0 as [u NL|u host port owner name L]; cbn in EW; injection EW as <-;
      unfold filled; cbn [usual usual_anchor map List.concat]; cbn; rewrite ?app_nil_r; rewrite <- ?app_assoc; reflexivity.
Qed.
Theorem usual_file : forall repo vs web path rev, home (l_url repo) vs -> value_of vs (text "url") = Some web ->
  l_base repo = default_base -> Forall (fun kv => fillable (snd kv)) vs -> fillable path -> fillable rev ->
  UrlToRepo repo path None (Some rev) = web ++ text "/blob/" ++ rev ++ text "/" ++ path.
Proof.
  intros repo vs web path rev H0 EW EB FV FP FR. destruct usual_proper as (PU & PA).
  rewrite (file_link repo vs usual path rev); try assumption.
  destruct H0 as [u vs S0 _|u vs S0 _ _]; destruct S0 as [u NL|u host port owner name L]; cbn in EW; injection EW as <-;
    unfold filled; cbn [usual map List.concat]; cbn; rewrite ?app_nil_r; rewrite <- ?app_assoc; reflexivity.
Qed.
Lemma hash_split : forall a b x y, ~ In 35 a -> ~ In 35 b -> a ++ 35 :: x = b ++ 35 :: y -> a = b /\ x = y.
Proof.
  induction a as [|c a IH]; intros b x y A B E; destruct b as [|d b]; cbn [app] in E.
  - split; [reflexivity|congruence].
  - exfalso. apply B. left. congruence.
  - exfalso. apply A. left. congruence.
  - destruct (IH b x y) as (-> & ->); [intros I; apply A; right; exact I|intros I; apply B; right; exact I|congruence|]. split; [congruence|reflexivity].
Qed.
Theorem usual_distinct : forall repo vs rev p1 p2 n1 n2, home (l_url repo) vs ->
  l_base repo = default_base -> l_anchor repo = default_anchor -> Forall (fun kv => fillable (snd kv)) vs -> fillable rev ->
  fillable p1 -> fillable p2 -> ~ In 35 p1 -> ~ In 35 p2 -> n1 <> Some 0 -> n2 <> Some 0 ->
  UrlToRepo repo p1 n1 (Some rev) = UrlToRepo repo p2 n2 (Some rev) -> p1 = p2 /\ n1 = n2.
Proof.
  intros repo vs rev p1 p2 n1 n2 H0 EB EA FV FR F1 F2 H1 H2 N1 N2 E.
  assert (EW : exists web, value_of vs (text "url") = Some web).
  { destruct H0 as [u vs S0 _|u vs S0 _ _]; destruct S0; eexists; reflexivity. }
  destruct EW as (web & EW).
  assert (FORM : forall p n, fillable p -> n <> Some 0 -> exists a, UrlToRepo repo p n (Some rev) = web ++ text "/blob/" ++ rev ++ text "/" ++ p ++ a /\
    match n with None => a = [] | Some k => exists d, decimal d k /\ a = text "#L" ++ d end).
  { intros p [k|] FP NK.
    - destruct (usual_line repo vs web p k rev H0 EW EB EA FV FP FR) as (d & D & _ & X); [congruence|].
      exists (text "#L" ++ d). split; [exact X|]. exists d. split; [exact D|reflexivity].
    - exists []. rewrite app_nil_r. split; [exact (usual_file repo vs web p rev H0 EW EB FV FP FR)|reflexivity]. }
  destruct (FORM p1 n1 F1 N1) as (a1 & E1 & A1). destruct (FORM p2 n2 F2 N2) as (a2 & E2 & A2).
  rewrite E1, E2 in E. apply app_inv_head in E. apply app_inv_head in E. apply app_inv_head in E. apply app_inv_head in E.
  destruct n1 as [k1|]; destruct n2 as [k2|].
  - destruct A1 as (d1 & D1 & ->). destruct A2 as (d2 & D2 & ->). apply (hash_split p1 p2 (76 :: d1) (76 :: d2) H1 H2) in E.
    destruct E as (-> & E). assert (d1 = d2) by congruence. subst d2. split; [reflexivity|].
    destruct D1 as (_ & _ & ->). destruct D2 as (_ & _ & ->). reflexivity.
  - destruct A1 as (d1 & D1 & ->). subst a2. rewrite app_nil_r in E. exfalso. apply H2. rewrite <- E. apply in_or_app. right. left. reflexivity.
  - destruct A2 as (d2 & D2 & ->). subst a1. rewrite app_nil_r in E. exfalso. apply H1. rewrite E. apply in_or_app. right. left. reflexivity.
  - subst a1 a2. rewrite !app_nil_r in E. split; [exact E|reflexivity].
Qed.
(** The page of excluded files has no revision. *)
Theorem excluded_usual : forall repo vs web path, home (l_url repo) vs -> value_of vs (text "url") = Some web ->
  l_base repo = default_base -> Forall (fun kv => fillable (snd kv)) vs -> fillable path ->
  excluded_link repo path = web ++ text "/blob/undefined/" ++ path.
Proof.
  intros repo vs web path H0 EW EB FV FP.
  assert (E : excluded_link repo path = UrlToRepo repo path None (Some (text "undefined"))).
  { destruct (home_parts repo vs path None None H0) as (K & K1 & K2 & K3). destruct (home_parts repo vs path None (Some (text "undefined")) H0) as (L & L1 & L2 & L3). cbv zeta in *.
    unfold excluded_link, UrlToRepo. cbv zeta. rewrite K1, K2, K3, L1, L2, L3.
    unfold known in K, L. rewrite <- L in K. injection K as -> -> -> -> ->. reflexivity. }
  rewrite E, (usual_file repo vs web path (text "undefined") H0 EW EB FV FP); [reflexivity|]. split; cbn; intuition discriminate.
Qed.
