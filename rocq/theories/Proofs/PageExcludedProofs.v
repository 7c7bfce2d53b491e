(** The page of excluded files. *)
From Verif Require Import Model.Base Model.PageLinks Model.PageExcluded Proofs.StrLemmas.
From Coq Require Import Lia.

(** A visit of the page: what was pressed last. [lists n fs]: the server may answer [fs] for [n].
    [polite]: a button is pressed when nothing is under way. *)
Inductive visited (lists : str -> listing -> Prop) (polite : bool) : exstate -> option str -> Prop :=
| vs_start : visited lists polite ex_start None
| vs_loaded : forall s last repos s', visited lists polite s last -> ex_step s (Loaded repos) s' -> visited lists polite s' last
| vs_pressed : forall s last n s', visited lists polite s last -> (polite = true -> ex_pending s = []) -> ex_step s (Pressed n) s' -> visited lists polite s' (Some n)
| vs_arrived : forall s last n fs s', visited lists polite s last -> lists n fs -> ex_step s (Arrived n fs) s' -> visited lists polite s' last
| vs_failed : forall s last n s', visited lists polite s last -> ex_step s (Failed n) s' -> visited lists polite s' last.
Definition shown (c : link_conf) (fs : listing) : list (str * str * str) := map (fun f => (excluded_link c (fst f), fst f, snd f)) fs.
Lemma rows_some : forall c fs, rows (Some c) fs = Some (shown c fs).
Proof. intros c. induction fs as [|f fs IH]; [reflexivity|]. cbn [rows row bind]. rewrite IH. reflexivity. Qed.
Lemma conf_in : forall l n, In n (map fst l) -> exists c, conf_of l n = Some c.
Proof.
  induction l as [|[k c] l IH]; intros n I; [destruct I|]. cbn [conf_of]. destruct (str_eqb k n) eqn:E; [eauto|].
  destruct I as [I|I]; [|exact (IH _ I)]. cbn [fst] in I. apply str_eqb_eq in I. congruence.
Qed.
Lemma visited_conf : forall lists polite s last, visited lists polite s last ->
  match last with
  | None => ex_repo s = None /\ ex_files s = [] /\ ex_pending s = [] /\ ex_searching s = false
  | Some n => exists c, ex_repo s = Some c /\ conf_of (ex_repos s) n = Some c
  end /\ (ex_loading s = true -> ex_repos s = []).
Proof.
  intros lists polite s last V. induction V as [|s last repos s' V IH ST|s last n s' V IH P ST|s last n fs s' V IH L ST|s last n s' V IH ST].
  - split; [|reflexivity]. repeat split; reflexivity.
  - inversion ST as [repos' LD| | |]. subst. cbn [ex_repos ex_repo ex_files ex_searching ex_pending ex_loading]. split; [|discriminate].
    destruct IH as (IH & E). specialize (E LD). destruct last as [n|]; [|exact IH]. destruct IH as (c & _ & C). rewrite E in C. discriminate.
  - inversion ST as [|n' I| |]. subst. cbn [ex_repos ex_repo ex_files ex_searching ex_pending ex_loading].
    split; [|exact (proj2 IH)]. destruct (conf_in _ _ I) as (c & C). exists c. auto.
  - inversion ST as [| |a n' b fs' PE|]. subst. cbn [ex_repos ex_repo ex_files ex_searching ex_pending ex_loading].
    split; [|exact (proj2 IH)]. destruct IH as (IH & _). destruct last as [m|]; [exact IH|]. destruct IH as (_ & _ & P & _). rewrite P in PE. destruct a; discriminate.
  - inversion ST as [| | |a n' b PE]. subst. cbn [ex_repos ex_repo ex_files ex_searching ex_pending ex_loading].
    split; [|exact (proj2 IH)]. destruct IH as (IH & _). destruct last as [m|]; [exact IH|]. destruct IH as (_ & _ & P & _). rewrite P in PE. destruct a; discriminate.
Qed.
Theorem never_throws : forall lists polite s last, visited lists polite s last -> table s <> None.
Proof.
  intros lists polite s last V. destruct (visited_conf _ _ _ _ V) as (C & _). unfold table. destruct (ex_searching s); [discriminate|].
  destruct last as [n|].
  - destruct C as (c & E & _). rewrite E, rows_some. discriminate.
  - destruct C as (_ & E & _). rewrite E. destruct (ex_repo s); discriminate.
Qed.
Lemma polite_files : forall lists s last, visited lists true s last ->
  (ex_pending s = [] \/ (exists n, last = Some n /\ ex_pending s = [n] /\ ex_searching s = true)) /\
  (ex_searching s = false -> match last with None => True | Some n => lists n (ex_files s) end).
Proof.
  intros lists s last V. induction V as [|s last repos s' V IH ST|s last n s' V IH P ST|s last n fs s' V IH L ST|s last n s' V IH ST].
  - split; [left; reflexivity|auto].
  - inversion ST. subst. exact IH.
  - inversion ST. subst. cbn [ex_pending ex_searching]. split; [|discriminate]. right. exists n. rewrite (P eq_refl). auto.
  - inversion ST as [| |a n' b fs' PE|]. subst. cbn [ex_pending ex_searching ex_files]. destruct IH as ([E|(m & -> & E & _)] & _).
    + rewrite E in PE. destruct a; discriminate.
    + rewrite E in PE. destruct a as [|x a]; [|destruct a; discriminate]. injection PE as -> <-. split; [left; reflexivity|]. intros _. exact L.
  - inversion ST as [| | |a n' b PE]. subst. cbn [ex_pending ex_searching ex_files]. destruct IH as ([E|(m & -> & E & S)] & F).
    + rewrite E in PE. destruct a; discriminate.
    + rewrite E in PE. destruct a as [|x a]; [|destruct a; discriminate]. injection PE as -> <-. split; [left; reflexivity|]. exact F.
Qed.
Theorem polite_right : forall lists s last rs, visited lists true s last -> table s = Some (Some rs) ->
  match last with
  | None => rs = []
  | Some n => exists c fs, conf_of (ex_repos s) n = Some c /\ lists n fs /\ rs = shown c fs
  end.
Proof.
  intros lists s last rs V T. destruct (visited_conf _ _ _ _ V) as (C & _). destruct (polite_files _ _ _ V) as (_ & F).
  unfold table in T. destruct (ex_searching s) eqn:S; [discriminate|]. specialize (F eq_refl). destruct last as [n|].
  - destruct C as (c & E & C). rewrite E, rows_some in T. cbn [option_map] in T. injection T as <-. exists c, (ex_files s). auto.
  - destruct C as (_ & E & _). rewrite E in T. destruct (ex_repo s); cbn in T; injection T as <-; reflexivity.
Qed.
Theorem failed_searching : forall lists s n s', visited lists true s (Some n) -> ex_step s (Failed n) s' -> table s' = Some None /\ ex_pending s' = [].
Proof.
  intros lists s n s' V ST. destruct (polite_files _ _ _ V) as (P & _). inversion ST as [| | |a n' b PE]. subst.
  unfold table. cbn [ex_searching ex_pending]. destruct P as [E|(m & _ & E & S)]; [rewrite E in PE; destruct a; discriminate|].
  rewrite S. split; [reflexivity|]. rewrite E in PE. destruct a as [|x a]; [|destruct a; discriminate]. injection PE as _ <-. reflexivity.
Qed.
Theorem answer_shown : forall lists s n m fs s', visited lists true s (Some n) -> lists m fs -> ex_step s (Arrived m fs) s' ->
  m = n /\ ex_pending s' = [] /\ exists c, conf_of (ex_repos s') n = Some c /\ table s' = Some (Some (shown c fs)).
Proof.
  intros lists s n m fs s' V L ST. destruct (polite_files _ _ _ V) as (P & _).
  assert (V' : visited lists true s' (Some n)) by exact (vs_arrived _ _ _ _ _ _ _ V L ST).
  destruct (visited_conf _ _ _ _ V') as ((c & C1 & C2) & _). inversion ST as [| |a m' b fs' PE|]. subst.
  unfold table. cbn [ex_searching ex_pending ex_repo ex_files ex_repos] in *.
  destruct P as [E|(k & K & E & _)]; [rewrite E in PE; destruct a; discriminate|]. injection K as <-.
  rewrite E in PE. destruct a as [|x a]; [|destruct a; discriminate]. injection PE as -> <-.
  split; [reflexivity|]. split; [reflexivity|]. exists c. split; [exact C2|]. rewrite C1, rows_some. reflexivity.
Qed.
