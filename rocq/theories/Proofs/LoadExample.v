(** A server with one repository, and what the page shows if things come in between. *)
From Verif Require Import Model.Base Model.GoStr Model.Config Model.Grep Model.Search Model.Api Model.PageState
  Spec.ApiSpec Spec.SearchSpec Spec.LoadSpec Spec.Names Proofs.StrLemmas Proofs.GoStrProofs Proofs.ApiProofs Proofs.PageServe.
From Coq Require Import Lia.
Local Open Scope Z_scope.

Definition d_repo : str := [114]%N.
Definition d_file (i : nat) : file_match := mkFM [97; N.of_nat i]%N [] false.
(** 25 files have a match of "a"; for other queries, there is one. *)
Definition d_files (p : params) (r : str) : list file_match :=
  if str_eqb r d_repo then
    if str_eqb (form_value p (text "q")) (text "a") then map d_file (seq 0 25) else [d_file 99]
  else [].
Definition d_known (r : str) : Prop := r = d_repo.
Definition d_index : list (str * repo) := [(d_repo, mkRepo [] [] 0 [] None None false None None None)].
Definition d_serve (p : params) : reply :=
  let '(b, e) := parseRangeValue (form_value p (text "rng")) in
  let w := window b e (d_files p d_repo) in
  Results (if existsb (str_eqb d_repo) (parseAsRepoList (form_value p (text "repos")) d_index)
           then match w with [] => [] | _ => [(d_repo, mkResp w (Z.of_nat (length (d_files p d_repo))) 0 [])] end else [])
          (parseAsBool (form_value p (text "stats"))).

Lemma d_honest : honest d_known d_files d_serve.
Proof.
  split.
  - intros p p' r S. unfold d_files, form_value. rewrite (S (text "q")) by discriminate. reflexivity.
  - intros p _. unfold d_serve.
    pose proof (read_parameters (form_value p) d_index 0) as (_ & _ & PG).
    pose proof (read_fields (form_value p) d_index 0) as (_ & _ & _ & _ & _ & ST & RS).
    unfold read_search in PG, ST, RS. change f_rng with (text "rng") in PG, ST, RS. change f_stats with (text "stats") in ST. change f_repos with (text "repos") in RS.
    destruct (parseRangeValue (form_value p (text "rng"))) as [b e]. cbn [q_offset q_limit q_stats q_repos] in PG, ST, RS. cbv zeta in *.
    set (w := window b e (d_files p d_repo)) in *. set (l := parseAsRepoList (form_value p (text "repos")) d_index) in *.
    assert (WT : forall r, wants d_known p r <-> In r l).
    { intros r. rewrite (RS (trim_space (form_value p (text "repos"))) r (trim_space_ok _)). unfold wants, form_value, d_known. cbn [d_index map fst In]. split.
      - intros (-> & v0 & w0 & [G|(G & ->)] & T & W); (split; [auto|]); rewrite G.
        + rewrite (trimmed_unique v0 _ w0 (trim_space_ok v0) T). exact W.
        + rewrite (trimmed_unique [] _ w0 (trim_space_ok []) T). exact W.
      - intros ([K|[]] & W). split; [auto|]. destruct (get_param p (text "repos")) as [v0|].
        + exists v0, (trim_space v0). split; [left; reflexivity|]. split; [apply trim_space_ok|exact W].
        + exists [], (trim_space []). split; [right; auto|]. split; [apply trim_space_ok|exact W]. }
    assert (EX : existsb (str_eqb d_repo) l = true <-> In d_repo l).
    { rewrite existsb_exists. split; [intros (x & I & E); apply str_eqb_eq in E; subst x; exact I|intros I; exists d_repo; split; [exact I|apply str_eqb_refl]]. }
    split; [|split].
    + intros v G Y. apply ST. unfold form_value. rewrite G. exact Y.
    + destruct (existsb (str_eqb d_repo) l); [|constructor]. destruct w; cbn [map fst]; [constructor|]. constructor; [intros []|constructor].
    + intros v b' e' G P.
      assert (PG' : page v b e) by (unfold form_value in PG; change (page (match get_param p (text "rng") with Some v => v | None => [] end) b e) in PG; rewrite G in PG; exact PG).
      destruct (page_det v _ _ _ _ P PG') as (-> & ->). split.
      * intros r a IA. destruct (existsb (str_eqb d_repo) l) eqn:X; [|destruct IA]. assert (I : In d_repo l) by (apply EX; reflexivity).
        destruct w as [|f fs] eqn:EW; [destruct IA|]. destruct IA as [IA|[]]. injection IA as <- <-. split; [apply WT; exact I|].
        unfold w in EW. cbn [rs_matches rs_found]. split; [symmetry; exact EW|]. split; [discriminate|reflexivity].
      * intros r WR NE. pose proof WR as (-> & _). apply WT in WR. apply EX in WR. rewrite WR. fold w in NE. destruct w; [congruence|]. left. reflexivity.
Qed.
