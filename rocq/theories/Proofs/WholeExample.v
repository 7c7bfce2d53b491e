(** A concrete server for C59: one repository "r" with the files "a" (six lines, the first
    one empty, "b" in lines 2 and 6) and "c" ("b"), searched for b in files with an a in
    their name. *)
From Verif Require Import Spec.ParsedSpec Model.Base Model.GoStr Model.Config Model.Writer Model.IndexRun Model.Query Model.Reader Model.Syntax Model.Analyze Model.Matcher Model.Utf Model.Grep
  Model.Search Model.Api Model.Request Model.Json Model.Wire Model.Client Model.Present Model.Whole
  Spec.IndexSpec Spec.RunSpec Spec.Utf8Spec Spec.RegexSpec Spec.MatchSpec Spec.RuneProgSpec Spec.ExprSpec Spec.GrepSpec Spec.ApiSpec Spec.ClientSpec
  Spec.PresentSpec Spec.WireSpec Spec.WholeSpec Proofs.SplitProofs Proofs.MatchTop Proofs.GrepTop Proofs.ContextProofs Proofs.ApiProofs Proofs.RequestProofs
  Proofs.AnalyzeTop Proofs.IndexProofs Proofs.EndToEnd Proofs.UtfTop Proofs.ExprSearch Proofs.Thompson Proofs.SearchExample Proofs.WholeSearch Proofs.WholeTop Props.C01_prefilter Props.C23_expressions.
From Coq Require Import Permutation Lia.
Local Open Scope N_scope.

Definition we_lit (c : N) : regexp := RLiteral false [c].
Definition we_prog (c : N) : prog := mkProg [IByte c c false 1; INop 2; IMatch] 0.
Definition we_query : query := Query QAll [] [].
Definition we_matcher (c : N) : matcher := matcher_of (matcher_init 300 (we_prog c)).

Lemma we_runes : forall c, c < 0x80 -> runes_ok ascii_fold 4 (we_lit c).
Proof.
  intros c L. cbn [we_lit runes_ok]. constructor; [|constructor]. split; [reflexivity|]. exists c.
  split; [unfold scalar; lia|auto].
Qed.
Lemma we_compiled : forall c, c = 97 \/ c = 98 ->
  compiled go_grow ascii_fold 4 (we_lit c) (thompson (we_lit c)) we_query (we_prog c).
Proof.
  intros c L. assert (c < 0x80) as B by lia. constructor.
  - exact ascii_fold_ok.
  - cbn. tauto.
  - apply thompson_wf, we_runes, B.
  - apply thompson_faithful with (om := 4%nat), we_runes, B.
  - destruct L; subst; vm_compute; reflexivity.
  - vm_compute; reflexivity.
  - destruct L; subst; eexists; (split; [vm_compute; reflexivity|reflexivity]).
Qed.
Lemma we_depth : forall c, depth_ok 300 (we_prog c).
Proof. intros c. unfold depth_ok. apply Nat.ltb_lt. vm_compute. reflexivity. Qed.
Lemma we_used : forall c, c = 97 \/ c = 98 -> used 300 (we_prog c) (we_matcher c).
Proof. intros c [->| ->]; constructor; vm_compute; reflexivity. Qed.
Lemma we_nonempty : forall c bot eot, ~ in_line ascii_fold (we_lit c) bot eot [].
Proof.
  intros c bot eot (u & w & v & E & M). symmetry in E. apply app_eq_nil in E. destruct E as (-> & E). apply app_eq_nil in E. destruct E as (-> & ->).
  cbn [rmatch we_lit spells] in M. destruct M as (r & x & y & E & U & _). symmetry in E. apply app_eq_nil in E. destruct E as (-> & _). inversion U.
Qed.

(** regexp.Compile and RegexpQuery for the two patterns: "(?m)b" and "a". *)
Definition we_compile (pat : str) : option (query * matcher) :=
  match pat with
  | [40; 63; 109; 41; 98] => Some (we_query, we_matcher 98)
  | [97] => Some (we_query, we_matcher 97)
  | _ => None
  end.

Definition we_text : str := [10; 98; 10; 99; 10; 100; 10; 101; 10; 98].
Definition we_files : list (str * list read_ev) := [([97], [(we_text, ErrEOF)]); ([99], [([98], ErrNil)])].
Definition we_docs : list (str * str) := [([97], we_text); ([99], [98])].
Definition we_raw (name : str) : option reader :=
  match name with
  | [97] => Some (RChunk [10; 98; 10] false (RChunk [99; 10; 100; 10; 101; 10; 98] true REof))
  | [99] => Some (RChunk [98] false REof)
  | _ => None
  end.
Definition we_server : served := mkServed (open_of (build_index 2 (fun _ => 0) [] we_files)) we_raw [] [49].
Definition we_repo : repo := mkRepo [] [] 0 [] None None false None None None.
Definition we_servers : list (str * (repo * served)) := [([114], (we_repo, we_server))].

Lemma we_stocked : stocked (sv_ix we_server) we_raw we_docs.
Proof.
  assert (FO : files_ok we_files).
  { repeat (apply Forall_cons; [apply Forall_forall; intros x Ix; cbn in Ix; unfold is_byte; decompose [or] Ix; subst; try reflexivity; contradiction|]). constructor. }
  destruct (build_index 2 (fun _ => 0) [] we_files) as [[vs b]|] eqn:EB; [|vm_compute in EB; discriminate].
  assert (V : vs = [None; None]) by (vm_compute in EB; injection EB as <- _; reflexivity). subst vs.
  destruct (names_roundtrip 2 (fun _ => 0) [] we_files _ b (le_S _ _ (le_n 1)) FO (Forall_nil _) EB) as (docs & ix & K & OP & _).
  exists 2%nat, (fun _ => 0), we_files, [None; None], b. split; [lia|]. split; [exact FO|]. split; [exact EB|].
  assert (docs = we_docs).
  { unfold we_files in K. inversion K as [|n1 e1 f1 v1 d1 O1 A1 K1| |n1 e1 f1 v1 d1 O1 K1]; subst; [|exfalso; apply O1; cbn; exact I].
    inversion K1 as [|n2 e2 f2 v2 d2 O2 A2 K2| |n2 e2 f2 v2 d2 O2 K2]; subst; [|exfalso; apply O2; cbn; repeat split; discriminate].
    inversion K2; subst. reflexivity. }
  subst docs. split; [exact K|]. split.
  { cbn [sv_ix we_server]. rewrite EB. cbn [open_of]. rewrite OP. reflexivity. }
  intros d [<-|[<-|[]]]; eexists; repeat split; reflexivity.
Qed.

Lemma we_valid : forall s, Forall (fun c => c < 0x80) s -> valid_utf8 s.
Proof.
  intros s F. exists (map (fun c => [c]) s). split; [induction s as [|c s IH]; [reflexivity|inversion F; subst; cbn; f_equal; auto]|].
  induction F as [|c s L F IH]; [constructor|]. cbn [map]. constructor; [|exact IH]. exists c. constructor. exact L.
Qed.
Lemma we_few : few ascii_fold (we_lit 98) (Some (we_lit 97)) we_docs 5000.
Proof.
  intros l ND H.
  assert (incl l (list_prod [[97]; [99]] (seq 0 11))) as IN.
  { intros [name k] I. destruct (H name k I) as (text & lines & D & _ & FL & L & _). apply in_prod.
    - destruct D as [D|[D|[]]]; injection D as <- <-; cbn; auto.
    - apply in_seq. apply lines_length in FL. destruct D as [D|[D|[]]]; injection D as <- <-; cbn in FL; lia. }
  pose proof (NoDup_incl_length ND IN) as L. change (length (list_prod [[97]; [99]] (seq 0 11))) with 22%nat in L. lia.
Qed.
Lemma we_ready : ready ascii_fold (we_lit 98) (Some (we_lit 97)) 5000 we_server we_docs.
Proof.
  constructor.
  - exact we_stocked.
  - cbn. constructor; [intros [X|[]]; discriminate X|]. constructor; [intros []|constructor].
  - repeat (apply Forall_cons; [split; [apply we_valid; repeat constructor|split; [apply we_valid; repeat constructor|reflexivity]]|]). constructor.
  - reflexivity.
  - apply we_valid. repeat constructor.
  - right. exact we_few.
Qed.
