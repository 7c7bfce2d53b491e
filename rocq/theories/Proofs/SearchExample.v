(** A concrete index used by the examples: files "a" = "foo\nbar\nfoo\n", "b" = "bar\n",
    "c" = "xfoo", searched for foo. *)
From Verif Require Import Model.Base Model.Writer Model.IndexRun Model.Query Model.Reader Model.Matcher Model.Grep
  Model.Search Spec.MatchSpec Spec.GrepSpec Spec.SearchSpec Spec.QuerySpec Spec.RunSpec Proofs.GrepTop Proofs.MatchTop
  Proofs.FillProofs Proofs.SearchProofs Proofs.SearchTop Proofs.LookupProofs Proofs.EndToEnd.
Local Open Scope N_scope.

Definition ex_files : list (str * list read_ev) :=
  [([97], [([102;111;111;10;98;97;114;10;102;111;111;10], ErrNil)]);
   ([98], [([98;97;114;10], ErrEOF)]);
   ([99], [([120;102;111], ErrNil); ([111], ErrEOF)])].
Definition ex_raw (name : str) : option reader :=
  match name with
  | [97] => Some (RChunk [102;111;111;10;98;97;114;10] false (RChunk [102;111;111;10] true REof))
  | [98] => Some (RChunk [98;97;114;10] false REof)
  | [99] => Some (RChunk [120;102;111;111] true REof)
  | _ => None
  end.
Definition ex_prog := mkProg [IFail; IByte 102 102 false 2; IByte 111 111 false 3; IByte 111 111 false 4; IMatch] 1.
Definition ex_query := Query QAnd [[102;111;111]] [].
(** the filters "a" and "c" *)
Definition ex_fp := mkProg [IFail; IByte 97 97 false 2; IMatch] 1.

Definition open_of (x : option (list (option skip_reason) * bytes)) : index :=
  match x with
  | Some (_, b) => match ix_open b with Some ix => ix | None => mkIndex [] 0 0 0 0 0 0 0 end
  | None => mkIndex [] 0 0 0 0 0 0 0
  end.
Definition matcher_of (x : option matcher) : matcher := match x with Some m => m | None => mkM ex_prog [] [] [] end.
Definition ex_ix : index := open_of (build_index 2 (fun _ => 0) [] ex_files).
Definition ex_re : matcher := matcher_of (matcher_init 1100 ex_prog).
Definition ex_fre : matcher := matcher_of (matcher_init 1100 ex_fp).
Definition ex_docs : list (str * bytes) :=
  [([97], [102;111;111;10;98;97;114;10;102;111;111;10]); ([99], [120;102;111;111])].

Lemma ex_wf : wf_prog ex_prog /\ wf_prog ex_fp /\ depth_ok 1100 ex_prog /\ depth_ok 1100 ex_fp.
Proof.
  split; [|split; [|split]].
  - split; [reflexivity|]. split; [reflexivity|]. intros i I. cbn in I.
    decompose [or] I; subst; repeat constructor; contradiction.
  - split; [reflexivity|]. split; [reflexivity|]. intros i I. cbn in I.
    decompose [or] I; subst; repeat constructor; contradiction.
  - unfold depth_ok. apply Nat.ltb_lt. vm_compute. reflexivity.
  - unfold depth_ok. apply Nat.ltb_lt. vm_compute. reflexivity.
Qed.
Lemma ex_used : used 1100 ex_prog ex_re /\ used 1100 ex_fp ex_fre.
Proof. split; constructor; vm_compute; reflexivity. Qed.

Lemma ex_searchable : forall fp xp fre xre, filter_ok 1100 fp fre -> filter_ok 1100 xp xre ->
  searchable 1100 ex_prog fp xp ex_ix ex_raw ex_query ex_re fre xre ex_docs.
Proof.
  intros fp xp fre xre FI FX. constructor; try assumption; try apply ex_wf; try apply ex_used.
  exists (Some [0; 2]). split; [vm_compute; reflexivity|].
  constructor; [|constructor; [|constructor]].
  - split; [vm_compute; reflexivity|]. eexists. split; [reflexivity|]. split; reflexivity.
  - split; [vm_compute; reflexivity|]. eexists. split; [reflexivity|]. split; reflexivity.
Qed.
Lemma ex_filter : filter_ok 1100 (Some ex_fp) (Some ex_fre).
Proof. split; [apply ex_wf|]. split; [apply ex_wf|apply ex_used]. Qed.

Definition names_of (x : option (option response)) : option (list (str * list nat) * Z) :=
  match x with
  | Some (Some r) => Some (map (fun f => (fm_name f, map h_no (fm_hits f))) (rs_matches r), rs_found r)
  | _ => None
  end.
Definition ex_names (o : sopts) (fre xre : option matcher) : option (list (str * list nat) * Z) :=
  names_of (search 1100 o ex_raw [] [] ex_ix ex_query ex_re fre xre).
