(** C22: file name filters. A filter hits a name when some line of the name matches
    ([name_hit]). The exclude filter is applied with "> 0" instead of ">= 0"
    (index.go:191), so it misses a hit that ends at offset 0, possible only if the name
    starts with a newline; for all other names ([plain_name]) the claim holds. *)
From Verif Require Import Model.Base Model.Query Model.Reader Model.Matcher Model.Grep Model.Search
  Spec.MatchSpec Spec.SearchSpec Proofs.MatchTop Proofs.SearchProofs Proofs.SearchTop Proofs.SearchExample.
Local Open Scope Z_scope.

Theorem C22_filters_partial : forall fuel o p fp xp auto rev ix raw q re fre xre docs r f,
  searchable fuel p fp xp ix raw q re fre xre docs ->
  search fuel o raw auto rev ix q re fre xre = Some (Some r) -> In f (rs_matches r) ->
  pass_include fp (fm_name f) /\ (plain_name (fm_name f) -> pass_exclude xp (fm_name f)).
Proof. exact filters_respected. Qed.
Print Assumptions C22_filters_partial.

(** Filtering only removes files: the other entries are those of the unfiltered search. *)
Theorem C22_other_files : forall fuel nctx p fp xp auto rev ix raw q re fre xre docs,
  searchable fuel p fp xp ix raw q re fre xre docs ->
  exists r r0 keep, search fuel (unlimited nctx) raw auto rev ix q re fre xre = Some (Some r) /\
    search fuel (unlimited nctx) raw auto rev ix q re None None = Some (Some r0) /\
    rs_matches r = filter (fun f => keep (fm_name f)) (rs_matches r0) /\
    forall name, plain_name name -> (keep name = true <-> pass_include fp name /\ pass_exclude xp name).
Proof. exact filters_others. Qed.
Print Assumptions C22_other_files.

(** The empty expression (?:) as exclude filter hits every name, yet a file named "\nf"
    is returned: the one-file index with contents "foo". *)
Definition C22_xp := mkProg [IFail; IMatch] 1%N.
Definition C22_raw (name : str) : option reader :=
  match name with [10; 102] => Some (RChunk [102;111;111] false REof) | _ => None end%N.
Theorem C22_exclude_refuted : exists fuel o p xp auto rev ix raw q re xre docs r f,
  searchable fuel p None (Some xp) ix raw q re None xre docs /\
  search fuel o raw auto rev ix q re None xre = Some (Some r) /\ In f (rs_matches r) /\
  name_hit xp (fm_name f).
Proof.
  destruct (Model.IndexRun.build_index 2 (fun _ => 0%N) [] [([10;102]%N, [([102;111;111]%N, Model.Writer.ErrNil)])])
    as [[vs b]|] eqn:EB; [|vm_compute in EB; discriminate].
  destruct (ix_open b) as [ix|] eqn:EO; [|vm_compute in EB; injection EB as <- <-; vm_compute in EO; discriminate].
  destruct (matcher_init 1100 C22_xp) as [x|] eqn:EX; [|vm_compute in EX; discriminate].
  assert (WX : wf_prog C22_xp).
  { split; [reflexivity|]. split; [reflexivity|]. intros i I. cbn in I.
    decompose [or] I; subst; repeat constructor; contradiction. }
  assert (S : searchable 1100 ex_prog None (Some C22_xp) ix C22_raw ex_query ex_re None (Some x) [([10;102],[102;111;111])]%N).
  { constructor; try apply ex_wf; try apply ex_used; try exact I.
    - split; [assumption|]. split; [unfold depth_ok; apply Nat.ltb_lt; vm_compute; reflexivity|]. constructor. assumption.
    - vm_compute in EB. injection EB as <- <-. vm_compute in EO. injection EO as <-.
      exists (Some [0%N]). split; [vm_compute; reflexivity|]. constructor; [|constructor].
      split; [vm_compute; reflexivity|]. eexists. split; [reflexivity|]. split; reflexivity. }
  destruct (search_pure 1100 (unlimited 0) ex_prog None (Some C22_xp) [] [] ix C22_raw ex_query ex_re None (Some x) _ S) as (r & E & R & _).
  exists 1100%nat, (unlimited 0), ex_prog, C22_xp, [], [], ix, C22_raw, ex_query, ex_re, (Some x), [([10;102],[102;111;111])]%N, r.
  exists (mkFM [10;102]%N [mkHit [102;111;111]%N 1 [] []] false).
  split; [exact S|]. split; [exact E|]. split.
  - rewrite R. vm_compute. apply or_introl. reflexivity.
  - exists 0%nat, [[];[102]]%N, []. split; [apply Proofs.SplitProofs.splits_iff; reflexivity|]. split; [reflexivity|].
    exists 0%nat, 1%N, 0%nat. split; [cbn; lia|]. split; [apply Relation_Operators.rt_refl|reflexivity].
Qed.
Print Assumptions C22_exclude_refuted.

Example C22_example :
  searchable 1100 ex_prog (Some ex_fp) None ex_ix ex_raw ex_query ex_re (Some ex_fre) None ex_docs /\
  searchable 1100 ex_prog None (Some ex_fp) ex_ix ex_raw ex_query ex_re None (Some ex_fre) ex_docs /\
  ex_names (unlimited 0) (Some ex_fre) None = Some ([([97%N], [1; 3]%nat)], 1) /\
  ex_names (unlimited 0) None (Some ex_fre) = Some ([([99%N], [1%nat])], 1).
Proof.
  split; [apply ex_searchable; [apply ex_filter|exact I]|].
  split; [apply ex_searchable; [exact I|apply ex_filter]|]. vm_compute. split; reflexivity.
Qed.
