(** C03: index lookup evaluates the query exactly. [sat] and [wf_query] are in
    Spec/QuerySpec.v; a trigram holds of a text iff it is a substring. A nil result
    slice is [None], [slice_list] its contents. *)
From Coq Require Import Sorted.
From Verif Require Import Model.Base Model.Writer Model.IndexRun Model.Query Model.Reader Spec.IndexSpec Spec.RunSpec
  Spec.QuerySpec Proofs.LookupProofs Proofs.IndexProofs.
Local Open Scope N_scope.

Theorem C03_lookup_exact : forall cap mem paths files vs b q restrict, (1 <= cap)%nat -> files_ok files ->
  build_index cap mem paths files = Some (vs, b) ->
  wf_query q -> bytes_query q ->
  exists docs ix, kept files vs docs /\ ix_open b = Some ix /\
    ((match restrict with None => True | Some r => StronglySorted N.lt r /\ forall i, In i r -> i < nlen docs end) ->
     exists r, posting_query ix q restrict = Some r /\
       StronglySorted N.lt (slice_list r) /\
       forall i, In i (slice_list r) <->
         (match restrict with None => True | Some l => In i l end) /\
         exists d, nth_error docs (N.to_nat i) = Some d /\ sat (fun t => exists p s, snd d = p ++ t ++ s) q).
Proof. exact lookup_exact. Qed.
Print Assumptions C03_lookup_exact.

Example C03_example :
  let q := Query QAnd [[97;98;99]] [Query QOr [[120;97;98]; [98;99;97]] []; Query QAll [] []] in
  wf_query q /\ bytes_query q /\
  exists b ix, build_index 2 (fun _ => 7) [] [([102;49], [([97;98;99;97;98], ErrNil)]);
                ([102;50], [([120;97;98;99;120], ErrNil)]); ([102;51], [([97;98;99], ErrNil)])]
      = Some ([None; None; None], b) /\
    ix_open b = Some ix /\ posting_query ix q None = Some (Some [0; 1]) /\
    posting_query ix q (Some [1; 2]) = Some (Some [1]) /\
    posting_query ix (Query QNone [] []) None = Some None.
Proof.
  split; [|split].
  - cbn. repeat split; auto; try (left; discriminate); intros t H; intuition; subst; reflexivity.
  - cbn. repeat split; auto; intros t H; intuition; subst; repeat constructor.
  - do 2 eexists. split; [vm_compute; reflexivity|]. split; [vm_compute; reflexivity|].
  vm_compute. repeat split; reflexivity.
Qed.
