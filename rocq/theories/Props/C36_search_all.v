(** C36: the result of a multi-repository search does not depend on the order in which the
    searches finish. [arr] lists the answers in the order of their arrival; [consistent]:
    a repository that is named twice gave the same answer twice (it always holds if none
    is). Which of several errors is reported does depend on the order, and so does the
    response for a repository that is named twice while its index changes. *)
From Coq Require Import Permutation.
From Verif Require Import Model.Base Model.Config Model.Api Proofs.ApiProofs.
Local Open Scope Z_scope.

Theorem C36_order_partial : forall (M E : Type) (arr arr' : list (str * (answer M + E))), Permutation arr arr' ->
  match searchAll arr, searchAll arr' with
  | inl (m, n), inl (m', n') => n = n' /\ (consistent arr -> forall k, get m k = get m' k)
  | inr e, inr e' => (exists k, In (k, inr e) arr) /\ (exists k, In (k, inr e') arr)
  | _, _ => False
  end.
Proof. exact @search_all_order. Qed.
Print Assumptions C36_order_partial.

(** It is an error exactly when a search failed; otherwise each repository with matches is
    mapped to its own response, and FilesOpened is the sum over those. *)
Theorem C36_result_partial : forall (M E : Type) (arr : list (str * (answer M + E))),
  match searchAll arr with
  | inr e => exists k, In (k, inr e) arr
  | inl (m, n) => (forall k e, ~ In (k, inr e) arr) /\ n = opened arr /\
      (consistent arr -> forall k r, get m k = Some r <-> In (k, inl r) arr /\ a_matches r <> None)
  end.
Proof. exact @search_all_ok. Qed.
Print Assumptions C36_result_partial.

Theorem C36_which_error_refuted : exists (arr arr' : list (str * (answer unit + nat))) e e',
  NoDup (map fst arr) /\ Permutation arr arr' /\ searchAll arr = inr e /\ searchAll arr' = inr e' /\ e <> e'.
Proof.
  exists [([97%N], inr 1%nat); ([98%N], inr 2%nat)], [([98%N], inr 2%nat); ([97%N], inr 1%nat)], 1%nat, 2%nat.
  split; [repeat constructor; cbn; intuition discriminate|]. split; [apply perm_swap|]. repeat split; discriminate.
Qed.
Print Assumptions C36_which_error_refuted.

Theorem C36_duplicate_refuted : exists (arr arr' : list (str * (answer nat + nat))) m m' n n',
  Permutation arr arr' /\ searchAll arr = inl (m, n) /\ searchAll arr' = inl (m', n') /\ get m [97%N] <> get m' [97%N].
Proof.
  exists [([97%N], inl (mkAns (Some 1%nat) 1)); ([97%N], inl (mkAns (Some 2%nat) 1))],
         [([97%N], inl (mkAns (Some 2%nat) 1)); ([97%N], inl (mkAns (Some 1%nat) 1))].
  do 4 eexists. split; [apply perm_swap|]. repeat split. discriminate.
Qed.
Print Assumptions C36_duplicate_refuted.

Definition ex_arr : list (str * (answer nat + nat)) :=
  [([97%N], inl (mkAns (Some 7%nat) 3)); ([98%N], inl (mkAns None 2)); ([99%N], inl (mkAns (Some 8%nat) 1))].
Example C36_example : consistent ex_arr /\
  searchAll ex_arr = inl ([([97%N], mkAns (Some 7%nat) 3); ([99%N], mkAns (Some 8%nat) 1)], 4).
Proof.
  split; [|reflexivity]. intros k a b H1 H2. cbn in H1, H2.
  repeat match goal with H : _ \/ _ |- _ => destruct H end; try contradiction; congruence.
Qed.
