(** C15: matching a buffer finds the end of the first matching line. [line_match]
    (Spec/MatchSpec.v) is by runs of the byte program, [first_hit] by the lines of the
    text; the buffer's last line (after the last newline) may be empty. *)
From Verif Require Import Model.Base Model.Matcher Spec.MatchSpec Proofs.SplitProofs Proofs.MatchTop.
Local Open Scope N_scope.

Theorem C15_first_matching_line : forall fuel p m b bt et,
  wf_prog p -> depth_ok fuel p -> used fuel p m ->
  exists m' r, match_bytes fuel m b bt et = Some (m', r) /\ first_hit (line_match p) bt et b r.
Proof. exact match_first_line. Qed.
Print Assumptions C15_first_matching_line.

Theorem C15_compiles : forall fuel p, wf_prog p -> depth_ok fuel p -> matcher_init fuel p <> None.
Proof. exact init_total. Qed.
Print Assumptions C15_compiles.

(** Every text has exactly one division into lines, so [first_hit] is not vacuous. *)
Theorem C15_lines_exist : forall t, exists lines, splits t lines /\
  forall lines', splits t lines' -> lines' = lines.
Proof. exact splits_total. Qed.
Print Assumptions C15_lines_exist.

(** The program of (?m)\bab$ on "xab\nab c\n ab\nab": line 3 is the first match. *)
Definition C15_prog := mkProg
  [IFail; IEmpty 16 2; IByte 97 97 false 3; IByte 98 98 false 4; IEmpty 2 5; IMatch] 1.
Example C15_example :
  wf_prog C15_prog /\ depth_ok 2050 C15_prog /\
  exists m m', matcher_init 2050 C15_prog = Some m /\ used 2050 C15_prog m /\
    match_bytes 2050 m [120;97;98;10;97;98;32;99;10;32;97;98;10;97;98] true true = Some (m', Some 12%nat) /\
    exists m2, match_bytes 2050 m' [120;97;98;10;97;98;99] true true = Some (m2, None).
Proof.
  split; [|split].
  - split; [reflexivity|]. split; [reflexivity|]. intros i I.
    cbn in I. decompose [or] I; subst; repeat constructor; contradiction.
  - unfold depth_ok. apply Nat.ltb_lt. vm_compute. reflexivity.
  - eexists. eexists. split; [vm_compute; reflexivity|]. split; [constructor; vm_compute; reflexivity|].
    split; [vm_compute; reflexivity|]. eexists. vm_compute. reflexivity.
Qed.
