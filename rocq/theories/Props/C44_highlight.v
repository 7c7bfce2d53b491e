(** C44: highlighting inserts colour sequences into a line and changes nothing else;
    removing the sequences gives the line back. The match positions are those of
    FindAllStringIndex: in order, disjoint, within the line. A line that contains escape
    sequences of its own loses these too when they are removed, so the second statement is
    for lines without the escape character. *)
From Verif Require Import Model.Base Model.Client Spec.ClientSpec Proofs.HiliteProofs.
Local Open Scope nat_scope.

Theorem C44_inserts : forall en line idxs, positions 0 (length line) idxs ->
  exists out, hiliteMatches en idxs line = Some out /\ coloured line out.
Proof. exact hilite_inserts. Qed.
Print Assumptions C44_inserts.

Theorem C44_strip : forall en line idxs, positions 0 (length line) idxs -> ~ In 27%N line ->
  exists out, hiliteMatches en idxs line = Some out /\ strip false out = line.
Proof. exact hilite_strip. Qed.
Print Assumptions C44_strip.

(** Every text in every colour and style (ansi.go): one sequence before, the reset after. *)
Theorem C44_colours : forall s fc fs bc bs, (fc < 900)%N -> (bc < 900)%N ->
  exists q, colour_seq q /\ FgBg true s fc fs bc bs = q ++ s ++ reset.
Proof. exact FgBg_around. Qed.
Print Assumptions C44_colours.

Example C44_example : positions 0 5 [(1, 2); (2, 2); (3, 5)] /\
  hiliteMatches true [(1, 2); (3, 5)] [97;98;99;100;101]%N =
    Some ([97] ++ [27;91;49;59;51;48;59;49;48;51;109] ++ [98] ++ [27;91;48;109] ++ [99] ++
          [27;91;49;59;51;48;59;49;48;51;109] ++ [100;101] ++ [27;91;48;109])%N.
Proof. cbn. repeat split; lia. Qed.
