(** C12: valid UTF-8 text is never rejected for its encoding. [valid_utf8]
    (Spec/Utf8Spec.v) is concatenation of encodings of Unicode scalar values. *)
From Verif Require Import Model.Base Model.Utf8 Model.Writer Model.IndexRun Spec.Utf8Spec Spec.IndexSpec
  Spec.RunSpec Proofs.Utf8Proofs Proofs.AddProofs Proofs.IndexProofs Proofs.TextProofs.
Local Open Scope N_scope.

Theorem C12_peek : forall text, valid_utf8 text -> is_text text = true.
Proof. exact is_text_valid. Qed.
Print Assumptions C12_peek.

(** Wherever the peek cuts the text. *)
Theorem C12_any_cut : forall text n, valid_utf8 text -> valid_partial (firstn n text) = true.
Proof. exact valid_partial_prefix. Qed.
Print Assumptions C12_any_cut.

Theorem C12_byte_pairs : forall cap w name evs w', (1 <= cap)%nat -> reachable cap w ->
  ev_ok evs -> valid_utf8 (ev_content evs) -> iw_add cap w name evs <> Some (Some InvalidUTF8, w').
Proof. exact valid_never_invalid. Qed.
Print Assumptions C12_byte_pairs.

(** Files shorter than the peek are accepted only if they are valid UTF-8. *)
Theorem C12_small_exact : forall text, Forall is_byte text -> (length text < 2048)%nat ->
  (is_text text = true <-> valid_utf8 text).
Proof. exact is_text_small. Qed.
Print Assumptions C12_small_exact.

(** "a", U+00E9, U+20AC, U+1F600 is valid; 0xC0 0x80, a surrogate and a lone lead byte
    are not text; the longer one is accepted when cut inside the last character. *)
Example C12_example :
  valid_utf8 [97; 0xC3; 0xA9; 0xE2; 0x82; 0xAC; 0xF0; 0x9F; 0x98; 0x80] /\
  valid_partial [97; 0xC3; 0xA9; 0xE2; 0x82; 0xAC; 0xF0; 0x9F; 0x98] = true /\
  is_text [97; 0xF0; 0x9F; 0x98] = false /\ is_text [0xC0; 0x80] = false /\
  is_text [0xED; 0xA0; 0x80] = false.
Proof.
  split; [|vm_compute; repeat split; reflexivity].
  exists [[97]; [0xC3; 0xA9]; [0xE2; 0x82; 0xAC]; [0xF0; 0x9F; 0x98; 0x80]].
  split; [reflexivity|]. repeat constructor.
  - exists 97. constructor. reflexivity.
  - exists 0xE9. apply utf8_2 with 3 41; easy.
  - exists 0x20AC. apply utf8_3 with 2 2 44; try easy. left. reflexivity.
  - exists 0x1F600. apply utf8_4 with 0 31 24 0; easy.
Qed.
