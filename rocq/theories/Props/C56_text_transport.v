(** C56: the texts of a response (lines, context, file names) reach the client unchanged.
    So it is for valid UTF-8 ([_partial]), whatever follows in the response. Other bytes
    are replaced by U+FFFD, and as only the first 2048 bytes of a file are checked when it
    is indexed, files with such lines are searched ([_refuted]). *)
From Verif Require Import Model.Base Model.GoStr Model.GoFmt Model.Utf8 Model.JsonText
  Spec.Utf8Spec Spec.ApiSpec Spec.IndexSpec Spec.GrepSpec Spec.JsonSpec
  Proofs.Utf8Proofs Proofs.GoStrProofs Proofs.FmtProofs Proofs.JsonProofs Proofs.GrepTop.
Local Open Scope N_scope.

Theorem C56_text_partial : forall short s rest, Forall is_byte s -> valid_utf8 s ->
  read_literal (json_literal short s ++ rest) = Some (s, rest).
Proof.
  intros short s rest B V. destruct (literal_read short s rest B) as (s' & E & R).
  rewrite (replaced_exact _ _ R V) in E. exact E.
Qed.
Print Assumptions C56_text_partial.

(** In general: exactly the bytes that are not UTF-8 are replaced. No text can be mistaken
    for the end of the literal. *)
Theorem C56_replaced_partial : forall short s rest, Forall is_byte s ->
  exists s', read_literal (json_literal short s ++ rest) = Some (s', rest) /\ replaced s s' /\ (s' = s <-> valid_utf8 s).
Proof.
  intros short s rest B. destruct (literal_read short s rest B) as (s' & E & R).
  exists s'. split; [exact E|]. split; [exact R|]. split.
  - intros <-. exact (replaced_valid _ _ R).
  - exact (replaced_exact _ _ R).
Qed.
Print Assumptions C56_replaced_partial.

(** Line numbers. *)
Theorem C56_number : forall z, int64_range z -> parse_int (fmt_d z) = Some z.
Proof. intros z R. apply parse_int_ok. split; [apply fmt_d_signed|exact R]. Qed.
Print Assumptions C56_number.

(** A file that is indexed, and a line of it that does not arrive. *)
Theorem C56_invalid_refuted : exists text lines line s', is_text text = true /\ file_lines text lines /\ In line lines /\
  (forall short, read_literal (json_literal short line) = Some (s', [])) /\ s' <> line.
Proof.
  exists (repeat 97 2048 ++ 10 :: [98; 255]), [repeat 97 2048; [98; 255]], [98; 255], [98; 0xEF; 0xBF; 0xBD].
  split; [vm_compute; reflexivity|]. split; [|split; [right; left; reflexivity|]].
  - apply file_lines_iff. vm_compute. reflexivity.
  - split; [intros []; reflexivity|discriminate].
Qed.
Print Assumptions C56_invalid_refuted.

(** A quote, a backslash, a newline, a less-than sign, e acute, U+2028. *)
Example C56_example : valid_utf8 [34; 92; 10; 60; 0xC3; 0xA9; 0xE2; 0x80; 0xA8] /\
  json_literal true [34; 92; 10; 60; 0xC3; 0xA9; 0xE2; 0x80; 0xA8] =
    [34; 92;34; 92;92; 92;110; 92;117;48;48;51;99; 0xC3;0xA9; 92;117;50;48;50;56; 34].
Proof.
  split; [|reflexivity]. apply utf8_valid_iff; [|reflexivity].
  apply Forall_forall. intros x I. cbn in I. unfold is_byte. repeat (destruct I as [<-|I]; [reflexivity|]). contradiction.
Qed.
