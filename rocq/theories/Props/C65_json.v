(** C65: what the server writes is JSON (RFC 8259), under the names documented for the API,
    and what the client accepts is JSON. *)
From Verif Require Import Model.Base Model.Json Model.Grep Model.Search Model.Wire
  Spec.Names Spec.Utf8Spec Spec.JsonValueSpec Spec.WireSpec Spec.OfferSpec Spec.AnswerSpec Spec.JsonGrammar
  Proofs.GrammarProofs Proofs.GrammarSound Proofs.AnswerProofs.
Local Open Scope N_scope.

(** Every answer and every error, whatever bytes the files hold. *)
Theorem C65_answer : forall short results stats, Forall result_sent results ->
  exists v, answer_read results stats v /\ exists t, json_text v t /\ write_json short (enc_answer results stats) = t ++ [10].
Proof. exact answer_json. Qed.
Print Assumptions C65_answer.

Theorem C65_error : forall short err, Forall is_byte err ->
  exists v, error_read err v /\ exists t, json_text v t /\ write_json short (enc_error err) = t ++ [10].
Proof. exact error_json. Qed.
Print Assumptions C65_error.

(** Every value that is written. *)
Theorem C65_written : forall short v, writable v -> exists v', vreplaced v v' /\ json_text v' (print short v).
Proof. exact json_written. Qed.
Print Assumptions C65_written.

(** The reader reads every JSON text as what it says, with
    any space and any escapes; *)
Theorem C65_read : forall v s w rest, json_text v s -> blank w -> (forall lit, v = VNum lit -> number_ends rest) ->
  decode_json (w ++ s ++ rest) = Some (v, rest).
Proof. exact json_read. Qed.
Print Assumptions C65_read.

(** and nothing else, except that it replaces what is not text. *)
Theorem C65_accepted : forall s v rest, Forall is_byte s -> decode_json s = Some (v, rest) ->
  exists w p, s = w ++ p ++ rest /\ blank w /\ lax_text v p.
Proof. exact json_accepted. Qed.
Print Assumptions C65_accepted.

(** Space, escapes, a surrogate pair. *)
Example C65_example :
  let s := text "[ { ""a\u0041\ud83D\uDE00"" : -12.50E+1 } , ""\/"" , [ ] , null ]" in
  let v := VArr [VObj [([97; 65; 240; 159; 152; 128], VNum (text "-12.50E+1"))]; VStr (text "/"); VArr []; VNull] in
  json_text v s /\ decode_json (text " " ++ s ++ text " x") = Some (v, text " x").
Proof.
  cbv zeta. split; [|vm_compute; reflexivity].
  assert (B0 : blank []) by constructor. assert (B1 : blank (text " ")) by (constructor; [left; reflexivity|constructor]).
  apply (jt_arr _ (text " { ""a\u0041\ud83D\uDE00"" : -12.50E+1 } , ""\/"" , [ ] , null ")).
  apply (ji_more _ (text "{ ""a\u0041\ud83D\uDE00"" : -12.50E+1 }") (text " ") (text " ") _ (text " ""\/"" , [ ] , null ")); [|exact B1|exact B1|].
  - apply (jt_obj _ (text " ""a\u0041\ud83D\uDE00"" : -12.50E+1 ")).
    apply (jm_last _ (text """a\u0041\ud83D\uDE00""") _ (text "-12.50E+1") (text " ") (text " ") (text " ") (text " ")); try exact B1.
    + exists (text "a\u0041\ud83D\uDE00"). split; [reflexivity|].
      apply (jcs_cons (text "a") 97 [97]); [apply jc_plain; [constructor; reflexivity|discriminate..]|constructor; reflexivity|].
      apply (jcs_cons (text "\u0041") 65 [65]); [|constructor; reflexivity|].
      { apply (jc_u (text "0041")); [|left; reflexivity]. exists 48, 48, 52, 49, 0, 0, 4, 1. repeat split; left; repeat split; discriminate. }
      apply (jcs_cons (text "\ud83D\uDE00") 128512 [240; 159; 152; 128] [] []); [| |constructor].
      { apply (jc_pair (text "d83D") (text "DE00") 0xD83D 0xDE00); [| |split; discriminate|split; discriminate].
        - exists 100, 56, 51, 68, 13, 8, 3, 13. split; [reflexivity|]. split; [right; right; repeat split; discriminate|].
          split; [left; repeat split; discriminate|]. split; [left; repeat split; discriminate|]. split; [right; left; repeat split; discriminate|reflexivity].
        - exists 68, 69, 48, 48, 13, 14, 0, 0. split; [reflexivity|]. split; [right; left; repeat split; discriminate|].
          split; [right; left; repeat split; discriminate|]. split; [left; repeat split; discriminate|]. split; [left; repeat split; discriminate|reflexivity]. }
      { apply (utf8_4 128512 240 159 152 128 0 31 24 0); try reflexivity; discriminate. }
    + apply jt_num. exists (text "-"), (text "12"), (text ".50"), (text "E+1"). split; [reflexivity|]. split; [right; reflexivity|].
      split; [|split; right].
      * split; [discriminate|]. split; [repeat constructor; discriminate|discriminate].
      * exists (text "50"). split; [reflexivity|]. split; [discriminate|]. repeat constructor; discriminate.
      * exists 69, (text "+"), (text "1"). split; [reflexivity|]. split; [right; reflexivity|]. split; [right; left; reflexivity|].
        split; [discriminate|]. repeat constructor; discriminate.
  - apply (ji_more _ (text """\/""") (text " ") (text " ") _ (text " [ ] , null ")); [|exact B1|exact B1|].
    + apply jt_str. exists (text "\/"). split; [reflexivity|].
      apply (jcs_cons (text "\/") 47 [47] [] []); [exact jc_slash|constructor; reflexivity|constructor].
    + apply (ji_more _ (text "[ ]") (text " ") (text " ") _ (text " null ")); [|exact B1|exact B1|].
      * apply (jt_arr0 (text " ")). exact B1.
      * apply (ji_last _ (text "null") (text " ") (text " ")); [exact jt_null|exact B1|exact B1].
Qed.
