(** C58: the results of a search reach the client as the server found them: the same
    repositories, files, flags, lines with their numbers and context, revisions and counts,
    in every text exactly the bytes that are not UTF-8 replaced; nothing is replaced if
    there are none. *)
From Verif Require Import Model.Base Model.Config Model.Json Model.Grep Model.Search Model.Wire
  Spec.ApiSpec Spec.Utf8Spec Spec.JsonSpec Spec.WireSpec Proofs.WireProofs.
Local Open Scope N_scope.

(** From the bytes of the answer, whichever way control characters are escaped. *)
Theorem C58_arrives : forall short results stats,
  Forall result_sent results -> NoDup (map fst results) -> stats_sent stats ->
  exists results', read_answer (write_json short (enc_answer results stats)) = Some (mkRecv (Some results') stats) /\
    Forall2 result_arrived results results'.
Proof. exact answer_arrives. Qed.
Print Assumptions C58_arrives.

Theorem C58_exact : forall short results stats,
  Forall result_sent results -> NoDup (map fst results) -> stats_sent stats ->
  Forall (fun p => response_valid (snd p)) results ->
  read_answer (write_json short (enc_answer results stats)) =
    Some (mkRecv (Some (map (fun p => (fst p, mkResp (rs_matches (snd p)) (rs_found (snd p)) 0 (rs_rev (snd p)))) results)) stats).
Proof. exact answer_exact. Qed.
Print Assumptions C58_exact.

(** An error message has no place in the client's struct: it is read as no results. *)
Theorem C58_error : forall short err, Forall is_byte err ->
  read_answer (write_json short (enc_error err)) = Some (mkRecv None None).
Proof. exact error_arrives. Qed.
Print Assumptions C58_error.

(** Repository r, file f with a quote in line 2 and a stray byte in the line before. *)
Definition C58_results : list (str * response) :=
  [([114], mkResp [mkFM [102] [mkHit [97; 34] 2 [[255]] []] true] 1 7 [49])].
Example C58_example :
  Forall result_sent C58_results /\ NoDup (map fst C58_results) /\ stats_sent (Some (7, 12)%Z) /\
  write_json true (enc_answer C58_results (Some (7, 12)%Z)) =
    [123;34;82;101;115;117;108;116;115;34;58;123;34;114;34;58;
       123;34;77;97;116;99;104;101;115;34;58;91;
         123;34;70;105;108;101;110;97;109;101;34;58;34;102;34;44;34;77;97;116;99;104;101;115;34;58;91;
           123;34;76;105;110;101;34;58;34;97;92;34;34;44;34;76;105;110;101;78;117;109;98;101;114;34;58;50;44;
              34;66;101;102;111;114;101;34;58;91;34;92;117;102;102;102;100;34;93;44;34;65;102;116;101;114;34;58;91;93;125;93;44;
           34;65;117;116;111;71;101;110;101;114;97;116;101;100;34;58;116;114;117;101;125;93;44;
         34;70;105;108;101;115;87;105;116;104;77;97;116;99;104;34;58;49;44;34;82;101;118;105;115;105;111;110;34;58;34;49;34;125;125;44;
     34;83;116;97;116;115;34;58;123;34;70;105;108;101;115;79;112;101;110;101;100;34;58;55;44;34;68;117;114;97;116;105;111;110;34;58;49;50;125;125;10] /\
  read_answer (write_json true (enc_answer C58_results (Some (7, 12)%Z))) =
    Some (mkRecv (Some [([114], mkResp [mkFM [102] [mkHit [97; 34] 2 [[0xEF; 0xBF; 0xBD]] []] true] 1 0 [49])]) (Some (7, 12)%Z)).
Proof.
  split; [|split; [repeat constructor; cbn; intuition|split; [split; split; vm_compute; congruence|split; vm_compute; reflexivity]]].
  apply Forall_cons; [|constructor]. split; [repeat constructor|]. split; [apply ascii_valid; repeat constructor|].
  split; [|split; [split; vm_compute; congruence|repeat constructor]].
  apply Forall_cons; [|constructor]. split; [repeat constructor|]. apply Forall_cons; [|constructor].
  split; [repeat constructor|]. split; [vm_compute; reflexivity|]. split; [repeat constructor|constructor].
Qed.
