(** C69: a configuration file is read as the JSON object it is: each setting has the value
    that the file gives it, and a file with a value of a wrong type is refused. What a file
    says is defined in Spec/FileSpec.v. *)
From Verif Require Import Model.Base Model.Json Model.Config Model.ConfigFile
  Spec.Names Spec.JsonGrammar Spec.ConfigSpec Spec.FileSpec Proofs.FileProofs Proofs.LoadProofs Proofs.FileExample.
Local Open Scope N_scope.

(** Every file that says settings of the right types is read, as what it says. *)
Theorem C69_reads : forall file l, file_says json_string file l -> Forall (config_typed json_string) l ->
  exists c, decode_file file = Some c /\ config_said json_string l c.
Proof. exact file_reads. Qed.
Print Assumptions C69_reads.

(** Nothing else is: what is read without an error is an object whose members have the right
    types (with bad UTF-8 in texts replaced), and the settings are what it says. *)
Theorem C69_refuses : forall file c, Forall is_byte file -> decode_file file = Some c ->
  exists l, file_says lax_string file l /\ Forall (config_typed lax_string) l /\ config_said lax_string l c.
Proof. exact file_refuses. Qed.
Print Assumptions C69_refuses.

(** With the defaults: what LoadFromFile leaves in the Config. *)
Theorem C69_load : forall parse_float format_float short abs file c', floats_ok parse_float format_float -> Forall is_byte file ->
  LoadFromFile parse_float format_float short abs file = Some (Some c') ->
  exists l c, file_says lax_string file l /\ Forall (config_typed lax_string) l /\ config_said lax_string l c /\ config_filled abs c c'.
Proof. exact load_file_said. Qed.
Print Assumptions C69_load.

(** A file with two settings, a repository, and something after the object; and one that is
    refused, for its number. *)
Example C69_example : file_says json_string ex_file' ex_members /\ Forall (config_typed json_string) ex_members /\
  decode_file ex_file' = Some ex_read /\ decode_file ex_file = None.
Proof. exact (conj ex_says (conj ex_typed (conj ex_decoded ex_refused))). Qed.
Example C69_load_example : let format n := [48 + n] in let parse s := match s with [c] => if (48 <=? c) && (c <=? 57) then Some (c - 48) else None | _ => None end in
  floats_ok parse format /\ Forall is_byte ex_file' /\
  exists c, LoadFromFile parse format true (fun _ => Some (text "/d")) ex_file' = Some (Some c) /\ c_dbpath c = text "/d" /\ c_title c = text "T" /\ c_maxidx c = 2%Z.
Proof.
  cbv zeta. split; [|split].
  - assert (L : forall lit n, (match lit with [c] => if (48 <=? c) && (c <=? 57) then Some (c - 48) else None | _ => None end) = Some n -> n <= 9).
    { intros [|c [|c2 r]] n E; try discriminate. destruct ((48 <=? c) && (c <=? 57)) eqn:C; [|discriminate].
      rewrite andb_true_iff in C. destruct C as [A B]. apply N.leb_le in A, B. assert (n = c - 48) as -> by congruence. lia. }
    constructor; intros lit n E; apply L in E.
    + exists [], [48 + n], [], []. split; [reflexivity|]. split; [left; reflexivity|]. split; [|split; left; reflexivity].
      split; [discriminate|]. split; [constructor; [split; lia|constructor]|]. intros r X. congruence.
    + rewrite (proj2 (N.leb_le 48 (48 + n))), (proj2 (N.leb_le (48 + n) 57)) by lia. cbn [andb]. f_equal. lia.
  - apply Forall_forall. intros c I. assert (A : forallb (fun c => c <? 256) ex_file' = true) by (vm_compute; reflexivity).
    rewrite forallb_forall in A. apply N.ltb_lt, A, I.
  - eexists. split; [vm_compute; reflexivity|]. repeat split.
Qed.
