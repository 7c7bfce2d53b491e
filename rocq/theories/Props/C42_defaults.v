(** C42: loading fills in defaults for what is missing and keeps what is given. For the
    decoded structures a setting is missing when it has the zero value, and with that
    reading the property holds ([_partial]). A file that gives a zero or an empty string
    explicitly is treated as if it gave nothing ([_refuted]). *)
From Verif Require Import Model.Base Model.Config Spec.Names Spec.ConfigSpec Proofs.ConfigProofs Proofs.ConfigExample.
Local Open Scope Z_scope.

Theorem C42_defaults_partial : forall un ma abs, codec_ok un ma ->
  forall c c', finish_load un ma abs c = Some (Some c') -> config_filled abs c c'.
Proof. exact load_defaults. Qed.
Print Assumptions C42_defaults_partial.

(** In terms of the file: a setting is what the file says, else the default, unless the
    file says zero or the empty text. *)
Theorem C42_file_partial : forall un ma abs, codec_ok un ma -> forall d c',
  finish_load un ma abs (decode_config d) = Some (Some c') ->
  d_title d <> Some [] -> d_maxidx d <> Some 0 -> d_health d <> Some [] -> d_limit d <> Some 0 ->
  setting_of (d_title d) (text "Hound") (c_title c') /\ setting_of (d_maxidx d) 2 (c_maxidx c') /\
  setting_of (d_health d) (text "/healthz") (c_health c') /\ setting_of (d_limit d) 5000 (c_limit c').
Proof. exact load_file. Qed.
Print Assumptions C42_file_partial.

(** A second pass changes nothing (filepath.Abs returns absolute paths). *)
Theorem C42_twice_partial : forall un ma abs, codec_ok un ma ->
  forall c c', (forall p q, abs p = Some q -> is_abs q = true) ->
    finish_load un ma abs c = Some (Some c') -> finish_load un ma abs c' = Some (Some c').
Proof. exact load_twice. Qed.
Print Assumptions C42_twice_partial.

(** Updates by polling and by push: the given value, else on and off. *)
Theorem C42_updates_partial : forall r,
  (forall b, r_poll r = Some b -> PollUpdatesEnabled r = b) /\ (r_poll r = None -> PollUpdatesEnabled r = true) /\
  (forall b, r_push r = Some b -> PushUpdatesEnabled r = b) /\ (r_push r = None -> PushUpdatesEnabled r = false).
Proof.
  intros r. unfold PollUpdatesEnabled, PushUpdatesEnabled.
  repeat split; intros; rewrite H; reflexivity.
Qed.
Print Assumptions C42_updates_partial.

(** "result-limit": 0 in the file (no limit) becomes 5000. *)
Theorem C42_explicit_zero_refuted : exists d, d_limit d = Some 0 /\
  forall un ma abs, exists c', finish_load un ma abs (decode_config d) = Some (Some c') /\ c_limit c' = 5000.
Proof.
  exists (mkDoc (Some [47%N]) None [] None None [] (Some 0)). split; [reflexivity|].
  intros un ma abs. eexists. split; reflexivity.
Qed.
Print Assumptions C42_explicit_zero_refuted.

Definition ex_loaded := match finish_load ex_un ex_ma (fun _ => None) ex_config with Some (Some c) => c | _ => ex_config end.
Example C42_example : codec_ok ex_un ex_ma /\
  finish_load ex_un ex_ma (fun _ => None) ex_config = Some (Some ex_loaded) /\
  c_title ex_loaded = defaultTitle /\ c_limit ex_loaded = 77 /\ c_maxidx ex_loaded = 2 /\
  match c_repos ex_loaded with
  | [(_, Some x); (_, Some y)] => r_ms x = 30000 /\ r_vcs x = defaultVcs /\ r_vcs y = [104; 103]%N
  | _ => False
  end.
Proof. split; [exact ex_codec|]. vm_compute. repeat split; reflexivity. Qed.
