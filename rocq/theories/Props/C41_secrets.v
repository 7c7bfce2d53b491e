(** C41: the repository listing does not depend on the contents of vcs-config texts:
    neither of the repositories nor global, and whatever encoding/json does ([un], [ma],
    [quote], [number]). Whether a repository has a vcs-config at all is visible ({} or
    null), its contents are not. *)
From Verif Require Import Model.Base Model.Config Spec.ConfigSpec Proofs.ConfigSecrets Proofs.ConfigExample.
Local Open Scope Z_scope.

Theorem C41_listing : forall un ma abs quote number c1 c2 c1' c2', same_but_secrets c1 c2 ->
  finish_load un ma abs c1 = Some (Some c1') -> finish_load un ma abs c2 = Some (Some c2') ->
  ToJsonString quote number c1' = ToJsonString quote number c2'.
Proof. exact listing_secret. Qed.
Print Assumptions C41_listing.

(** Another password in both places: the loaded configurations differ, the listing does not. *)
Definition other_config : config :=
  mkConfig (c_dbpath ex_config) []
    [([120%N], Some (ex_repo [] (Some (enc (JObj [([97%N], JStr [5%N])])))));
     ([121%N], Some (ex_repo [104; 103]%N None))]
    0 [] [(defaultVcs, Some (enc (JObj [([98%N], JStr [3; 4]%N)])))] 77.
Definition load c := finish_load ex_un ex_ma (fun _ => None) c.
Definition listing c :=
  match load c with Some (Some c') => Some (ToJsonString (fun s => s) (fun _ => []) c') | _ => None end.

Example C41_example : same_but_secrets ex_config other_config /\ load ex_config <> load other_config /\
  listing ex_config <> None /\ listing ex_config = listing other_config.
Proof.
  split; [|split; [|split]].
  - repeat (split; [reflexivity|]). split; [constructor; [split; reflexivity|constructor]|].
    repeat constructor.
  - vm_compute. intros H. discriminate.
  - vm_compute. discriminate.
  - vm_compute. reflexivity.
Qed.
