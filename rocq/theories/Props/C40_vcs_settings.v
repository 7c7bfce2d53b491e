(** C40: the effective VCS settings of a repository are its own, then the global ones. *)
From Verif Require Import Model.Base Model.Config Spec.ConfigSpec Proofs.ConfigProofs Proofs.ConfigExample.
Local Open Scope Z_scope.

(** mergeVCSConfigs, whatever order the maps are visited in; nothing else changes. *)
Theorem C40_merge : forall un ma, codec_ok un ma ->
  forall c c', mergeVCSConfigs un ma c = Some (Some c') ->
    c_dbpath c' = c_dbpath c /\ c_title c' = c_title c /\ c_maxidx c' = c_maxidx c /\
    c_health c' = c_health c /\ c_vcs c' = c_vcs c /\ c_limit c' = c_limit c /\
    (c_vcs c = [] -> c_repos c' = c_repos c) /\
    (c_vcs c <> [] ->
    Forall2 (fun a b => fst a = fst b /\
       match snd a, snd b with
       | Some r, Some r' => same_but_conf r r' /\
           (get (c_vcs c) (r_vcs r) = None -> r' = r) /\
           forall k, setting un (r_vcsconf r') k =
             match setting un (r_vcsconf r) k with
             | Some v => Some v
             | None => global_setting un c (r_vcs r) k
             end
       | _, _ => False
       end) (c_repos c) (c_repos c')).
Proof. exact merge_settings. Qed.
Print Assumptions C40_merge.

(** After loading; the VCS of a repository that does not name one is git. *)
Theorem C40_load : forall un ma abs, codec_ok un ma ->
  forall c c', finish_load un ma abs c = Some (Some c') ->
    Forall2 (fun a b => fst a = fst b /\
       match snd a, snd b with
       | Some r, Some r' =>
           (get (c_vcs c) (or_default (r_vcs r) defaultVcs) = None -> r_vcsconf r' = r_vcsconf r) /\
           forall k, setting un (r_vcsconf r') k =
             match setting un (r_vcsconf r) k with
             | Some v => Some v
             | None => global_setting un c (or_default (r_vcs r) defaultVcs) k
             end
       | _, _ => False
       end) (c_repos c) (c_repos c').
Proof. exact load_settings. Qed.
Print Assumptions C40_load.

(** The codec of Proofs/ConfigExample.v meets the hypothesis; the own setting "a" wins,
    the global "b" is added, and the hg repository is left alone. *)
Example C40_example :
  codec_ok ex_un ex_ma /\
  match finish_load ex_un ex_ma (fun _ => None) ex_config with
  | Some (Some c) =>
      match c_repos c with
      | [(_, Some x); (_, Some y)] =>
          setting ex_un (r_vcsconf x) [97%N] = Some (JStr [9%N]) /\
          setting ex_un (r_vcsconf x) [98%N] = Some (JStr [2%N]) /\ r_vcsconf y = None
      | _ => False
      end
  | _ => False
  end.
Proof. split; [exact ex_codec|]. vm_compute. repeat split; reflexivity. Qed.
