(** C104: hound makes the search that its command line says. *)
From Coq Require Import String Ascii.
From Verif Require Import Model.Base Model.CmdLine Spec.ApiSpec Spec.Names Spec.CmdLineSpec Proofs.FlagNumbers Proofs.CmdLineProofs.
Local Open Scope N_scope.

Theorem C104_asks : forall host args a, hound host args = Some (Asks a) <-> says host args a.
Proof. exact hound_asks. Qed.
Print Assumptions C104_asks.

(** What else can happen: nothing is asked for. *)
Theorem C104_else : forall host args, exists e, hound host args = Some e /\
  (e = Exits 0 <-> exists items a r, line (options host) items args (a :: r) /\ help a) /\
  (e = Usage <-> exists items tail rest, line (options host) items args tail /\ others tail rest /\ List.length rest <> 1%nat) /\
  (forall n, e = Exits n -> n = 0 \/ n = 2).
Proof. exact hound_else. Qed.
Print Assumptions C104_else.

(** Every search can be asked for: any pattern, after --. *)
Theorem C104_any : forall host h repos files c ctx pattern, int_text c ctx -> forall (ic st : bool),
  hound host ([text "-host=" ++ h; text "-repos=" ++ repos; text "--files"; files; text "-context"; c] ++
              (if ic then [text "-ignore-case"] else []) ++ (if st then [text "-show-stats"] else []) ++ [text "--"; pattern]) =
  Some (Asks (mkAsks pattern h repos files ctx ic st false)).
Proof. exact hound_any. Qed.
Print Assumptions C104_any.

(** Numbers are read as in Go's source, and nothing else is a number. *)
Theorem C104_numbers : forall s v, parse_int0 s = Some v <-> int_text s v.
Proof. exact parse_int0_ok. Qed.
Print Assumptions C104_numbers.

(** houndd starts with what its flags say. Missing: it does not look at what comes after them. *)
Theorem C104_houndd_partial : forall args conf addr dev, houndd args = Some (Starts conf addr dev) <-> exists rest, server_says args rest conf addr dev false.
Proof. exact houndd_starts. Qed.
Print Assumptions C104_houndd_partial.
(** houndd now -addr=:80 starts at :6080. *)
Theorem C104_houndd_refuted : exists args conf addr dev, houndd args = Some (Starts conf addr dev) /\ ~ server_says args [] conf addr dev false /\ In (text "-addr=:80") args /\ addr = text ":6080".
Proof.
  exists [text "now"; text "-addr=:80"], (text "config.json"), (text ":6080"), false. split; [reflexivity|]. split; [|split; [right; left; reflexivity|reflexivity]].
  intros (items & tail & L & O & S).
  destruct (assigns_setting items server_options (proj1 server_well) (line_names _ _ _ _ L)) as (N' & S').
  assert (P : Parse server_options [text "now"; text "-addr=:80"] = Some (Flags (assigns items server_options) [])) by (apply flags_iff; [exact server_well|]; exists items, tail; auto).
  vm_compute in P. discriminate.
Qed.
Print Assumptions C104_houndd_refuted.

(** hound -context 0x10 -ignore-case=F --repos a --repos=b -- -v: the last value counts, and the
    pattern may begin with a dash after two dashes, but not else. A number after a 0 is octal; a
    flag after the pattern, or a value after a switch, is one argument too many. *)
Example C104_example :
  hound (text "h") [text "-context"; text "0x10"; text "-ignore-case=F"; text "--repos"; text "a"; text "--repos=b"; text "--"; text "-v"] =
    Some (Asks (mkAsks (text "-v") (text "h") (text "b") [] 16 false false false)) /\
  hound (text "h") [text "-v"] = Some (Exits 2) /\
  hound (text "h") [text "-context=010"; text "a"] = Some (Asks (mkAsks (text "a") (text "h") (text "*") [] 8 false false false)) /\
  hound (text "h") [text "a"; text "-ignore-case"] = Some Usage /\
  hound (text "h") [text "-ignore-case"; text "false"; text "a"] = Some Usage /\
  hound (text "h") [text "-context=1_0"; text "-like-grep"; text "-"] = Some (Asks (mkAsks (text "-") (text "h") (text "*") [] 10 false false true)) /\
  hound (text "h") [text "-files"; text "--"; text "-h"] = Some (Exits 0) /\
  houndd [text "-dev"; text "--conf"; text "c"] = Some (Starts (text "c") (text ":6080") true) /\ int_text (text "7") 7.
Proof.
  repeat (split; [vm_compute; reflexivity|]). apply C104_numbers. vm_compute. reflexivity.
Qed.
