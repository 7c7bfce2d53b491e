(** C82: what repositories and numbers are called on the page. *)
From Verif Require Import Model.Base Model.Config Model.Client Model.PageNames Spec.ApiSpec Spec.Names Spec.LinkSpec Proofs.LinkProofs Proofs.PageNamesProofs.
From Coq Require Import Lia.
Local Open Scope nat_scope.

(** The page and the client: a display name, or the last two parts of the address, or the
    last, or the name in the configuration. [bare raw n]: [n] is [raw] without .git *)
Theorem C82_display : forall repos name r, get repos name = Some (Some r) -> r_display r <> [] ->
  NameForRepo repos name = r_display r /\ repoNameFor repos name = Some (r_display r).
Proof. exact name_display. Qed.
Print Assumptions C82_display.
Theorem C82_no_slash : forall repos name r, get repos name = Some (Some r) -> r_display r = [] -> ~ In 47%N (r_url r) ->
  NameForRepo repos name = name /\ repoNameFor repos name = Some name.
Proof. exact name_none. Qed.
Print Assumptions C82_no_slash.
Theorem C82_one_slash_partial : forall repos name r, get repos name = Some (Some r) -> r_display r = [] ->
  forall host raw n, r_url r = host ++ 47%N :: raw -> host <> [] -> ~ In 47%N host -> ~ In 47%N raw -> bare raw n ->
  NameForRepo repos name = n /\ (n <> [] -> repoNameFor repos name = Some n).
Proof. exact name_one. Qed.
Print Assumptions C82_one_slash_partial.
Theorem C82_two_slashes_partial : forall repos name r, get repos name = Some (Some r) -> r_display r = [] ->
  forall host owner raw n, r_url r = host ++ 47%N :: owner ++ 47%N :: raw -> ~ In 47%N owner -> ~ In 47%N raw -> bare raw n ->
  NameForRepo repos name = owner ++ text " / " ++ n /\
  (owner <> [] -> repoNameFor repos name = Some (owner ++ text "/" ++ n)).
Proof. exact name_two. Qed.
Print Assumptions C82_two_slashes_partial.

Definition with_url (u : str) : list (str * option repo) := [(text "r", Some (mkRepo u [] 0 [] None None false None None None))].
(** The client calls one with an empty name by its name in the configuration, the page by
    nothing. *)
Theorem C82_empty_refuted : exists u, NameForRepo (with_url u) (text "r") = [] /\ repoNameFor (with_url u) (text "r") = Some (text "r").
Proof. exists (text "h/.git"). vm_compute. split; reflexivity. Qed.
Print Assumptions C82_empty_refuted.
(** Two slashes together: the client sees one, the page two. *)
Theorem C82_double_refuted : exists u, NameForRepo (with_url u) (text "r") = text " / n" /\ repoNameFor (with_url u) (text "r") = Some (text "n").
Proof. exists (text "h//n"). vm_compute. split; reflexivity. Qed.
Print Assumptions C82_double_refuted.
(** Only a slash in front: the client stops, the page takes the slash for an owner. *)
Theorem C82_front_refuted : exists u, NameForRepo (with_url u) (text "r") = text "/ / n" /\ repoNameFor (with_url u) (text "r") = None.
Proof. exists (text "/n"). vm_compute. split; reflexivity. Qed.
Print Assumptions C82_front_refuted.

(** A number is written in decimal, in groups of three digits. *)
Theorem C82_number_partial : forall t, (0 <= t < 2 ^ 31)%Z ->
  exists s d, FormatNumber t = Some s /\ grouped s d /\ decimal d (Z.to_N t) /\ (forall r, d = 48%N :: r -> r = []).
Proof. exact format_number. Qed.
Print Assumptions C82_number_partial.
(** After 25 days it is another number. *)
Theorem C82_number_refuted : exists t, (0 <= t)%Z /\ FormatNumber t = Some (text "-2,147,483,648").
Proof. exists (2 ^ 31)%Z. split; [lia|vm_compute; reflexivity]. Qed.
Print Assumptions C82_number_refuted.

Example C82_example :
  NameForRepo (with_url (text "https://github.com/etsy/hound.git")) (text "r") = text "etsy / hound" /\
  bare (text "hound.git") (text "hound") /\ ~ In 47%N (text "etsy") /\
  FormatNumber 1234567 = Some (text "1,234,567") /\ grouped (text "1,234,567") (text "1234567").
Proof.
  split; [vm_compute; reflexivity|]. split; [apply (bare_git (text "hound"))|]. split; [cbn; intuition discriminate|].
  split; [vm_compute; reflexivity|]. apply (group_more (text "1,234") (text "1234") (text "567")); [|reflexivity].
  apply (group_more (text "1") (text "1") (text "234")); [|reflexivity]. constructor. cbn. lia.
Qed.
