(** Specifications for the version control drivers. *)
From Coq Require Import Strings.String Strings.Ascii.
From Verif Require Import Model.Base.
Local Open Scope N_scope.

(** "HEAD branch: " *)
Definition announce : str := [72;69;65;68;32;98;114;97;110;99;104;58;32].
(** The output of git remote show names branch [b] on a line of its own (first such). *)
Definition names_at (output : str) (n : nat) (b : str) : Prop :=
  exists pre post, output = pre ++ announce ++ b ++ post /\ length pre = n /\ b <> [] /\ ~ In 10 b /\
    (post = [] \/ exists r, post = 10 :: r).
Definition names_branch (output b : str) : Prop :=
  exists n, names_at output n b /\ forall n' b', names_at output n' b' -> (n <= n')%nat.

(** One entry of git check-attr -z. *)
Record entry := mkEntry { e_path : str; e_attr : str; e_info : str }.
Definition no_nul (s : str) := ~ In 0 s.
Definition entry_ok (e : entry) := no_nul (e_path e) /\ no_nul (e_attr e) /\ no_nul (e_info e).
Definition listing (es : list entry) : str :=
  flat_map (fun e => e_path e ++ [0] ++ e_attr e ++ [0] ++ e_info e ++ [0]) es.
(** linguist-generated, true, set *)
Definition generated_attr : str := [108;105;110;103;117;105;115;116;45;103;101;110;101;114;97;116;101;100].
Definition val_true : str := [116;114;117;101].
Definition val_set : str := [115;101;116].
Definition says_true (es : list entry) (p : str) := In (mkEntry p generated_attr val_true) es.
(** gitattributes: the attribute is given the value true, or is set. *)
Definition says_generated (es : list entry) (p : str) :=
  says_true es p \/ In (mkEntry p generated_attr val_set) es.

(** The characters of a literal, and the two commands that bring a checkout to the remote's
    branch [t]. *)
Fixpoint chars (s : String.string) : str :=
  match s with String.EmptyString => [] | String.String a r => Ascii.N_of_ascii a :: chars r end.
Definition fetches (t : str) : list str :=
  [chars "git"; chars "fetch"; chars "--prune"; chars "--no-tags"; chars "--depth"; chars "1"; chars "origin";
   (chars "+" ++ t ++ chars ":remotes/origin/" ++ t)%list].
Definition checks_out (t : str) : list str :=
  [chars "git"; chars "reset"; chars "--hard"; (chars "origin/" ++ t)%list].
