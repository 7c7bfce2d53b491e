(** ui/assets/js/hound.js: the name of a repository (252-274) and numbers (10-18). Strings
    are lists of code units. *)
From Verif Require Import Model.Base Model.GoStr Model.GoFmt Model.Config Model.PageSelect Model.PageLinks.
Local Open Scope nat_scope.

(** url.lastIndexOf("/", from), ECMA-262: a position below 0 is 0 *)
Definition last_slash_upto (url : str) (from : Z) : option nat :=
  last_index_byte (firstn (S (Z.to_nat (Z.max 0 from))) url) 47%N.
(** url.substring(i, j), ECMA-262: the smaller first *)
Definition substring (s : str) (i j : nat) : str :=
  let i := Nat.min i (length s) in let j := Nat.min j (length s) in
  firstn (Nat.max i j - Nat.min i j) (skipn (Nat.min i j) s).
(** hound.js:252-274, for a name that is not one of Object.prototype *)
Definition NameForRepo (repos : list (str * option repo)) (repo : str) : str :=
  match get repos repo with
  | None | Some None => repo
  | Some (Some info) =>
      match r_display info with
      | [] =>
          let url := r_url info in
          match last_index_byte url 47%N with
          | None => repo
          | Some ax =>
              let name := without_end [46; 103; 105; 116]%N (substring url (ax + 1) (length url)) in
              match last_slash_upto url (Z.of_nat ax - 1) with
              | None => name
              | Some bx => substring url (bx + 1) ax ++ [32; 47; 32]%N ++ name
              end
          end
      | d => d
      end
  end.

(** t | 0 for an integer *)
Definition int32 (t : Z) : Z := ((t + 2 ^ 31) mod 2 ^ 32 - 2 ^ 31)%Z.
(** hound.js:11-16 *)
Fixpoint format_loop (fuel : nat) (s : str) (b : list str) : option (list str) :=
  match fuel with
  | O => None
  | S fuel =>
      match s with
      | [] => Some b
      | _ => format_loop fuel (substring s 0 (length s - 3)) (substring s (length s - 3) (length s) :: b)
      end
  end.
(** hound.js:10-18 *)
Definition FormatNumber (t : Z) : option str :=
  let s := fmt_d (int32 t) in
  option_map join (format_loop (S (length s)) s []).
