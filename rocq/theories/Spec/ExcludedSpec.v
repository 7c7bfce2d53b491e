(** What the list of excluded files says, and when. *)
From Verif Require Import Model.Base Model.Json Model.Writer Model.IndexDir Model.Swap Spec.Names Spec.JsonSpec Spec.SwapSpec.
Local Open Scope N_scope.

(** The text given for each reason; a ratio is printed as some text. *)
Inductive said (ratio : str) : reason -> str -> Prop :=
| said_dot : said ratio DotFile (text "Dot files are excluded.")
| said_mode : said ratio InvalidMode (text "Invalid file mode.")
| said_text : said ratio NotText (text "Not a text file.")
| said_utf8 : said ratio (Rejected InvalidUTF8) (text "Invalid UTF-8")
| said_long : said ratio (Rejected TooLong) (text "Too long")
| said_trigrams : said ratio (Rejected TrigramRatio) (text "Trigram ratio too high (" ++ ratio ++ text "), probably not text")
| said_lines : said ratio (Rejected LongLines) (text "Too many long lines, ratio: " ++ ratio).

(** One entry, as it is read. *)
Definition entry_read (ratio : str -> str) (p : str * reason) (v : jv) : Prop :=
  exists name why, replaced (fst p) name /\ said (ratio (fst p)) (snd p) why /\
    v = VObj [(text "Filename", VStr name); (text "Reason", VStr why)].

(** Index [i] is or was the live one. *)
Definition was_live (r0 : str) (tr : list event) (i : nat) : Prop :=
  exists t0 t1 r, tr = t0 ++ t1 /\ published r0 t0 i r.
