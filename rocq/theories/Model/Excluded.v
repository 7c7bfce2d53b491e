(** The file excluded_files.json, which /api/v1/excludes sends as it is (searcher.go:139-146,
    api.go:235-241): index.go:74-77, 350-359, the list made by indexAllFiles (Model/IndexDir.v)
    as an array of objects, json.NewEncoder(w).Encode(files). The list is never nil
    (index.go:374), so an empty list is an empty array. *)
From Verif Require Import Model.Base Model.Writer Model.Json Model.Wire Model.IndexDir.
Local Open Scope N_scope.

Definition k_Reason : str := [82; 101; 97; 115; 111; 110].  (* Reason *)
(** index.go:26-30 *)
Definition reason_dot_file : str := [68; 111; 116; 32; 102; 105; 108; 101; 115; 32; 97; 114; 101; 32; 101; 120; 99; 108; 117; 100; 101; 100; 46].  (* Dot files are excluded. *)
Definition reason_invalid_mode : str := [73; 110; 118; 97; 108; 105; 100; 32; 102; 105; 108; 101; 32; 109; 111; 100; 101; 46].  (* Invalid file mode. *)
Definition reason_not_text : str := [78; 111; 116; 32; 97; 32; 116; 101; 120; 116; 32; 102; 105; 108; 101; 46].  (* Not a text file. *)
(** codesearch/index/write.go:162, 169, 188, 197. [ratio] is what %0.2f prints; the
    number is not modelled, every text is considered. *)
Definition reason_text (ratio : str) (why : reason) : str :=
  match why with
  | DotFile => reason_dot_file
  | InvalidMode => reason_invalid_mode
  | NotText => reason_not_text
  | Rejected InvalidUTF8 => [73; 110; 118; 97; 108; 105; 100; 32; 85; 84; 70; 45; 56]  (* Invalid UTF-8 *)
  | Rejected TooLong => [84; 111; 111; 32; 108; 111; 110; 103]  (* Too long *)
  | Rejected TrigramRatio =>
      [84; 114; 105; 103; 114; 97; 109; 32; 114; 97; 116; 105; 111; 32; 116; 111; 111; 32; 104; 105; 103; 104; 32; 40]  (* Trigram ratio too high ( *)
      ++ ratio ++
      [41; 44; 32; 112; 114; 111; 98; 97; 98; 108; 121; 32; 110; 111; 116; 32; 116; 101; 120; 116]  (* ), probably not text *)
  | Rejected LongLines =>
      [84; 111; 111; 32; 109; 97; 110; 121; 32; 108; 111; 110; 103; 32; 108; 105; 110; 101; 115; 44; 32; 114; 97; 116; 105; 111; 58; 32]  (* Too many long lines, ratio:  *)
      ++ ratio
  end.

(** [ratio] by name of the file. *)
Definition enc_excluded (ratio : str -> str) (l : list (str * reason)) : jv :=
  VArr (map (fun p => VObj [(k_Filename, VStr (fst p)); (k_Reason, VStr (reason_text (ratio (fst p)) (snd p)))]) l).
Definition excluded_json (short : bool) (ratio : str -> str) (l : list (str * reason)) : str :=
  write_json short (enc_excluded ratio l).
