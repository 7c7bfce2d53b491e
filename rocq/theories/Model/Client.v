(** client/coalesce.go, client/ack.go (hiliteMatches), ansi/ansi.go (FgBg), client/client.go
    (repoNameFromUrl, repoNameFor). An index.Match is a [hit] (Model/Grep.v). [None]: a
    run-time panic (index or slice bounds out of range). *)
From Verif Require Import Model.Base Model.GoStr Model.Config Model.Grep.
Local Open Scope Z_scope.

(** coalesce.go:7-11 *)
Record block := mkBlock { b_lines : list str; b_matches : list bool; b_start : Z }.
Definition zlen {A} (l : list A) : Z := Z.of_nat (length l).

(** coalesce.go:13-23 *)
Definition endOfBlock (b : block) : Z := b_start b + zlen (b_lines b) - 1.
Definition startOfMatch (m : hit) : Z := Z.of_nat (h_no m) - zlen (h_before m).
Definition matchIsInBlock (m : hit) (b : block) : bool := startOfMatch m <=? endOfBlock b.

(** coalesce.go:25-48: v[b] = true in a slice of 1+b+a times false. *)
Definition matchToBlock (m : hit) : option block :=
  let b := length (h_before m) in
  let n := (1 + b + length (h_after m))%nat in
  v <- list_set (repeat false n) b true ;;
  Some (mkBlock (h_before m ++ [h_line m] ++ h_after m) v (Z.of_nat (h_no m) - zlen (h_before m))).

(** coalesce.go:50-55 *)
Definition clampZero (n : Z) : Z := if n <? 0 then 0 else n.

(** The elements l[i], l[i+1], ... up to the end, as read by for i := from; i < len(l); i++ *)
Definition elements_from {A} (l : list A) (from : Z) : option (list A) :=
  if zlen l <=? from then Some []
  else if from <? 0 then None
  else Some (skipn (Z.to_nat from) l).

(** coalesce.go:57-78 *)
Definition mergeMatchIntoBlock (m : hit) (b : block) : option block :=
  let off := endOfBlock b - startOfMatch m + 1 in
  let idx := zlen (b_lines b) - off in
  let nb := zlen (h_before m) in
  l1 <- elements_from (h_before m) off ;;
  let lines := b_lines b ++ l1 in
  let matches := b_matches b ++ map (fun _ => false) l1 in
  '(lines, matches) <-
    (if off <? nb + 1 then Some (lines ++ [h_line m], matches ++ [true])
     else if idx + nb <? 0 then None
     else ms <- list_set matches (Z.to_nat (idx + nb)) true ;; Some (lines, ms)) ;;
  l2 <- elements_from (h_after m) (clampZero (off - nb - 1)) ;;
  Some (mkBlock (lines ++ l2) (matches ++ map (fun _ => false) l2) (b_start b)).

(** coalesce.go:80-99 *)
Fixpoint coalesce_loop (ms : list hit) (res : list block) (curr : option block) : option (list block) :=
  match ms with
  | [] => Some (match curr with Some c => res ++ [c] | None => res end)
  | m :: rest =>
      match curr with
      | Some c =>
          if matchIsInBlock m c then
            c' <- mergeMatchIntoBlock m c ;; coalesce_loop rest res (Some c')
          else
            c' <- matchToBlock m ;; coalesce_loop rest (res ++ [c]) (Some c')
      | None => c' <- matchToBlock m ;; coalesce_loop rest res (Some c')
      end
  end.
Definition coalesceMatches (ms : list hit) : option (list block) := coalesce_loop ms [] None.

(** ansi.go:8-47 *)
Definition ESC : N := 27.
Definition start : str := [27; 91]%N.
Definition reset : str := [27; 91; 48; 109]%N.
Definition Bold : N := 1.   Definition Blink : N := 2.   Definition Underline : N := 4.
Definition Invert : N := 8.   Definition Intense : N := 16.   Definition Normal : N := 0.
Definition Black : N := 0.   Definition Yellow : N := 3.   Definition Colorless : N := 8.
Definition has (style bit : N) : bool := negb (N.land style bit =? 0)%N.

(** fmt.Sprintf("%d;", n) for n below 1000 *)
Definition dec_semi (n : N) : str :=
  ((if 100 <=? n then [48 + n / 100] else []) ++ (if 10 <=? n then [48 + n / 10 mod 10] else []) ++
   [48 + n mod 10; 59])%N.

(** ansi.go:61-105 *)
Definition FgBg (enabled : bool) (s : str) (fgColor fgStyle bgColor bgStyle : N) : str :=
  if negb enabled then s
  else
    let buf := start ++ (if has fgStyle Bold then [49; 59]%N else []) ++
               (if has fgStyle Blink then [53; 59]%N else []) ++
               (if has fgStyle Underline then [52; 59]%N else []) ++
               (if has fgStyle Invert then [55; 59]%N else []) ++
               dec_semi ((if has fgStyle Intense then 90 else 30) + fgColor)%N ++
               (if N.eqb bgColor Colorless then []
                else dec_semi ((if has bgStyle Intense then 100 else 40) + bgColor)%N) in
    (removelast buf ++ [109%N]) ++ s ++ reset.

(** s[i:j] *)
Definition slice {A} (l : list A) (i j : nat) : option (list A) :=
  if Nat.leb i j && Nat.leb j (length l) then Some (firstn (j - i) (skipn i l)) else None.

(** ack.go:17-39. [idxs]: the result of FindAllStringIndex. *)
Fixpoint hilite_loop (enabled : bool) (line : str) (beg : nat) (idxs : list (nat * nat)) : option str :=
  match idxs with
  | [] => slice line beg (length line)
  | (i, j) :: rest =>
      a <- slice line beg i ;;
      m <- slice line i j ;;
      r <- hilite_loop enabled line j rest ;;
      Some (a ++ FgBg enabled m Black Bold Yellow Intense ++ r)
  end.
Definition hiliteMatches (enabled : bool) (idxs : list (nat * nat)) (line : str) : option str :=
  hilite_loop enabled line 0 idxs.

(** client.go:36-54 *)
Definition dot_git : str := [46; 103; 105; 116]%N.
Definition repoNameFromUrl (uri : str) : option str :=
  match last_index_byte uri 47%N with
  | None => Some []
  | Some ax =>
      let name := skipn (ax + 1) uri in
      let name := if has_suffix name dot_git then firstn (length name - 4) name else name in
      (* uri[:ax-1] *)
      if Nat.eqb ax 0 then None
      else
        match last_index_byte (firstn (ax - 1) uri) 47%N with
        | None => Some name
        | Some bx =>
            mid <- slice uri (bx + 1) ax ;;
            Some (mid ++ 47%N :: name)
        end
  end.

(** client.go:56-74 *)
Definition repoNameFor (repos : list (str * option repo)) (name : str) : option str :=
  match get repos name with
  | None | Some None => Some name
  | Some (Some data) =>
      match r_display data with
      | [] =>
          n <- repoNameFromUrl (r_url data) ;;
          Some (match n with [] => name | _ => n end)
      | d => Some d
      end
  end.
