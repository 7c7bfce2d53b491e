(** codesearch/sparse/set.go *)
From Verif Require Import Model.Base.
Local Open Scope N_scope.

(** set.go:14-17. The sparse slice is its length plus the (arbitrary) contents of
    the memory behind it: entries are read before they are ever written. *)
Record sset := mkSet {
  ss_dense : list N;
  ss_max   : N;
  ss_mem   : N -> N
}.

Definition mem_set (m : N -> N) (x v : N) : N -> N :=
  fun y => if y =? x then v else m y.

(** set.go:21-25 NewSet and 29-31 Init. Go zeroes the memory; the model accepts any
    initial contents [mem]. *)
Definition new_set (max : N) (mem : N -> N) : sset := mkSet [] max mem.

(** set.go:34-36 Reset: the sparse memory is left as it is. *)
Definition reset (s : sset) : sset := mkSet [] (ss_max s) (ss_mem s).

(** set.go:50-53 Has. Indexing beyond max panics. *)
Definition has (s : sset) (x : N) : option bool :=
  if x <? ss_max s then
    let v := ss_mem s x in
    if v <? u32 (nlen (ss_dense s)) then
      match nth_error (ss_dense s) (N.to_nat v) with
      | Some y => Some (y =? x)
      | None => None
      end
    else Some false
  else None.

(** set.go:39-47 Add. *)
Definition add (s : sset) (x : N) : option sset :=
  if x <? ss_max s then
    let v := ss_mem s x in
    let present :=
      if v <? u32 (nlen (ss_dense s)) then
        match nth_error (ss_dense s) (N.to_nat v) with
        | Some y => Some (y =? x)
        | None => None
        end
      else Some false in
    p <- present ;;
    if p : bool then Some s
    else Some (mkSet (ss_dense s ++ [x]) (ss_max s)
                     (mem_set (ss_mem s) x (u32 (nlen (ss_dense s)))))
  else None.

(** set.go:58-60 Dense, 63-65 Len. *)
Definition dense (s : sset) : list N := ss_dense s.
Definition set_len (s : sset) : N := nlen (ss_dense s).
