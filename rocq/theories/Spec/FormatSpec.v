(** The format of index files, from the comment in codesearch/index/read.go:7-66. *)
From Coq Require Import Sorted.
From Verif Require Import Model.Base Spec.Names Spec.CodecSpec.
Local Open Scope N_scope.

Definition size {A} (l : list A) : N := N.of_nat (length l).
(** [x] in [n] bytes, big-endian. *)
Definition big_endian (n : nat) (x : N) (b : list N) : Prop :=
  length b = n /\ Forall (fun c => c < 256) b /\ be_value b = x.

(** A sequence of NUL-terminated names, ending with an empty one. *)
Inductive name_list : list (list N) -> list N -> Prop :=
| names_end : name_list [] [0]
| names_one : forall s l b, s <> [] -> ~ In 0 s -> name_list l b -> name_list (s :: l) (s ++ 0 :: b).

(** Varint-encoded deltas between file IDs, ending with a zero; [n] is one more than the last ID. *)
Inductive delta_list : N -> list N -> list N -> Prop :=
| delta_end : forall n, delta_list n [] [0]
| delta_one : forall n i ids d b, n <= i -> leb128 (i + 1 - n) d -> delta_list (i + 1) ids b ->
    delta_list n (i :: ids) (d ++ b).

Definition posting_list_bytes (t : N) (ids b : list N) : Prop :=
  exists x y, b = x ++ y /\ big_endian 3 t x /\ delta_list 0 ids y.
Definition index_entry (t count off : N) (b : list N) : Prop :=
  exists x y z, b = x ++ y ++ z /\ big_endian 3 t x /\ big_endian 4 count y /\ big_endian 4 off z.
(** Posting lists and their index entries, the first list at [off]. *)
Inductive posting_lists : N -> list (N * list N) -> list N -> list N -> Prop :=
| posting_end : forall off, posting_lists off [] [] []
| posting_one : forall off t ids gs b e l x, posting_list_bytes t ids b -> index_entry t (size ids) off e ->
    posting_lists (off + size b) gs l x -> posting_lists off ((t, ids) :: gs) (b ++ l) (e ++ x).

(** The offsets of the names, and of the empty one. *)
Inductive name_index : N -> list (list N) -> list N -> Prop :=
| offset_end : forall off b, big_endian 4 off b -> name_index off [] b
| offset_one : forall off s l x b, big_endian 4 off x -> name_index (off + size s + 1) l b -> name_index off (s :: l) (x ++ b).

Definition header : list N := text "csearch index 1" ++ [10].
Definition footer : list N := [10] ++ text "csearch trailr" ++ [10].
Definition last_trigram : N := 0xffffff.
Definition five (a b c d e : N) (t : list N) : Prop :=
  exists p q r s u, t = p ++ q ++ r ++ s ++ u /\ big_endian 4 a p /\ big_endian 4 b q /\ big_endian 4 c r /\
    big_endian 4 d s /\ big_endian 4 e u.

(** [gs]: the posting lists but the last. [marked]: the last, empty list has an index entry too. *)
Definition index_format (marked : bool) (paths names : list (list N)) (gs : list (N * list N)) (file : list N) : Prop :=
  exists p n l last ni pi mark t,
    file = header ++ p ++ n ++ (l ++ last) ++ ni ++ (pi ++ mark) ++ t ++ footer /\
    name_list paths p /\ name_list names n /\
    posting_lists 0 gs l pi /\ posting_list_bytes last_trigram [] last /\
    (if marked then index_entry last_trigram 0 (size l) mark else mark = []) /\
    name_index 0 names ni /\
    five (size header) (size (header ++ p)) (size (header ++ p ++ n)) (size (header ++ p ++ n ++ l ++ last))
      (size (header ++ p ++ n ++ (l ++ last) ++ ni)) t /\
    (* the lists are found by binary search; they are not empty and list files *)
    StronglySorted (fun g h => fst g < fst h) (gs ++ [(last_trigram, [])]) /\
    Forall (fun g => snd g <> [] /\ Forall (fun i => i < size names) (snd g)) gs.
