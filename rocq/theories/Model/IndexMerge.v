(** codesearch/index/merge.go: Merge. Output files are the bytes written to them
    (Model/BufWriter.v); removing the temporary files (230-231) is left out. [None] is
    log.Fatal or a panic. *)
From Verif Require Import Model.Base Model.Codec Model.Writer Model.Reader Model.GoStr Model.Utf8.
Local Open Scope N_scope.

(** merge.go:40-42 *)
Record idrange := mkRange { r_lo : N; r_hi : N; r_new : N }.

Definition max32 : N := 2^32 - 1.
(** uint32(ix.numName) *)
Definition num_names (ix : index) : N := Z.to_N (ix_numName ix mod 2^32)%Z.

(** merge.go:65-67, 70-72, 88-90: [for i < n && ix.Name(i) < x { i++ }] *)
Fixpoint skip_below (fuel : nat) (ix : index) (i : N) (x : str) : option N :=
  if num_names ix <=? i then Some i
  else match fuel with
       | O => None
       | S f => nm <- ix_name ix i ;; if str_ltb nm x then skip_below f ix (i + 1) x else Some i
       end.
Definition skip_names (ix : index) (i : N) (x : str) : option N :=
  skip_below (S (N.to_nat (num_names ix))) ix i x.

(** merge.go:69: string(b) of a byte is the UTF-8 encoding of the code point b; the sum is a
    byte. *)
Definition path_limit (path : str) : option str :=
  match rev path with
  | [] => None
  | c :: r => Some (rev r ++ encode_rune ((c + 1) mod 256))
  end.

(** merge.go:60-61 *)
Record maps := mkMaps { m_i1 : N; m_i2 : N; m_new : N; m_map1 : list idrange; m_map2 : list idrange }.

(** merge.go:62-96 *)
Definition map_path (ix1 ix2 : index) (m : maps) (path : str) : option maps :=
  lo <- skip_names ix1 (m_i1 m) path ;;
  limit <- path_limit path ;;
  hi <- skip_names ix1 lo limit ;;
  let (map1, new) := if m_i1 m <? lo then (m_map1 m ++ [mkRange (m_i1 m) lo (m_new m)], u32 (m_new m + (lo - m_i1 m)))
                     else (m_map1 m, m_new m) in
  _ <- (if m_i2 m <? num_names ix2 then nm <- ix_name ix2 (m_i2 m) ;; if str_ltb nm path then None else Some tt
        else Some tt) ;;
  hi2 <- skip_names ix2 (m_i2 m) limit ;;
  let (map2, new) := if m_i2 m <? hi2 then (m_map2 m ++ [mkRange (m_i2 m) hi2 new], u32 (new + (hi2 - m_i2 m)))
                     else (m_map2 m, new) in
  Some (mkMaps hi hi2 new map1 map2).

Fixpoint map_paths (ix1 ix2 : index) (m : maps) (paths : list str) : option maps :=
  match paths with
  | [] => Some m
  | p :: rest => m' <- map_path ix1 ix2 m p ;; map_paths ix1 ix2 m' rest
  end.

(** merge.go:98-105 *)
Definition map_rest (ix1 ix2 : index) (m : maps) : option maps :=
  let n1 := num_names ix1 in
  let m := if m_i1 m <? n1 then mkMaps (m_i1 m) (m_i2 m) (u32 (m_new m + (n1 - m_i1 m)))
                                       (m_map1 m ++ [mkRange (m_i1 m) n1 (m_new m)]) (m_map2 m)
           else m in
  if m_i2 m <? num_names ix2 then None else Some m.

(** merge.go:112-130: the paths written; each iteration takes one path. *)
Fixpoint merge_paths (fuel : nat) (p1 p2 : list str) (last : str) : list str :=
  match fuel with
  | O => []
  | S f =>
      let next p q1 q2 := if has_prefix p last then merge_paths f q1 q2 last else p :: merge_paths f q1 q2 p in
      match p1, p2 with
      | [], [] => []
      | x :: q1, [] => next x q1 []
      | [], y :: q2 => next y [] q2
      | x :: q1, y :: q2 => if str_leb x y then next x q1 p2 else next y p1 q2
      end
  end.

(** merge.go:141-147, 150-156: the names of ids [lo, hi). [out]: everything written to ix3,
    [nidx]: everything written to nameIndexFile. *)
Fixpoint copy_names (k : nat) (ix : index) (i nameData : N) (out nidx : bytes) : option (bytes * bytes) :=
  match k with
  | O => Some (out, nidx)
  | S k' =>
      nm <- ix_name ix i ;;
      off <- off32 out ;;
      copy_names k' ix (i + 1) nameData (out ++ nm ++ [0]) (nidx ++ put_uint32 (u32 (off + 2^32 - nameData)))
  end.

(** merge.go:139-161; mi1 and mi2 are the rests of the maps. A range is not empty, so [new]
    grows. *)
Fixpoint copy_ranges (fuel : nat) (ix1 ix2 : index) (new numName nameData : N) (map1 map2 : list idrange)
    (out nidx : bytes) : option (bytes * bytes) :=
  if numName <=? new then Some (out, nidx)
  else match fuel with
  | O => None
  | S f =>
      match map1, map2 with
      | r :: rest, _ =>
          if r_new r =? new then
            w <- copy_names (N.to_nat (r_hi r - r_lo r)) ix1 (r_lo r) nameData out nidx ;;
            copy_ranges f ix1 ix2 (u32 (new + (r_hi r - r_lo r))) numName nameData rest map2 (fst w) (snd w)
          else
            match map2 with
            | r2 :: rest2 =>
                if r_new r2 =? new then
                  w <- copy_names (N.to_nat (r_hi r2 - r_lo r2)) ix2 (r_lo r2) nameData out nidx ;;
                  copy_ranges f ix1 ix2 (u32 (new + (r_hi r2 - r_lo r2))) numName nameData map1 rest2 (fst w) (snd w)
                else None
            | [] => None
            end
      | [], r2 :: rest2 =>
          if r_new r2 =? new then
            w <- copy_names (N.to_nat (r_hi r2 - r_lo r2)) ix2 (r_lo r2) nameData out nidx ;;
            copy_ranges f ix1 ix2 (u32 (new + (r_hi r2 - r_lo r2))) numName nameData map1 rest2 (fst w) (snd w)
          else None
      | [], [] => None
      end
  end.

(** ** postMapReader (merge.go:234-302) *)
(** merge.go:234-245. [i] is represented by the rest of idmap from i on; [offset] is only used
    within load. *)
Record pmr := mkPmr {
  p_idmap : list idrange; p_triNum : N; p_trigram : N; p_count : N;
  p_d : bytes; p_oldid : N; p_fileid : N; p_rest : list idrange }.

(** read.go:180-186 *)
Definition list_at (ix : index) (off : N) : option (N * N * N) :=
  d <- slice_n (ix_data ix) (u32 (ix_postIndex ix + off)) 11 ;;
  t <- get_trigram d ;;
  c <- get_uint32 (skipn 3 d) ;;
  o <- get_uint32 (skipn 7 d) ;;
  Some (t, c, o).

(** merge.go:259-274 *)
Definition p_load (ix : index) (r : pmr) : option pmr :=
  if u32 (ix_numPost ix) <=? p_triNum r then
    Some (mkPmr (p_idmap r) (p_triNum r) max32 0 (p_d r) (p_oldid r) max32 (p_rest r))
  else
    e <- list_at ix (u32 (p_triNum r * post_entry_size)) ;;
    match e with
    | (t, c, o) =>
        if c =? 0 then Some (mkPmr (p_idmap r) (p_triNum r) t c (p_d r) (p_oldid r) max32 (p_rest r))
        else
          d <- slice_from (ix_data ix) (u32 (ix_postData ix + o + 3)) ;;
          Some (mkPmr (p_idmap r) (p_triNum r) t c d max32 (p_fileid r) (p_idmap r))
    end.

(** merge.go:247-252 *)
Definition p_init (ix : index) (idmap : list idrange) : option pmr :=
  p_load ix (mkPmr idmap 0 max32 0 [] 0 0 []).
(** merge.go:254-257 *)
Definition p_next_trigram (ix : index) (r : pmr) : option pmr :=
  p_load ix (mkPmr (p_idmap r) (u32 (p_triNum r + 1)) (p_trigram r) (p_count r) (p_d r) (p_oldid r) (p_fileid r) (p_rest r)).

(** merge.go:286-288 *)
Fixpoint drop_ranges (rs : list idrange) (id : N) : list idrange :=
  match rs with
  | [] => []
  | r :: rest => if r_hi r <=? id then drop_ranges rest id else rs
  end.

(** merge.go:276-302; recursion on count. Result: the returned bool, count, d, oldid, fileid,
    rest. *)
Fixpoint p_next_loop (count : nat) (d : bytes) (oldid : N) (rest : list idrange)
  : option (bool * N * bytes * N * N * list idrange) :=
  match count with
  | O => Some (false, 0, d, oldid, max32, rest)
  | S c =>
      match get_uvarint d with
      | None => None
      | Some (delta64, n) =>
          let delta := u32 delta64 in
          if delta =? 0 then None
          else
            let d := skipn n d in
            let oldid := u32 (oldid + delta) in
            match drop_ranges rest oldid with
            | [] => Some (false, 0, d, oldid, max32, [])
            | (r :: _) as rest' =>
                if oldid <? r_lo r then p_next_loop c d oldid rest'
                else Some (true, N.of_nat c, d, oldid, u32 (r_new r + oldid + 2^32 - r_lo r), rest')
            end
      end
  end.
Definition p_next_id (r : pmr) : option (bool * pmr) :=
  x <- p_next_loop (N.to_nat (p_count r)) (p_d r) (p_oldid r) (p_rest r) ;;
  match x with
  | (b, c, d, oldid, fileid, rest) => Some (b, mkPmr (p_idmap r) (p_triNum r) (p_trigram r) c d oldid fileid rest)
  end.

(** ** postDataWriter (merge.go:304-344) *)
Record pdw := mkPdw { w_out : bytes; w_idx : bytes; w_base : N; w_count : N; w_offset : N; w_last : N; w_t : N }.

(** merge.go:314-318 *)
Definition w_init (out : bytes) : option pdw := b <- off32 out ;; Some (mkPdw out [] b 0 0 0 0).
(** merge.go:320-325 *)
Definition w_trigram (w : pdw) (t : N) : option pdw :=
  off <- off32 (w_out w) ;; Some (mkPdw (w_out w) (w_idx w) (w_base w) 0 off max32 t).
(** merge.go:327-334 *)
Definition w_fileid (w : pdw) (id : N) : pdw :=
  mkPdw (w_out w ++ (if w_count w =? 0 then put_trigram (w_t w) else []) ++ put_uvarint (u32 (id + 2^32 - w_last w)))
        (w_idx w) (w_base w) (u32 (w_count w + 1)) (w_offset w) id (w_t w).
(** merge.go:336-344 *)
Definition w_end (w : pdw) : pdw :=
  if w_count w =? 0 then w
  else mkPdw (w_out w ++ put_uvarint 0)
             (w_idx w ++ put_trigram (w_t w) ++ put_uint32 (w_count w) ++ put_uint32 (u32 (w_offset w + 2^32 - w_base w)))
             (w_base w) (w_count w) (w_offset w) (w_last w) (w_t w).

(** merge.go:178-180, 185-187: [for r.nextId() { w.fileid(r.fileid) }] *)
Fixpoint copy_ids (fuel : nat) (r : pmr) (w : pdw) : option (pmr * pdw) :=
  match fuel with
  | O => None
  | S f =>
      x <- p_next_id r ;;
      if fst x then copy_ids f (snd x) (w_fileid w (p_fileid (snd x))) else Some (snd x, w)
  end.

(** merge.go:197-207 *)
Fixpoint zip_ids (fuel : nat) (r1 r2 : pmr) (w : pdw) : option (pmr * pmr * pdw) :=
  if (p_fileid r1 <? max32) || (p_fileid r2 <? max32) then
    match fuel with
    | O => None
    | S f =>
        if p_fileid r1 <? p_fileid r2 then
          x <- p_next_id r1 ;; zip_ids f (snd x) r2 (w_fileid w (p_fileid r1))
        else if p_fileid r2 <? p_fileid r1 then
          x <- p_next_id r2 ;; zip_ids f r1 (snd x) (w_fileid w (p_fileid r2))
        else None
    end
  else Some (r1, r2, w).

(** merge.go:175-212 *)
Fixpoint merge_lists_of (fuel : nat) (ix1 ix2 : index) (r1 r2 : pmr) (w : pdw) : option pdw :=
  match fuel with
  | O => None
  | S f =>
      if p_trigram r1 <? p_trigram r2 then
        w <- w_trigram w (p_trigram r1) ;;
        x <- copy_ids (S (N.to_nat (p_count r1))) r1 w ;;
        r1 <- p_next_trigram ix1 (fst x) ;;
        merge_lists_of f ix1 ix2 r1 r2 (w_end (snd x))
      else if p_trigram r2 <? p_trigram r1 then
        w <- w_trigram w (p_trigram r2) ;;
        x <- copy_ids (S (N.to_nat (p_count r2))) r2 w ;;
        r2 <- p_next_trigram ix2 (fst x) ;;
        merge_lists_of f ix1 ix2 r1 r2 (w_end (snd x))
      else if p_trigram r1 =? max32 then Some w
      else
        w <- w_trigram w (p_trigram r1) ;;
        x1 <- p_next_id r1 ;;
        x2 <- p_next_id r2 ;;
        z <- zip_ids (S (N.to_nat (p_count r1 + p_count r2))) (snd x1) (snd x2) w ;;
        match z with
        | (r1, r2, w) =>
            r1 <- p_next_trigram ix1 r1 ;;
            r2 <- p_next_trigram ix2 r2 ;;
            merge_lists_of f ix1 ix2 r1 r2 (w_end w)
        end
  end.

(** merge.go:53-232: the bytes of the merged index. *)
Definition merge (src1 src2 : bytes) : option bytes :=
  ix1 <- ix_open src1 ;;
  ix2 <- ix_open src2 ;;
  paths1 <- ix_paths ix1 ;;
  paths2 <- ix_paths ix2 ;;
  m <- map_paths ix1 ix2 (mkMaps 0 0 0 [] []) paths2 ;;
  m <- map_rest ix1 ix2 m ;;
  let numName := m_new m in
  let out := magic in
  pathData <- off32 out ;;
  let out := out ++ paths_bytes (merge_paths (length paths1 + length paths2) paths1 paths2 [0]) in
  nameData <- off32 out ;;
  x <- copy_ranges (length (m_map1 m) + length (m_map2 m)) ix1 ix2 0 numName nameData (m_map1 m) (m_map2 m) out [] ;;
  let out := fst x in
  nidxOff <- off32 (snd x) ;;
  if negb (u32 (numName * 4) =? nidxOff) then None
  else
    last <- off32 out ;;
    let nidx := snd x ++ put_uint32 last in
    postData <- off32 out ;;
    r1 <- p_init ix1 (m_map1 m) ;;
    r2 <- p_init ix2 (m_map2 m) ;;
    w <- w_init out ;;
    w <- merge_lists_of (S (N.to_nat (ix_numPost ix1 + ix_numPost ix2))) ix1 ix2 r1 r2 w ;;
    let out := w_out w in
    nameIndex <- off32 out ;;
    let out := out ++ nidx in
    postIndex <- off32 out ;;
    let out := out ++ w_idx w in
    Some (out ++ (put_uint32 pathData ++ put_uint32 nameData ++ put_uint32 postData
               ++ put_uint32 nameIndex ++ put_uint32 postIndex) ++ trailer_magic).
