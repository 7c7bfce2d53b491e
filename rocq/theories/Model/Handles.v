(** What building, opening, searching and replacing an index does to the process's open
    files, memory mappings and temporary files: codesearch/index/write.go, read.go:96-113,
    mmap_linux.go, index/index.go:91-125, 190-282, 310-358, 369-526, searcher/searcher.go:117-125, 233-252,
    343-391. Contents are left out (Model/Writer.v, BufWriter.v, IndexRun.v, Reader.v).

    Every call of the operating system that may fail takes the next of [w_answers], any list
    of booleans (used up: no failure). Simplified: closing a file and removing a file that is
    there do not fail; the finalizer by which Go's runtime closes an [os.File] that has become
    unreachable, at a time of its choosing, is left out. *)
From Verif Require Import Model.Base.
Local Open Scope N_scope.

(** [w_open]: file descriptors; [w_temp]: files in the directory for temporary files, by the
    descriptor they were created with; [w_maps]: mappings. Numbers are not used again. [w_made] has
    all temporary files made so far; nothing depends on it, claims are stated with it. *)
Record world := mkW { w_answers : list bool; w_next : N; w_open : list N; w_temp : list N; w_maps : list N;
  w_made : list N }.
(** [None]: the process ends, by log.Fatal or a panic. *)
Definition M (A : Type) := world -> option (A * world).
Definition ret {A} (a : A) : M A := fun w => Some (a, w).
Definition andThen {A B} (m : M A) (f : A -> M B) : M B :=
  fun w => match m w with Some (a, w') => f a w' | None => None end.
Definition fatal {A} : M A := fun _ => None.
(** defer: done when the function returns. *)
Definition defer {A} (c : M unit) (m : M A) : M A := andThen m (fun a => andThen c (fun _ => ret a)).

Definition ask : M bool := fun w =>
  match w_answers w with
  | [] => Some (true, w)
  | b :: bs => Some (b, mkW bs (w_next w) (w_open w) (w_temp w) (w_maps w) (w_made w))
  end.
Definition without (n : N) (l : list N) : list N := filter (fun m => negb (N.eqb n m)) l.
Definition new_file : M N := fun w =>
  Some (w_next w, mkW (w_answers w) (w_next w + 1) (w_next w :: w_open w) (w_temp w) (w_maps w) (w_made w)).
Definition close (f : N) : M unit := fun w =>
  Some (tt, mkW (w_answers w) (w_next w) (without f (w_open w)) (w_temp w) (w_maps w) (w_made w)).
(** os.Open, os.Create, os.OpenFile *)
Definition os_open : M (option N) :=
  andThen ask (fun ok => if ok then andThen new_file (fun f => ret (Some f)) else ret None).
(** ioutil.TempFile *)
Definition temp_file : M (option N) :=
  andThen ask (fun ok => if ok then fun w =>
    Some (Some (w_next w), mkW (w_answers w) (w_next w + 1) (w_next w :: w_open w) (w_next w :: w_temp w) (w_maps w) (w_next w :: w_made w))
    else ret None).
(** os.Remove of a temporary file *)
Definition os_remove (f : N) : M unit := fun w =>
  Some (tt, mkW (w_answers w) (w_next w) (w_open w) (without f (w_temp w)) (w_maps w) (w_made w)).

(** A slice of a mapping. *)
Record slice := mkSlice { sl_map : option N; sl_len : N; sl_cap : N }.
Definition nil_slice := mkSlice None 0 0.
Definition new_map (len : N) : M slice := fun w =>
  Some (mkSlice (Some (w_next w)) len len,
        mkW (w_answers w) (w_next w + 1) (w_open w) (w_temp w) (w_next w :: w_maps w) (w_made w)).
(** syscall.Munmap (Go's mmapper.Munmap): EINVAL for a slice that does not reach to its
    capacity, and for one that is not a mapping. *)
Definition munmap (s : slice) : M bool := fun w =>
  if N.eqb (sl_len s) 0 || negb (N.eqb (sl_len s) (sl_cap s)) then Some (false, w)
  else match sl_map s with
       | None => Some (false, w)
       | Some m => if existsb (N.eqb m) (w_maps w)
                   then Some (true, mkW (w_answers w) (w_next w) (w_open w) (w_temp w) (without m (w_maps w)) (w_made w))
                   else Some (false, w)
       end.
(** read.go:418-422 *)
Record mmapData := mkMm { mm_f : N; mm_d : slice; mm_o : slice }.
(** mmap_linux.go:13-31; the file's size is passed. *)
Definition mmapFile (f size : N) : M mmapData :=
  andThen ask (fun ok => if ok then
    if N.eqb size 0 then ret (mkMm f nil_slice nil_slice)
    else andThen ask (fun ok => if ok then
           andThen (new_map ((size + 4095) / 4096 * 4096)) (fun data =>
             ret (mkMm f (mkSlice (sl_map data) size (sl_cap data)) data))
         else fatal)
  else fatal).
(** mmap_linux.go:33-39 *)
Definition unmmapFile (m : mmapData) : M bool :=
  andThen (munmap (mm_o m)) (fun ok => if ok then andThen (close (mm_f m)) (fun _ => ret true) else ret false).
(** mmap_linux.go:41-43 *)
Definition unmmap (d : slice) : M bool := munmap d.

(** write.go:36-60; [wr_post]: how many entries; [wr_postFile]: with their sizes. *)
Record writer := mkWr { wr_nameData : N; wr_nameIndex : N; wr_postIndex : N; wr_main : N;
  wr_post : N; wr_postFile : list (N * N); wr_postData : list slice }.
(** write.go:60 *)
Definition npost : N := N.shiftl 64 20 / 8.
(** write.go:501-519 *)
Definition bufCreate (name : bool) : M N :=
  andThen (if name then os_open else temp_file) (fun r => match r with Some f => ret f | None => fatal end).
(** write.go:63-73 *)
Definition Create : M writer :=
  andThen (bufCreate false) (fun nd => andThen (bufCreate false) (fun ni => andThen (bufCreate false) (fun pi =>
    andThen (bufCreate true) (fun mn => ret (mkWr nd ni pi mn 0 [] []))))).
(** write.go:292-315 *)
Definition flushPost (ix : writer) : M writer :=
  andThen temp_file (fun r => match r with
    | None => fatal
    | Some f => andThen ask (fun ok => if ok
        then ret (mkWr (wr_nameData ix) (wr_nameIndex ix) (wr_postIndex ix) (wr_main ix) 0
                    (wr_postFile ix ++ [(f, wr_post ix * 8)]) (wr_postData ix))
        else fatal)
    end).
(** write.go:211-217: [k] trigrams of a file *)
Fixpoint add_posts (k : nat) (ix : writer) : M writer :=
  match k with
  | O => ret ix
  | S k => andThen (if npost <=? wr_post ix then flushPost ix else ret ix) (fun ix =>
      add_posts k (mkWr (wr_nameData ix) (wr_nameIndex ix) (wr_postIndex ix) (wr_main ix) (wr_post ix + 1)
                     (wr_postFile ix) (wr_postData ix)))
  end.
(** write.go:378-383 and 319-329: the chunks are mapped; an empty one would panic. *)
Fixpoint add_files (fs : list (N * N)) : M (list slice) :=
  match fs with
  | [] => ret []
  | (f, size) :: fs => andThen (mmapFile f size) (fun m =>
      if N.eqb (sl_len (mm_d m)) 0 then fatal
      else andThen (add_files fs) (fun ds => ret (mm_d m :: ds)))
  end.
Definition mergePost (ix : writer) : M writer :=
  andThen (add_files (wr_postFile ix)) (fun ds =>
    ret (mkWr (wr_nameData ix) (wr_nameIndex ix) (wr_postIndex ix) (wr_main ix) (wr_post ix)
           (wr_postFile ix) (wr_postData ix ++ ds))).
(** write.go:267-273 *)
Definition copyFile : M unit := andThen ask (fun ok => if ok then ret tt else fatal).
Fixpoint each {A} (f : A -> M unit) (l : list A) : M unit :=
  match l with [] => ret tt | a :: l => andThen (f a) (fun _ => each f l) end.
(** write.go:223-261 *)
Definition Flush (ix : writer) : M unit :=
  andThen copyFile (fun _ => andThen (mergePost ix) (fun ix => andThen copyFile (fun _ => andThen copyFile (fun _ =>
  andThen (os_remove (wr_nameData ix)) (fun _ =>
  andThen (each (fun d => andThen (unmmap d) (fun _ => ret tt)) (wr_postData ix)) (fun _ =>
  andThen (each (fun f => andThen (close (fst f)) (fun _ => os_remove (fst f))) (wr_postFile ix)) (fun _ =>
  andThen (os_remove (wr_nameIndex ix)) (fun _ => os_remove (wr_postIndex ix))))))))).
(** write.go:263-265 *)
Definition Close (ix : writer) : M unit := close (wr_main ix).

(** index.go:259-282: whether it is text, or an error *)
Definition isTextFile : M (option bool) :=
  andThen os_open (fun r => match r with
    | None => ret None
    | Some r => defer (close r) (andThen ask (fun ok => if ok then andThen ask (fun t => ret (Some t)) else ret None))
    end).
(** index.go:310-333, write.go:125-220: [reason]: [Add] leaves the file out. [None]: error. *)
Definition addFileToIndex (ix : writer) (reason : bool) (k : nat) : M (option writer) :=
  andThen ask (fun ok => if ok then
    andThen os_open (fun r => match r with
      | None => ret None
      | Some r => defer (close r) (andThen os_open (fun w => match w with
          | None => ret None
          | Some w => defer (close w) (if reason then ret (Some ix) else andThen (add_posts k ix) (fun ix => ret (Some ix)))
          end))
      end)
  else ret None).
(** index.go:350-358 *)
Definition writeExcludedFilesJson : M bool :=
  andThen os_open (fun w => match w with None => ret false | Some w => defer (close w) ask end).

(** What the walk comes to. [Lost]: no FileInfo; [info.Name()] panics. [Passed]: special,
    dot file, or no regular file. *)
Inductive visit := Lost | Passed | Dir | File (reason : bool) (trigrams : nat).
(** index.go:389-448: [None]: error, the walk ends. *)
Definition visiting (v : visit) (ix : writer) : M (option writer) :=
  match v with
  | Lost => fatal
  | _ => andThen ask (fun rel => if rel then
      match v with
      | Dir => andThen ask (fun ok => ret (if ok then Some ix else None))
      | File reason k => andThen isTextFile (fun t => match t with
          | None => ret None
          | Some false => ret (Some ix)
          | Some true => addFileToIndex ix reason k
          end)
      | _ => ret (Some ix)
      end
    else ret None)
  end.
Fixpoint walk (vs : list visit) (ix : writer) : M (option writer) :=
  match vs with
  | [] => ret (Some ix)
  | v :: vs => andThen (visiting v ix) (fun r => match r with Some ix => walk vs ix | None => ret None end)
  end.
(** index.go:369-464: [true]: no error. *)
Definition indexAllFiles (vs : list visit) : M bool :=
  andThen Create (fun ix => defer (Close ix)
    (andThen os_open (fun h => match h with
      | None => ret false
      | Some h => defer (close h)
          (andThen (walk vs ix) (fun r => match r with
            | None => ret false
            | Some ix => andThen writeExcludedFilesJson (fun ok =>
                if ok then andThen (Flush ix) (fun _ => ret true) else ret false)
            end))
      end))).
(** index.go:91-99 *)
Definition writeManifest : M bool :=
  andThen os_open (fun w => match w with None => ret false | Some w => defer (close w) ask end).
(** index.go:488-516; the first two answers: the directory, and the directory raw. *)
Definition Build (vs : list visit) : M bool :=
  andThen ask (fun ok => if ok then andThen ask (fun ok => if ok then
    andThen (indexAllFiles vs) (fun ok => if ok then writeManifest else ret false)
  else ret false) else ret false).

(** read.go:96-113, 429-435: too short, or (the answer) no trailer: log.Fatal *)
Definition OpenTri (size : N) : M mmapData :=
  andThen os_open (fun r => match r with
    | None => fatal
    | Some f => andThen (mmapFile f size) (fun m =>
        if sl_len (mm_d m) <? 4 * 4 + 16 then fatal else andThen ask (fun ok => if ok then ret m else fatal))
    end).
(** index.go:470-486 *)
Definition Read : M bool :=
  andThen os_open (fun r => match r with None => ret false | Some r => defer (close r) ask end).
(** searcher.go:233-252, index.go:101-106, 519-526; [there]: the directory is there *)
Definition buildAndOpenIndex (there : bool) (vs : list visit) (size : N) : M (option mmapData) :=
  andThen (if there then Read else Build vs) (fun ok =>
    if ok then andThen (OpenTri size) (fun m => ret (Some m)) else ret None).
(** index.go:112-116, read.go:131-133 *)
Definition CloseIndex (m : mmapData) : M bool := unmmapFile m.
(** index.go:118-125 *)
Definition Destroy (m : mmapData) : M bool :=
  andThen (CloseIndex m) (fun ok => if ok then ask else ret false).

(** grep.go:50-67; [c.Close()] of the gzip reader has no file of its own. *)
Definition grep2File : M bool :=
  andThen os_open (fun r => match r with
    | None => ret false
    | Some r => defer (close r) (andThen ask (fun gz => if gz then ask else ret false))
    end).
(** index.go:190-247: the files that are looked at *)
Fixpoint grep_files (n : nat) : M bool :=
  match n with O => ret true | S n => andThen grep2File (fun ok => if ok then grep_files n else ret false) end.

(** searcher.go:343-391 and 117-125: [there]: a directory by the name that was made up is
    there; [vs], [size]: what there is to index, and what comes of it. The index in use afterwards, and whether the update was made. *)
Definition updateAndReindex (there : bool) (vs : list visit) (size : N) (cur : mmapData) : M (mmapData * bool) :=
  andThen ask (fun pulled => if pulled then andThen ask (fun changed => if changed then
    andThen (buildAndOpenIndex there vs size) (fun r => match r with
      | None => ret (cur, false)
      | Some idx => andThen (Destroy cur) (fun ok => if ok then ret (idx, true)
          else andThen (Destroy idx) (fun _ => ret (idx, false)))
      end)
  else ret (cur, false)) else ret (cur, false)).
(** A searcher's life: updates, and searches between them; how many updates were made with an index that was built. *)
Inductive doing := Update (there : bool) (vs : list visit) (size : N) | Search (files : nat).
Fixpoint live (ds : list doing) (cur : mmapData) : M (mmapData * nat) :=
  match ds with
  | [] => ret (cur, 0%nat)
  | Update there vs size :: ds => andThen (updateAndReindex there vs size cur) (fun r =>
      andThen (live ds (fst r)) (fun q => ret (fst q, if snd r && negb there then S (snd q) else snd q)))
  | Search n :: ds => andThen (grep_files n) (fun _ => live ds cur)
  end.
