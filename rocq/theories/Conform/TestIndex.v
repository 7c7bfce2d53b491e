(** The tests of /repo/codesearch/index on the model: write_test.go (TestTrivialWrite, TestTrivialWriteDisk,
    TestHeap), read_test.go (TestTrivialPosting), merge_test.go (TestMerge).

    Tests of the model, not proofs about it: each is one run. *)
From Verif Require Import Model.Base Model.Codec Model.Sparse Model.Posts Model.Writer Model.Reader Model.IndexMerge Spec.Names.
Local Open Scope N_scope.

(** strings.NewReader: the whole text in one read, the end in the next. *)
Definition new_reader (b : bytes) : list read_ev := match b with [] => [([], ErrEOF)] | _ => [(b, ErrNil); ([], ErrEOF)] end.

Fixpoint add_all (cap : nat) (w : iw) (files : list (str * bytes)) : option iw :=
  match files with
  | [] => Some w
  | (name, b) :: rest => '(_, w) <- iw_add cap w name (new_reader b) ;; add_all cap w rest
  end.

(** buildFlushIndex, write_test.go:113-128; the names are given in sorted order. *)
Definition build (paths : list str) (doFlush : bool) (files : list (str * bytes)) : option bytes :=
  w <- add_all 1000 (add_paths (iw_create (fun _ => 0)) paths) files ;;
  w <- (if doFlush then flush_post w else Some w) ;;
  iw_flush w.

(** ** write_test.go *)
Definition nl : bytes := [10].
Definition nul : bytes := [0].

(** write_test.go:16-23 *)
Definition trivialFiles : list (str * bytes) := [
  (text "afile4", nl ++ text "dabc" ++ nl);
  (text "f0", nl ++ nl);
  (text "file1", nl ++ text "a" ++ nl);
  (text "file3", nl ++ text "abc" ++ nl);
  (text "file5", nl ++ text "xyzw" ++ nl);
  (text "thefile2", nl ++ text "ab" ++ nl)].

(** write_test.go:87-94 *)
Definition u32s (x : N) : bytes := [x / 2^24 mod 256; x / 2^16 mod 256; x / 2^8 mod 256; x mod 256].

(** write_test.go:96-111; all differences in the tests are below 128. *)
Fixpoint fileList_from (last : N) (l : list N) : bytes :=
  match l with
  | [] => [0]
  | x :: r => (x + 2^32 - last) mod 2^32 :: fileList_from x r
  end.
Definition fileList : list N -> bytes := fileList_from (2^32 - 1).

(** write_test.go:25-81 *)
Definition trivialIndex : bytes := List.concat [
  text "csearch index 1"; nl;
  nul;
  text "afile4"; nul; text "f0"; nul; text "file1"; nul; text "file3"; nul; text "file5"; nul; text "thefile2"; nul; nul;
  nl; text "a"; nl; fileList [2];
  nl; text "ab"; fileList [3; 5];
  nl; text "da"; fileList [0];
  nl; text "xy"; fileList [4];
  text "ab"; nl; fileList [5];
  text "abc"; fileList [0; 3];
  text "bc"; nl; fileList [0; 3];
  text "dab"; fileList [0];
  text "xyz"; fileList [4];
  text "yzw"; fileList [4];
  text "zw"; nl; fileList [4];
  [255; 255; 255]; fileList [];
  u32s 0;
  u32s (6+1);
  u32s (6+1+2+1);
  u32s (6+1+2+1+5+1);
  u32s (6+1+2+1+5+1+5+1);
  u32s (6+1+2+1+5+1+5+1+5+1);
  u32s (6+1+2+1+5+1+5+1+5+1+8+1);
  nl; text "a"; nl; u32s 1; u32s 0;
  nl; text "ab"; u32s 2; u32s 5;
  nl; text "da"; u32s 1; u32s (5+6);
  nl; text "xy"; u32s 1; u32s (5+6+5);
  text "ab"; nl; u32s 1; u32s (5+6+5+5);
  text "abc"; u32s 2; u32s (5+6+5+5+5);
  text "bc"; nl; u32s 2; u32s (5+6+5+5+5+6);
  text "dab"; u32s 1; u32s (5+6+5+5+5+6+6);
  text "xyz"; u32s 1; u32s (5+6+5+5+5+6+6+5);
  text "yzw"; u32s 1; u32s (5+6+5+5+5+6+6+5+5);
  text "zw"; nl; u32s 1; u32s (5+6+5+5+5+6+6+5+5+5);
  [255; 255; 255]; u32s 0; u32s (5+6+5+5+5+6+6+5+5+5+5);
  u32s 16;
  u32s (16+1);
  u32s (16+1+38);
  u32s (16+1+38+62);
  u32s (16+1+38+62+28);
  nl; text "csearch trailr"; nl].

(** write_test.go:155-161 *)
Example TestTrivialWrite : build [] false trivialFiles = Some trivialIndex.
Proof. vm_compute. reflexivity. Qed.
Example TestTrivialWriteDisk : build [] true trivialFiles = Some trivialIndex.
Proof. vm_compute. reflexivity. Qed.

(** write_test.go:163-177 *)
Fixpoint adds (h : heap) (es : list N) : option heap :=
  match es with
  | [] => Some h
  | e :: r => h <- heap_add h [e] ;; adds h r
  end.
Fixpoint nexts (n : nat) (h : heap) : option (list N) :=
  match n with
  | O => Some []
  | Datatypes.S n => '(e, h) <- heap_next h ;; es <- nexts n h ;; Some (e :: es)
  end.
Example TestHeap :
  (h <- adds [] [7; 4; 3; 2; 4] ;; Some (length h)) = Some 5%nat /\
  (h <- adds [] [7; 4; 3; 2; 4] ;; nexts 5 h) = Some [2; 3; 4; 4; 7].
Proof. vm_compute. split; reflexivity. Qed.

(** ** read_test.go *)
Definition tri (t : str) : N := match t with [x; y; z] => x * 2^16 + y * 2^8 + z | _ => 0 end.
Definition opened (paths : list str) (files : list (str * bytes)) : option index :=
  d <- build paths false files ;; ix_open d.

Definition postFiles : list (str * bytes) := [
  (text "file0", []);
  (text "file1", text "Google Code Search");
  (text "file2", text "Google Code Project Hosting");
  (text "file3", text "Google Web Search")].

Definition list_of (ix : option index) (t : str) : option (list N) := ix <- ix ;; posting_list ix (tri t) None.
Definition and_of (ix : option index) (t u : str) : option (list N) :=
  ix <- ix ;; l <- posting_list ix (tri t) None ;; posting_and ix l (tri u) None.
Definition or_of (ix : option index) (t u : str) : option (list N) :=
  ix <- ix ;; l <- posting_list ix (tri t) None ;; posting_or ix l (tri u) None.

(** read_test.go:24-47 *)
Example TestTrivialPosting :
  let ix := opened [] postFiles in
  list_of ix (text "Sea") = Some [1; 3] /\
  list_of ix (text "Goo") = Some [1; 2; 3] /\
  and_of ix (text "Sea") (text "Goo") = Some [1; 3] /\
  and_of ix (text "Goo") (text "Sea") = Some [1; 3] /\
  or_of ix (text "Sea") (text "Goo") = Some [1; 2; 3] /\
  or_of ix (text "Goo") (text "Sea") = Some [1; 2; 3].
Proof. vm_compute. repeat split; reflexivity. Qed.

(** ** merge_test.go *)
Definition mergePaths1 : list str := [text "/a"; text "/b"; text "/c"].
Definition mergePaths2 : list str := [text "/b"; text "/cc"].
Definition mergeFiles1 : list (str * bytes) := [
  (text "/a/x", text "hello world");
  (text "/a/y", text "goodbye world");
  (text "/b/xx", text "now is the time");
  (text "/b/xy", text "for all good men");
  (text "/c/ab", text "give me all the potatoes");
  (text "/c/de", text "or give me death now")].
Definition mergeFiles2 : list (str * bytes) := [
  (text "/b/www", text "world wide indeed");
  (text "/b/xx", text "no, not now");
  (text "/b/yy", text "first potatoes, now liberty?");
  (text "/cc", text "come to the aid of his potatoes")].

Definition ix1 := opened mergePaths1 mergeFiles1.
Definition ix2 := opened mergePaths2 mergeFiles2.
Definition ix3 : option index :=
  d1 <- build mergePaths1 false mergeFiles1 ;; d2 <- build mergePaths2 false mergeFiles2 ;; d <- merge d1 d2 ;; ix_open d.

Definition names_of (ix : option index) (n : nat) : list (option str) :=
  map (fun i => ix <- ix ;; ix_name ix (N.of_nat i)) (seq 0 n).

(** merge_test.go:40-102 *)
Example TestMerge :
  names_of ix1 6 = map Some [text "/a/x"; text "/a/y"; text "/b/xx"; text "/b/xy"; text "/c/ab"; text "/c/de"] /\
  names_of ix2 4 = map Some [text "/b/www"; text "/b/xx"; text "/b/yy"; text "/cc"] /\
  names_of ix3 8 = map Some [text "/a/x"; text "/a/y"; text "/b/www"; text "/b/xx"; text "/b/yy"; text "/c/ab"; text "/c/de"; text "/cc"] /\
  list_of ix1 (text "wor") = Some [0; 1] /\
  list_of ix1 (text "now") = Some [2; 5] /\
  list_of ix1 (text "all") = Some [3; 4] /\
  list_of ix2 (text "now") = Some [1; 2] /\
  list_of ix3 (text "all") = Some [5] /\
  list_of ix3 (text "wor") = Some [0; 1; 2] /\
  list_of ix3 (text "now") = Some [3; 4; 6] /\
  list_of ix3 (text "pot") = Some [4; 5; 7].
Proof. vm_compute. repeat split; reflexivity. Qed.
