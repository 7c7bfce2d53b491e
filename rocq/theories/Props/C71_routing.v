(** C71: which answer a request gets is settled by its path, as [routed] says: the health check
    comes first, then the wait for the indexes, then redirection to the proper form of the path,
    then the API, the pages and the embedded files by their very names. Every request is answered,
    and a redirection leads to no other. *)
From Verif Require Import Model.Base Model.Mux Spec.Names Spec.MuxSpec Proofs.MuxProofs Proofs.MuxPatterns.
Local Open Scope N_scope.

Theorem C71_routing : forall health ready files r a, NoDup (map fst files) ->
  (ServeHTTP health ready files r = Some a <-> routed health ready files r a).
Proof. exact served. Qed.
Print Assumptions C71_routing.

Theorem C71_answered : forall health ready files r, NoDup (map fst files) ->
  exists a, ServeHTTP health ready files r = Some a.
Proof. exact serve_total. Qed.
Print Assumptions C71_answered.

Theorem C71_once : forall health ready files r p q, ServeHTTP health ready files r = Some (MovedTo p q) ->
  forall ready' r' p' q', q_path r' = p -> q_connect r' = false -> ServeHTTP health ready' files r' <> Some (MovedTo p' q').
Proof. exact moved_once. Qed.
Print Assumptions C71_once.

(** The same for any patterns: the one equal to the path, or else the longest that ends with a
    slash and begins the path. Registering goes through unless a pattern is empty or there twice. *)
Theorem C71_patterns : forall (H : Type) (rs : list (str * H)) m r o, register rs = Some m -> (dispatch m r = Some o <-> dispatched rs r o).
Proof. intros H. exact dispatch_ok. Qed.
Print Assumptions C71_patterns.
Theorem C71_registers : forall (H : Type) (rs : list (str * H)), (exists m, register rs = Some m) <-> NoDup (map fst rs) /\ ~ In [] (map fst rs).
Proof. intros H. exact register_when. Qed.
Print Assumptions C71_registers.
Definition ex_patterns : list (str * N) := [(text "/a/", 1); (text "/", 2); (text "/a/b/", 3); (text "/a/b/c", 4)].
Definition ex_dispatch (connect : bool) (p : str) : option (outcome N) := m <- register ex_patterns ;; dispatch m (mkReq connect false p (text "q")).
Example C71_patterns_example : ex_dispatch false (text "/a/b/d") = Some (Handled 3) /\ ex_dispatch false (text "/a/b/c") = Some (Handled 4) /\ ex_dispatch false (text "/a/x/../d") = Some (Moved (text "/a/d") (text "q")) /\
  ex_dispatch true (text "/a/b") = Some (Moved (text "/a/b/") (text "q")) /\ ex_dispatch false (text "/e") = Some (Handled 2) /\ ex_dispatch true (text "e") = Some Missing.
Proof. repeat (split; [vm_compute; reflexivity|]). vm_compute. reflexivity. Qed.

Definition ex_files : tree_files :=
  [(text "css", None); (text "css/hound.css", Some (text "body {}")); (text "open_search.xml", Some (text "hidden"))].
Definition ask (p : str) : option answer := ServeHTTP (text "/healthz") true ex_files (mkReq false false p (text "q=x")).
Example C71_example : NoDup (map fst ex_files) /\
  ask (text "/healthz") = Some Health /\
  ask (text "/") = Some (Template Index) /\
  ask (text "") = Some (MovedTo (text "/") (text "q=x")) /\
  ask (text "/api/v1/search") = Some (Endpoint Search) /\
  ask (text "/api/v1/search/") = Some NotFound /\
  ask (text "//api/./v2/../v1///search") = Some (MovedTo (text "/api/v1/search") (text "q=x")) /\
  ask (text "/../a/b/../c/") = Some (MovedTo (text "/a/c/") (text "q=x")) /\
  ask (text "/css/hound.css") = Some (File (text "body {}")) /\
  ask (text "/css") = Some NotFound /\
  ask (text "/open_search.xml") = Some (Template OpenSearch) /\
  ServeHTTP (text "/healthz") true ex_files (mkReq true false (text "") []) = Some NotFound /\
  ServeHTTP (text "/healthz") false ex_files (mkReq false false (text "/") []) = Some NotReady /\
  proper (text "/../a/b/../c/") (text "/a/c/").
Proof.
  split. { repeat constructor; cbn [In map fst ex_files]; intuition discriminate. }
  repeat (split; [vm_compute; reflexivity|]). apply proper_clean. vm_compute. reflexivity.
Qed.
