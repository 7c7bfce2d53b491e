(** C54: the server carries out the search that was asked for on the command line. [def] is
    the result limit of the server's configuration. Strings are bytes; the host has no
    question mark and no hash. The context is the one asked for if it is between 0 and 20
    ([_partial]); other values are replaced without notice ([_refuted]). *)
From Verif Require Import Model.Base Model.GoStr Model.Config Model.Api Model.Request Spec.ApiSpec Spec.Names
  Proofs.GoStrProofs Proofs.RequestProofs.
From Coq Require Import Lia.
Local Open Scope N_scope.

Theorem C54_request_partial : forall host pattern repos files ctx ic st idx def,
  ~ In 35 host -> ~ In 63 host ->
  Forall (fun c => c < 256) pattern -> Forall (fun c => c < 256) repos -> Forall (fun c => c < 256) files ->
  (0 <= ctx <= 20)%Z ->
  let q := read_search (form_of (search_url host pattern repos files ctx ic st)) idx def in
  q_query q = pattern /\ q_files q = files /\ q_exclude q = [] /\ q_icase q = ic /\ q_literal q = false /\
  q_stats q = st /\ q_offset q = 0%Z /\ q_limit q = 0%Z /\ q_max q = def /\
  (forall w name, trimmed repos w ->
     (In name (q_repos q) <-> In name (map fst idx) /\ (w = [42] \/ element w name))) /\
  Z.of_N (q_ctx q) = ctx.
Proof.
  intros host pattern repos files ctx ic st idx def H1 H2 P R F C q.
  destruct (request_read host pattern repos files ctx ic st idx def H1 H2 P R F)
    as (A1 & A2 & A3 & A4 & A5 & A6 & A7 & A8 & A9 & A10 & A11 & _). fold q in A1, A2, A3, A4, A5, A6, A7, A8, A9, A10, A11.
  repeat (split; [assumption|]). rewrite A11 by lia. lia.
Qed.
Print Assumptions C54_request_partial.

(** Where it is sent. *)
Theorem C54_address : forall host pattern repos files ctx ic st, exists query,
  search_url host pattern repos files ctx ic st = text "http://" ++ host ++ text "/api/v1/search?" ++ query.
Proof. intros. eexists. reflexivity. Qed.
Print Assumptions C54_address.

(** The expression that the client marks in the lines is the one the server compiles:
    the pattern, after (?i) if case is to be ignored and (?m). *)
Theorem C54_pattern : forall host pattern repos files ctx ic st idx def,
  ~ In 35 host -> ~ In 63 host ->
  Forall (fun c => c < 256) pattern -> Forall (fun c => c < 256) repos -> Forall (fun c => c < 256) files ->
  let q := read_search (form_of (search_url host pattern repos files ctx ic st)) idx def in
  q_literal q = false /\ GetRegexpPattern (q_query q) (q_icase q) = GetRegexpPattern pattern ic /\
  GetRegexpPattern pattern ic = (if ic then [40; 63; 105; 41] else []) ++ [40; 63; 109; 41] ++ pattern.
Proof.
  intros host pattern repos files ctx ic st idx def H1 H2 P R F q.
  destruct (request_read host pattern repos files ctx ic st idx def H1 H2 P R F) as (A1 & _ & _ & A4 & A5 & _).
  fold q in A1, A4, A5. rewrite A1, A4. split; [exact A5|]. split; [reflexivity|]. destruct ic; reflexivity.
Qed.
Print Assumptions C54_pattern.

(** Every other number of lines is replaced: by 20, and by 2 if it is negative. *)
Theorem C54_context_replaced : forall host pattern repos files ctx ic st idx def,
  ~ In 35 host -> ~ In 63 host ->
  Forall (fun c => c < 256) pattern -> Forall (fun c => c < 256) repos -> Forall (fun c => c < 256) files ->
  let q := read_search (form_of (search_url host pattern repos files ctx ic st)) idx def in
  ((20 < ctx < 2 ^ 54)%Z -> q_ctx q = 20) /\ ((ctx < 0)%Z -> q_ctx q = 2).
Proof.
  intros host pattern repos files ctx ic st idx def H1 H2 P R F q.
  destruct (request_read host pattern repos files ctx ic st idx def H1 H2 P R F) as (_ & _ & _ & _ & _ & _ & _ & _ & _ & _ & A & B).
  fold q in A, B. split; [intros L; rewrite A by lia; lia|exact B].
Qed.
Print Assumptions C54_context_replaced.

Theorem C54_context_refuted : exists host pattern repos files ctx ic st idx def,
  ~ In 35 host /\ ~ In 63 host /\
  Forall (fun c => c < 256) pattern /\ Forall (fun c => c < 256) repos /\ Forall (fun c => c < 256) files /\
  Z.of_N (q_ctx (read_search (form_of (search_url host pattern repos files ctx ic st)) idx def)) <> ctx.
Proof.
  exists [104], [97], [42], [], 30%Z, false, false, [], 5000%Z.
  split; [intros [X|[]]; discriminate|]. split; [intros [X|[]]; discriminate|].
  split; [repeat constructor|]. split; [repeat constructor|]. split; [constructor|]. vm_compute. discriminate.
Qed.
Print Assumptions C54_context_refuted.

(** Host h; pattern "a+b &c", all repositories, files "%", 3 lines. *)
Example C54_example :
  raw_query (search_url [104] [97;43;98;32;38;99] [42] [37] 3 true false) =
    [99;116;120;61;51;38;102;105;108;101;115;61;37;50;53;38;105;61;116;114;117;101;38;
     113;61;97;37;50;66;98;43;37;50;54;99;38;114;101;112;111;115;61;37;50;65;38;115;116;97;116;115;61;102;97;108;115;101] /\
  form_of (search_url [104] [97;43;98;32;38;99] [42] [37] 3 true false) (text "q") = [97;43;98;32;38;99] /\
  form_of (search_url [104] [97;43;98;32;38;99] [42] [37] 3 true false) (text "files") = [37].
Proof. vm_compute. auto. Qed.
