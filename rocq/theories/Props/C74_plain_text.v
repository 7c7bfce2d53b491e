(** C74: a literal search finds the text that was asked for. QuoteMeta and, for the patterns it
    makes, the parser of regexp/syntax are models (Model/GoParse.v), as are the compiler, the
    matcher, the analysis, the index and Search; what other patterns become is left open
    ([beyond]). The specification (Spec/LiteralSpec.v) knows only files, lines and characters. *)
From Verif Require Import Model.Base Model.GoStr Model.Writer Model.IndexRun Model.Query Model.Reader Model.Utf8 Model.Syntax Model.Matcher Model.Utf Model.Analyze Model.Grep Model.Search Model.Api
  Model.Request Model.Whole Model.GoRegexp Model.GoParse Spec.IndexSpec Spec.RunSpec Spec.Utf8Spec Spec.RegexSpec Spec.MatchSpec Spec.GrepSpec Spec.RuneProgSpec Spec.ExprSpec Spec.ParsedSpec Spec.LiteralSpec
  Proofs.GrepTop Proofs.MatchTop Proofs.EndToEnd Proofs.IndexProofs Proofs.SearchTop Proofs.UtfTop Proofs.SearchExample Proofs.WholeSearch Proofs.WholeExample Proofs.LiteralParse Proofs.LiteralTop Props.C01_prefilter Props.C23_expressions.
From Coq Require Import Lia.
Local Open Scope N_scope.

(** The files of the answer are those with the text in one of their lines, in the order of the
    index, and the lines reported are those that contain it. Left out: letters
    beyond U+1044F when case is ignored (refuted below); files that are not UTF-8 (C14);
    filters on names, offset and limit (C20-C22); texts of more than 2^25/3 characters, which
    are refused. *)
Theorem C74_text_found_partial : forall grow sf om beyond ic rs chars, folding sf om -> Forall2 utf8 rs chars ->
  (ic = true -> forall r, In r rs -> 0x1044f < r -> sf r = r) -> 3 * N.of_nat (length rs) <= 2^25 ->
  exists p, byte_program sf om (text_expr sf om ic rs) = Some p /\
  (N.of_nat (length (p_inst p)) < 2^32 - 1 -> forall fuel, depth_ok fuel p ->
   forall q s docs, q_literal q = true -> q_query q = List.concat chars -> q_icase q = ic -> q_files q = [] -> q_exclude q = [] ->
   q_offset q = 0%Z -> q_limit q = 0%Z -> holding sf ic rs (q_max q) s docs ->
   exists r, search_repo fuel (compile_pattern sf om grow fuel beyond) QuoteMeta q s = Some (Some r) /\
     exists w, (forall d, In d docs -> (w d = true <-> exists k line, line_with sf ic rs (snd d) k line)) /\
       Forall2 (fun d f => fm_name f = fst d /\ forall k line, reported (fm_hits f) k line <-> line_with sf ic rs (snd d) k line)
         (filter w docs) (rs_matches r)).
Proof. exact literal_repo. Qed.
Print Assumptions C74_text_found_partial.

(** What the lines contain, when case matters: the very bytes of the request. *)
Theorem C74_same_bytes : forall sf rs chars line, Forall2 utf8 rs chars ->
  (contains_text sf false rs line <-> exists a b, line = a ++ List.concat chars ++ b).
Proof.
  intros sf rs chars line F. assert (S : forall w, spells sf false rs w <-> w = List.concat chars).
  { induction F as [|r bs rs chars U _ IH]; intros w; [reflexivity|]. cbn [spells List.concat]. split.
    - intros (r' & u & v & -> & U' & SP & ->). rewrite (Utf8Proofs.utf8_fun _ _ _ U' U). apply IH in SP. rewrite SP. reflexivity.
    - intros ->. exists r, bs, (List.concat chars). split; [reflexivity|]. split; [exact U|]. split; [apply IH; reflexivity|reflexivity]. }
  split.
  - intros (a & w & b & E & SP). apply S in SP. subst w. eauto.
  - intros (a & b & E). exists a, (List.concat chars), b. split; [exact E|]. apply S. reflexivity.
Qed.
Print Assumptions C74_same_bytes.

(** A request that is not UTF-8, or too long, is answered with an error. *)
Theorem C74_refused : forall grow sf om beyond fuel q s, q_literal q = true -> Forall is_byte (q_query q) ->
  (~ valid_utf8 (q_query q) \/ exists rs chars, Forall2 utf8 rs chars /\ q_query q = List.concat chars /\ 2^25 < 3 * N.of_nat (length rs)) ->
  search_repo fuel (compile_pattern sf om grow fuel beyond) QuoteMeta q s = Some None.
Proof. exact literal_refused. Qed.
Print Assumptions C74_refused.

(** ** Examples *)
Definition lt_request (text : str) (ic : bool) : search_request :=
  mkReq false [[114]] text 0 0 [] [] ic true 0 1.
Definition lt_server (text : str) : served :=
  mkServed (open_of (build_index 2 (fun _ => 0) [] [([97], [(text, ErrEOF)])])) (fun name => match name with [97] => Some (RChunk text true REof) | _ => None end) [] [49].
Definition lt_found (sf : N -> N) (fuel : nat) (pat text : str) (ic : bool) : option (list (nat * str)) :=
  r <- search_repo fuel (compile_pattern sf 4 go_grow fuel (fun _ => None)) QuoteMeta (lt_request pat ic) (lt_server text) ;;
  match r with
  | Some r => Some (flat_map (fun f => map (fun h => (h_no h, h_line h)) (fm_hits f)) (rs_matches r))
  | None => None
  end.

Lemma lt_stocked : forall text, Forall is_byte text -> (exists b, build_index 2 (fun _ => 0) [] [([97], [(text, ErrEOF)])] = Some ([None], b)) ->
  stocked (sv_ix (lt_server text)) (sv_raw (lt_server text)) [([97], text)].
Proof.
  intros text FB (b & EB). assert (C : ev_content [(text, ErrEOF)] = text) by (destruct text; cbn; rewrite ?app_nil_r; reflexivity).
  assert (FO : files_ok [([97], [(text, ErrEOF)])]).
  { constructor; [|constructor]. cbn [snd]. rewrite C. exact FB. }
  destruct (names_roundtrip 2 (fun _ => 0) [] _ _ b (le_S _ _ (le_n 1)) FO (Forall_nil _) EB) as (docs & ix & K & OP & _).
  exists 2%nat, (fun _ => 0), [([97], [(text, ErrEOF)])], [None], b. split; [lia|]. split; [exact FO|]. split; [exact EB|].
  assert (docs = [([97], text)]).
  { inversion K as [|n1 e1 f1 v1 d1 O1 A1 K1| |n1 e1 f1 v1 d1 O1 K1]; subst; [|exfalso; apply O1; destruct text; exact I].
    inversion K1; subst. rewrite C. reflexivity. }
  subst docs. split; [exact K|]. split.
  { cbn [sv_ix lt_server]. rewrite EB. cbn [open_of]. rewrite OP. reflexivity. }
  intros d [<-|[]]. eexists. split; [reflexivity|]. split; [destruct text; reflexivity|destruct text; cbn; rewrite ?app_nil_r; reflexivity].
Qed.
Lemma lt_holding : forall sf ic rs text, Forall is_byte text -> (exists b, build_index 2 (fun _ => 0) [] [([97], [(text, ErrEOF)])] = Some ([None], b)) ->
  valid_utf8 text -> holding sf ic rs 0 (lt_server text) [([97], text)].
Proof.
  intros sf ic rs text FB B V. constructor.
  - apply lt_stocked; assumption.
  - constructor; [intros []|constructor].
  - constructor; [|constructor]. split; [apply we_valid; repeat constructor|exact V].
  - left. lia.
Qed.

Lemma ascii_twice : forall r, ascii_fold (ascii_fold r) = r.
Proof.
  intros r. unfold ascii_fold. destruct (N.leb_spec 65 r), (N.leb_spec r 90), (N.leb_spec 97 r), (N.leb_spec r 122); cbn [andb];
    (repeat match goal with |- context [?a <=? ?b] => destruct (N.leb_spec a b) end); cbn [andb]; lia.
Qed.
Lemma ascii_folding : folding ascii_fold 4.
Proof.
  assert (B : forall r, ascii_fold r = r \/ (65 <= r <= 90 /\ ascii_fold r = r + 32) \/ (97 <= r <= 122 /\ ascii_fold r = r - 32)).
  { intros r. unfold ascii_fold. destruct (N.leb_spec 65 r), (N.leb_spec r 90), (N.leb_spec 97 r), (N.leb_spec r 122); cbn [andb]; lia. }
  constructor.
  - intros r. exists 2%nat. split; [lia|]. exact (ascii_twice r).
  - intros r SC. unfold scalar in *. destruct (B r) as [E|[(L & E)|(L & E)]]; rewrite E; lia.
  - intros r L. destruct (B r) as [E|[(L' & E)|(L' & E)]]; lia.
  - intros r L. destruct (B r) as [E|[(L' & E)|(L' & E)]]; lia.
  - exact ascii_fold_ok.
Qed.

(** "a.b" in a file of four lines, two of which have it, one in capitals. *)
Definition lt_text : str := [120; 10; 97; 97; 46; 98; 10; 97; 120; 98; 10; 65; 46; 98].
Example C74_example : forall ic,
  folding ascii_fold 4 /\ Forall2 utf8 [97; 46; 98] [[97]; [46]; [98]] /\
  (ic = true -> forall r, In r [97; 46; 98] -> 0x1044f < r -> ascii_fold r = r) /\
  (exists p, byte_program ascii_fold 4 (text_expr ascii_fold 4 ic [97; 46; 98]) = Some p /\ N.of_nat (length (p_inst p)) < 2^32 - 1 /\ depth_ok 3000 p) /\
  holding ascii_fold ic [97; 46; 98] (q_max (lt_request [97; 46; 98] ic)) (lt_server lt_text) [([97], lt_text)] /\
  lt_found ascii_fold 3000 [97; 46; 98] lt_text ic = Some ((2%nat, [97; 97; 46; 98]) :: if ic then [(4%nat, [65; 46; 98])] else []).
Proof.
  intros ic. split; [exact ascii_folding|]. split; [repeat constructor; reflexivity|]. split; [intros _ r [<-|[<-|[<-|[]]]] L; discriminate L|]. split; [|split].
  - destruct ic; (eexists; split; [vm_compute; reflexivity|]; split; [reflexivity|]; unfold depth_ok; apply Nat.ltb_lt; vm_compute; reflexivity).
  - apply lt_holding; [repeat constructor|eexists; vm_compute; reflexivity|apply we_valid; repeat constructor].
  - destruct ic; vm_compute; reflexivity.
Qed.
(** The empty text is in every line, and nothing else is reported; a dot is a dot. *)
Example C74_empty : lt_found ascii_fold 3000 [] [97; 10; 10] false = Some [(1%nat, [97]); (2%nat, [])] /\
  lt_found ascii_fold 3000 [46] [97; 10; 46; 10] false = Some [(2%nat, [46])].
Proof. split; vm_compute; reflexivity. Qed.

(** Two letters beyond U+1044F: U+104B0 and U+104D8 (Osage A), as in Unicode. *)
Definition late_fold (r : N) : N := if r =? 0x104B0 then 0x104D8 else if r =? 0x104D8 then 0x104B0 else ascii_fold r.
Lemma late_folding : folding late_fold 4.
Proof.
  destruct ascii_folding as [CY SC LO HI AS].
  assert (B : forall r, r <> 0x104B0 -> r <> 0x104D8 -> late_fold r = ascii_fold r).
  { intros r H1 H2. unfold late_fold. destruct (N.eqb_spec r 0x104B0); [contradiction|]. destruct (N.eqb_spec r 0x104D8); [contradiction|reflexivity]. }
  constructor.
  - intros r. exists 2%nat. split; [lia|]. change (late_fold (late_fold r) = r).
    destruct (N.eq_dec r 0x104B0) as [->|N1]; [reflexivity|]. destruct (N.eq_dec r 0x104D8) as [->|N2]; [reflexivity|].
    rewrite (B r N1 N2). rewrite B; [apply ascii_twice| |];
      unfold ascii_fold; destruct (N.leb_spec 65 r), (N.leb_spec r 90), (N.leb_spec 97 r), (N.leb_spec r 122); cbn [andb]; lia.
  - intros r S. destruct (N.eq_dec r 0x104B0) as [->|N1]; [change (scalar 0x104D8); unfold scalar; lia|].
    destruct (N.eq_dec r 0x104D8) as [->|N2]; [change (scalar 0x104B0); unfold scalar; lia|]. rewrite (B r N1 N2). apply SC, S.
  - intros r L. rewrite B by lia. apply LO, L.
  - intros r L. rewrite B by lia. apply HI, L.
  - intros r L. rewrite B by lia. intros L2. apply AS; assumption.
Qed.

(** Refuted for letters beyond U+1044F when case is ignored: even the text itself is not
    found (with regard to case it is). *)
Definition late_text : str := [0xF0; 0x90; 0x93; 0x98].
Theorem C74_late_letters_refuted : exists sf om rs chars p q s docs r, folding sf om /\ Forall2 utf8 rs chars /\ 3 * N.of_nat (length rs) <= 2^25 /\
  byte_program sf om (text_expr sf om true rs) = Some p /\ N.of_nat (length (p_inst p)) < 2^32 - 1 /\ depth_ok 4200 p /\
  q_literal q = true /\ q_query q = List.concat chars /\ q_icase q = true /\ q_files q = [] /\ q_exclude q = [] /\ q_offset q = 0%Z /\ q_limit q = 0%Z /\
  holding sf true rs (q_max q) s docs /\ docs = [([97], List.concat chars)] /\ line_with sf true rs (List.concat chars) 0 (List.concat chars) /\
  search_repo 4200 (compile_pattern sf om go_grow 4200 (fun _ => None)) QuoteMeta q s = Some (Some r) /\ rs_matches r = [].
Proof.
  assert (U : utf8 0x104D8 late_text) by (change late_text with (encode_rune 0x104D8); apply Utf8Proofs.encode_rune_utf8; unfold scalar; lia).
  destruct (byte_program late_fold 4 (text_expr late_fold 4 true [0x104D8])) as [p|] eqn:BP; [|vm_compute in BP; discriminate].
  destruct (search_repo 4200 (compile_pattern late_fold 4 go_grow 4200 (fun _ => None)) QuoteMeta (lt_request late_text true) (lt_server late_text)) as [[r|]|] eqn:ER;
    [|vm_compute in ER; discriminate|vm_compute in ER; discriminate].
  exists late_fold, 4%nat, [0x104D8], [late_text], p, (lt_request late_text true), (lt_server late_text), [([97], late_text)], r.
  change (List.concat [late_text]) with late_text. split; [exact late_folding|]. split; [constructor; [exact U|constructor]|]. split; [vm_compute; discriminate|]. split; [exact BP|].
  split; [vm_compute in BP; injection BP as <-; reflexivity|]. split; [vm_compute in BP; injection BP as <-; unfold depth_ok; apply Nat.ltb_lt; vm_compute; reflexivity|].
  do 7 (split; [reflexivity|]). split; [apply lt_holding; [repeat constructor|eexists; vm_compute; reflexivity|]|].
  { exists [late_text]. split; [reflexivity|]. constructor; [exists 0x104D8; exact U|constructor]. }
  split; [reflexivity|]. split.
  { exists [late_text]. split; [exists [late_text]; split; [apply SplitProofs.splits_iff; reflexivity|right; split; [reflexivity|discriminate]]|]. split; [reflexivity|].
    exists [], late_text, []. split; [reflexivity|]. exists 0x104D8, late_text, []. split; [reflexivity|]. split; [exact U|]. split; [reflexivity|]. exists 0%nat. reflexivity. }
  split; [exact ER|]. vm_compute in ER. injection ER as <-. reflexivity.
Qed.
Print Assumptions C74_late_letters_refuted.
Example C74_late_with_case : lt_found late_fold 4200 late_text late_text false = Some [(1%nat, late_text)].
Proof. vm_compute. reflexivity. Qed.
