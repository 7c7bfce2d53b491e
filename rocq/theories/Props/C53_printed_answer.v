(** C53: what the command line client prints for an answer. [find] are the match positions
    in a line (FindAllStringIndex), [en] says whether the output is a terminal, [names] are
    the display names of the repositories (those that can be computed, see C45), [src] the
    lines of the files the matches come from. *)
From Verif Require Import Model.Base Model.Config Model.Grep Model.Matcher Model.Client Model.Present
  Spec.ApiSpec Spec.MatchSpec Spec.GrepSpec Spec.ClientSpec Spec.PresentSpec
  Proofs.SplitProofs Proofs.MatchTop Proofs.GrepTop Proofs.PresentProofs Proofs.PresentTop.
Local Open Scope nat_scope.

(** Colours aside, the whole answer as described by [answer_text]; if a write fails the
    error is returned and what was written is the part before it. *)
Theorem C53_output : forall en find ctx repos names src results,
  (forall t, positions 0 (length t) (find t)) ->
  Forall (fun r => repoNameFor repos (fst r) = Some (names (fst r))) results ->
  Forall (fun r => Forall (fun f => Forall (from_file (src (fst r) (fst f))) (snd f) /\ in_order (snd f)) (snd r)) results ->
  exists pieces, (exists plain, answer_text ctx src names results plain /\ coloured plain (concat pieces)) /\
    forall fails, let '(out, s) := Present en find fails ctx repos results in
      (s = Done /\ out = pieces) \/
      (s = Failed /\ exists next rest, pieces = out ++ next :: rest /\ fails out next = true).
Proof. intros en find ctx repos names src results P. exact (present_writes en find P ctx repos names src results). Qed.
Print Assumptions C53_output.

(** The same for what the server's searches deliver, whatever lines of context they were
    asked for. *)
Theorem C53_server : forall en find ctx repos names src results,
  (forall t, positions 0 (length t) (find t)) ->
  Forall (fun r => repoNameFor repos (fst r) = Some (names (fst r))) results ->
  Forall (fun r => Forall (fun f => exists fuel p nctx m m' text, wf_prog p /\ depth_ok fuel p /\ used fuel p m /\
    grep_text fuel nctx m text = Some (m', snd f) /\ splits text (src (fst r) (fst f))) (snd r)) results ->
  exists plain, answer_text ctx src names results plain /\
    exists out, Present en find (fun _ _ => false) ctx repos results = (out, Done) /\ coloured plain (concat out).
Proof. exact server_printed. Qed.
Print Assumptions C53_server.

(** A printed row tells the number, the text and the mark. *)
Theorem C53_rows : forall r r' s, (0 < row_no r)%Z -> (0 < row_no r')%Z -> row_text r s -> row_text r' s -> r = r'.
Proof. exact row_text_inj. Qed.
Print Assumptions C53_rows.

(** Lines 2 and 4 of a file with one line of context, then line 8; on a terminal and not. *)
Definition C53_file : list str := [[97];[98];[99];[100];[101];[102];[103];[104]]%N.
Definition C53_results : list (str * list (str * list hit)) :=
  [([114]%N, [([102]%N, [mkHit [98%N] 2 [[97%N]] [[99%N]]; mkHit [104%N] 8 [[103%N]] []])])].
Example C53_example :
  Forall (from_file C53_file) (snd (hd ([], []) (snd (hd ([], []) C53_results)))) /\
  fst (Present false (fun _ => [(0, 1)]) (fun _ _ => false) 1 [] C53_results) =
    [[114;10]; [102;10]; [49;45;32;32;32;32;32;97;10]; [50;58;32;32;32;32;32;98;10]; [51;45;32;32;32;32;32;99;10]; [45;45;10];
     [55;45;32;32;32;32;32;103;10]; [56;58;32;32;32;32;32;104;10]; [45;45;10]; [10]]%N /\
  nth 3 (fst (Present true (fun _ => [(0, 1)]) (fun _ _ => false) 1 [] C53_results)) [] =
    [27;91;49;59;51;51;109;50;27;91;48;109;58;32;32;32;32;32;27;91;49;59;51;48;59;49;48;51;109;98;27;91;48;109;10]%N.
Proof.
  split; [|split; vm_compute; reflexivity].
  repeat constructor; cbn; try lia; intros [|[|[|]]] l H; cbn in *; congruence.
Qed.
