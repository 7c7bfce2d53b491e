(** C103: in dev mode a page is rendered from its template as it is on disk. *)
From Verif Require Import Model.Base Model.DevPages Spec.DevSpec Proofs.DevProofs.

(** Missing: requests for the same page whose steps come in between (C103_stale_refuted,
    C103_broken_refuted). *)
Theorem C103_alone_partial : forall (T : Type) (v : option T) (a b : list (event T)) i c s,
  dev_run v (a ++ Parse i :: b ++ Store i :: c ++ [Execute i]) = Some s -> (forall k, ~ In (Store k) c) ->
  exists t, on_disk v a (Some t) /\ reqs s i = Done (Page t).
Proof. exact (@alone). Qed.
Print Assumptions C103_alone_partial.

(** In any case the page is made from a template that some request read from the file, and stored
    no earlier than this one stored its own, last before the page was made. *)
Theorem C103_someones : forall (T : Type) (v : option T) (es : list (event T)) s i t, dev_run v es = Some s -> reqs s i = Done (Page t) ->
  exists a j b c, es = a ++ Store j :: b ++ Execute i :: c /\ begins v a j (Some t) /\ In (Store i) (a ++ [Store j]) /\ (forall k, ~ In (Store k) b).
Proof. exact (@someones). Qed.
Print Assumptions C103_someones.

(** The error of the parse is reported by the requests whose own parse failed, and by no others. *)
Theorem C103_failed : forall (T : Type) (v : option T) (es : list (event T)) s i, dev_run v es = Some s ->
  (reqs s i = Done Failed <-> begins v es i None /\ In (Store i) es).
Proof. exact (@failed_own). Qed.
Print Assumptions C103_failed.

(** The template is changed before the request; the page shows the old one. *)
Theorem C103_stale_refuted : exists (es a b : list (event nat)) s, dev_run (Some 1) es = Some s /\
  es = a ++ Parse 1 :: b /\ on_disk (Some 1) a (Some 2) /\ (forall v, ~ In (Edit v) b) /\ reqs s 1 = Done (Page 1).
Proof.
  exists [Parse 0; Edit (Some 2); Parse 1; Store 1; Store 0; Execute 1], [Parse 0; Edit (Some 2)], [Store 1; Store 0; Execute 1].
  eexists. split; [reflexivity|]. split; [reflexivity|]. split; [apply (disk_edit (Some 1) [Parse 0] (Some 2) (Some 1)); apply (disk_other (Some 1) [] (Parse 0)); [constructor|discriminate]|].
  split; [|reflexivity]. intros v. cbn [In]. intuition discriminate.
Qed.
Print Assumptions C103_stale_refuted.

(** The template is mended before the request; there is no page, for want of a template. *)
Theorem C103_broken_refuted : exists (es a b : list (event nat)) s, dev_run None es = Some s /\
  es = a ++ Parse 1 :: b /\ on_disk None a (Some 2) /\ (forall v, ~ In (Edit v) b) /\ reqs s 1 = Done NoTemplate.
Proof.
  exists [Parse 0; Edit (Some 2); Parse 1; Store 1; Store 0; Execute 1], [Parse 0; Edit (Some 2)], [Store 1; Store 0; Execute 1].
  eexists. split; [reflexivity|]. split; [reflexivity|]. split; [apply (disk_edit None [Parse 0] (Some 2) None); apply (disk_other None [] (Parse 0)); [constructor|discriminate]|].
  split; [|reflexivity]. intros v. cbn [In]. intuition discriminate.
Qed.
Print Assumptions C103_broken_refuted.

(** A request fails; the template is mended; the next request, with the file changed again while
    it is under way and another request reading it, shows what it read. *)
Example C103_example : exists s, dev_run None ([Parse 0; Store 0; Edit (Some 7)] ++ Parse 1 :: [Edit (Some 8)] ++ Store 1 :: [Parse 2] ++ [Execute 1]) = Some s /\
  reqs s 0 = Done Failed /\ reqs s 1 = Done (Page 7) /\ (forall k, ~ In (Store k) [@Parse nat 2]).
Proof. eexists. split; [reflexivity|]. split; [reflexivity|]. split; [reflexivity|]. intros k [E|[]]. discriminate. Qed.
