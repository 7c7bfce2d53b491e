(** C57: the revision of a local directory changes exactly when its files change. With
    watch-changes this holds for directories whose files can all be read and as long as
    the hash has no collision among the texts it is applied to ([_partial]). Without it
    the revision never changes, and a directory with one unreadable file (for example a
    dangling link), or with a newline in a name, has no revision at all ([_refuted]). *)
From Verif Require Import Model.Base Model.GoStr Model.Config Model.LocalVcs Spec.Names Spec.LocalSpec Proofs.LocalProofs.
Local Open Scope N_scope.

(** [inputs]: what the hash is applied to, the contents of the files and the two lists of
    files; [fs] and [fs'] are two states of the file system. *)
Theorem C57_watched_partial : forall sha1 width g fs fs' dir t t' inputs,
  (forall x, length (sha1 x) = width /\ Forall is_byte (sha1 x)) ->
  WatchChanges g = true -> fs dir = Some t -> fs' dir = Some t' -> readable t -> readable t' ->
  collision_free sha1 inputs ->
  (forall name c, In (name, Some c) (t ++ t') -> In c inputs) ->
  (forall u, hash_lines sha1 (sort_strings (map fst t)) (open_in t) = Some u -> In u inputs) ->
  (forall u, hash_lines sha1 (sort_strings (map fst t')) (open_in t') = Some u -> In u inputs) ->
  exists r r', HeadRev sha1 g fs dir = Some r /\ HeadRev sha1 g fs' dir = Some r' /\ (r = r' <-> same_files t t').
Proof.
  intros sha1 width g fs fs' dir t t' inputs SHA W E E' R R' CF A B B'. unfold HeadRev. rewrite W, E, E'. cbn [negb].
  exact (revision_iff sha1 width SHA inputs t t' R R' CF A B B').
Qed.
Print Assumptions C57_watched_partial.

(** Whatever happens to the files. *)
Theorem C57_unwatched : forall sha1 g dir, WatchChanges g = false -> forall fs fs', HeadRev sha1 g fs dir = HeadRev sha1 g fs' dir.
Proof. intros sha1 g dir W fs fs'. unfold HeadRev. rewrite W. reflexivity. Qed.
Print Assumptions C57_unwatched.

Theorem C57_unreadable : forall sha1 g fs dir t name c, WatchChanges g = true -> fs dir = Some t -> NoDup (map fst t) ->
  In (name, c) t -> c = None \/ In 10 name -> HeadRev sha1 g fs dir = None.
Proof. exact unreadable_none. Qed.
Print Assumptions C57_unreadable.

(** Cloning makes a link to the directory of the URL and gives the revision of what it
    shows; if the link cannot be made, or for anything but a file URL, there is no link and
    an error. *)
Theorem C57_clone : forall sha1 g link fs dir url,
  (forall src, url = text "file://" ++ src -> link = true -> Clone sha1 g link fs dir url = (Some src, HeadRev sha1 g fs dir)) /\
  (link = false \/ (forall src, url <> text "file://" ++ src) -> Clone sha1 g link fs dir url = (None, None)).
Proof. exact clone_links. Qed.
Print Assumptions C57_clone.

(** A hash that adds the bytes up; files a and b, in either order, and b changed. *)
Definition C57_hash (x : bytes) : bytes := [fold_left (fun a b => (31 * a + b + 7) mod 251) x 0].
Definition C57_t : tree := [([98], Some [1]); ([97], Some [2])].
Definition C57_t' : tree := [([97], Some [2]); ([98], Some [3])].
Example C57_example : readable C57_t /\ readable C57_t' /\ ~ same_files C57_t C57_t' /\
  hash_dir C57_hash (Some C57_t) = hash_dir C57_hash (Some (rev C57_t)) /\
  hash_dir C57_hash (Some C57_t) <> hash_dir C57_hash (Some C57_t') /\
  HeadRev C57_hash (mkLocal false []) (fun _ => None) [47; 118; 99; 115; 45; 49; 50] = Some [49; 50].
Proof.
  split; [|split; [|split; [|split; [reflexivity|split; [vm_compute; discriminate|reflexivity]]]]].
  - split; [repeat constructor; cbn; intuition discriminate|]. intros name c H. cbn in H.
    destruct H as [H|[H|[]]]; injection H as <- <-; (split; [cbn; intuition discriminate|discriminate]).
  - split; [repeat constructor; cbn; intuition discriminate|]. intros name c H. cbn in H.
    destruct H as [H|[H|[]]]; injection H as <- <-; (split; [cbn; intuition discriminate|discriminate]).
  - intros S. destruct (proj1 (S [98] (Some [1])) (or_introl eq_refl)) as [X|[X|[]]]; discriminate.
Qed.
Theorem C57_unwatched_refuted : exists sha1 g fs fs' dir t t', WatchChanges g = false /\
  fs dir = Some t /\ fs' dir = Some t' /\ readable t /\ readable t' /\ ~ same_files t t' /\
  exists r, HeadRev sha1 g fs dir = Some r /\ HeadRev sha1 g fs' dir = Some r.
Proof.
  exists C57_hash, (mkLocal false []), (fun _ => Some C57_t), (fun _ => Some C57_t'), [47; 118; 99; 115; 45; 49; 50], C57_t, C57_t'.
  destruct C57_example as (A & B & C & _).
  do 3 (split; [reflexivity|]). do 3 (split; [assumption|]). exists [49; 50]. split; reflexivity.
Qed.
Print Assumptions C57_unwatched_refuted.
Theorem C57_unreadable_refuted : exists sha1 g fs dir t, WatchChanges g = true /\ fs dir = Some t /\
  (exists name c, In (name, Some c) t) /\ HeadRev sha1 g fs dir = None.
Proof.
  exists C57_hash, (mkLocal true []), (fun _ => Some [([97], Some [1]); ([98], None)]), [47], [([97], Some [1]); ([98], None)].
  split; [reflexivity|]. split; [reflexivity|]. split; [exists [97], [1]; left; reflexivity|]. vm_compute. reflexivity.
Qed.
Print Assumptions C57_unreadable_refuted.

(** The premises of C57_watched_partial for these. *)
Example C57_premises : (forall x, length (C57_hash x) = 1%nat /\ Forall is_byte (C57_hash x)) /\
  exists inputs, collision_free C57_hash inputs /\
  (forall name c, In (name, Some c) (C57_t ++ C57_t') -> In c inputs) /\
  (forall u, hash_lines C57_hash (sort_strings (map fst C57_t)) (open_in C57_t) = Some u -> In u inputs) /\
  (forall u, hash_lines C57_hash (sort_strings (map fst C57_t')) (open_in C57_t') = Some u -> In u inputs).
Proof.
  split.
  - intros x. split; [reflexivity|]. apply Forall_cons; [|apply Forall_nil]. unfold is_byte.
    assert (G : forall l a, a < 256 -> fold_left (fun a b => (31 * a + b + 7) mod 251) l a < 256).
    { induction l as [|b l IH]; intros a L; [exact L|]. cbn [fold_left]. apply IH.
      pose proof (N.mod_lt (31 * a + b + 7) 251 ltac:(discriminate)). lia. }
    apply G. reflexivity.
  - exists ([[1]; [2]; [3]] ++
      match hash_lines C57_hash (sort_strings (map fst C57_t)) (open_in C57_t) with Some u => [u] | None => [] end ++
      match hash_lines C57_hash (sort_strings (map fst C57_t')) (open_in C57_t') with Some u => [u] | None => [] end).
    split; [|split; [|split]].
    + intros x y X Y H. vm_compute in X, Y.
      destruct X as [<-|[<-|[<-|[<-|[<-|[]]]]]]; destruct Y as [<-|[<-|[<-|[<-|[<-|[]]]]]];
        try reflexivity; vm_compute in H; discriminate.
    + intros name c I. cbn in I. apply in_or_app. left. destruct I as [I|[I|[I|[I|[]]]]]; injection I as <- <-; cbn; tauto.
    + intros u ->. apply in_or_app. right. left. reflexivity.
    + intros u ->. apply in_or_app. right. apply in_or_app. right. left. reflexivity.
Qed.
