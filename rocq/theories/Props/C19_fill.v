(** C19: the search buffer receives exactly the contents, for every chunking, size and
    initial buffer; a reader error is an error. *)
From Verif Require Import Model.Base Model.Grep Proofs.FillProofs.
Local Open Scope nat_scope.

Theorem C19_complete : forall fuel r g, gbuf_ok g -> length (rd_content r) < fuel ->
  exists buf', gbuf_ok (Some buf') /\
    fill_from fuel r g = Some (if rd_ok r then FillOk buf' (rd_content r) else FillErr buf').
Proof. exact fill_from_spec. Qed.
Print Assumptions C19_complete.

(** "abcde" in chunks ab / (empty) / cde+EOF through a used two-byte buffer; then a reader
    that fails after three bytes. *)
Example C19_example :
  gbuf_ok (Some [1;2]%N) /\
  fill_from 6 (RChunk [97;98] false (RChunk [] false (RChunk [99;100;101] true REof)))%N (Some [1;2]%N)
    = Some (FillOk [97;98;99;100;101;0;0;0]%N [97;98;99;100;101]%N) /\
  fill_from 6 (RChunk [97;98;99] true RFail)%N (Some [1;2]%N) = Some (FillErr [97;98;99;0]%N).
Proof. split; [cbn; lia|]. split; reflexivity. Qed.
