(* C127: how many flipped bits cmd/cksum detects.  Statements only; proofs in CksumFlipProofs.v. *)
From Verif Require Import GoBase GoFacts CksumModel CksumSpec CksumFlipSpec CksumProofs CksumOrderProofs CksumFlipProofs.

(* (n, k) in the table: two different strings of equal length, at most n bytes, that differ in at most k bits
   have different checksums. *)
Theorem C127_detects_flipped_bits : forall n k, In (n, k) detection ->
  forall b1 b2, length b1 = length b2 -> (N.of_nat (length b1) <= n)%N -> 0 < flipped b1 b2 <= k ->
  memcrc b1 <> memcrc b2.
Proof. exact detection_holds. Qed.
Print Assumptions C127_detects_flipped_bits.
(* The sizes cannot be raised: with one byte more there are strings for which that fails. *)
Theorem C127_sizes_are_exact : forall n k, In (n, k) detection ->
  exists b1 b2, N.of_nat (length b1) = (n + 1)%N /\ N.of_nat (length b2) = (n + 1)%N /\
    0 < flipped b1 b2 <= k /\ memcrc b1 = memcrc b2.
Proof. exact detection_tight. Qed.
Print Assumptions C127_sizes_are_exact.
Example C127_nonvacuous : flipped (B "a pinch of salt") (B "c`pinch of salu") = 3 /\
  length (B "a pinch of salt") = 15 /\ In (15%N, 7) detection /\
  memcrc (B "a pinch of salt") <> memcrc (B "c`pinch of salu").
Proof.
  split; [vm_compute; reflexivity|]. split; [reflexivity|]. split; [cbn; tauto|]. vm_compute. discriminate.
Qed.
