(* C138: four bytes and the checksum (cmd/cksum/cksum.go memcrc).  Statements only; proofs in CksumWindowProofs.v. *)
From Verif Require Import GoBase CksumModel CksumProofs CksumWindowProofs.

(* Whatever stands before and after, every checksum is that of exactly one choice of four bytes in a row. *)
Theorem C138_four_bytes : forall a z t, (t < 2 ^ 32)%N ->
  exists w, (List.length w = 4 /\ memcrc (a ++ w ++ z) = t) /\ forall w', List.length w' = 4 -> memcrc (a ++ w' ++ z) = t -> w' = w.
Proof.
  intros a z t Ht. destruct (window_reaches a z t Ht) as (w & L & E). exists w. split; [now split|].
  intros w' L' E'. apply (window_differs a w' w z); auto. congruence.
Qed.
Print Assumptions C138_four_bytes.
(* So texts of four bytes or more that have a given checksum exist for every beginning, and no checksum goes past 32 bits. *)
Theorem C138_range : forall b, (memcrc b < 2 ^ 32)%N.
Proof. exact memcrc_lt. Qed.
Print Assumptions C138_range.
(* the four bytes that give a text checksum 0 *)
Example C138_nonvacuous : memcrc (B "pay 9" ++ map ascii_of_N [222; 36; 14; 149]%N ++ B " EUR") = 0%N.
Proof. vm_compute. reflexivity. Qed.
