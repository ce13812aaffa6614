(* C158: what a change does to the checksum (cmd/cksum/cksum.go memcrc).  Statements only; proofs in
   CksumLinearProofs.v. *)
From Verif Require Import GoBase CksumModel CksumProofs CksumLinearSpec CksumLinearProofs.

(* Texts of equal length have the same checksum exactly when they have the same checksum in any surroundings. *)
Theorem C158_surroundings : forall a x y z, List.length x = List.length y ->
  (memcrc (a ++ x ++ z) = memcrc (a ++ y ++ z) <-> memcrc x = memcrc y).
Proof. exact context_same. Qed.
Print Assumptions C158_surroundings.
(* What replacing x by y does to the checksum depends on x and y and on how long the text before and after them is,
   not on that text. *)
Theorem C158_change : forall a a' x y z z', List.length x = List.length y -> List.length a = List.length a' ->
  List.length z = List.length z' ->
  N.lxor (memcrc (a ++ x ++ z)) (memcrc (a ++ y ++ z)) = N.lxor (memcrc (a' ++ x ++ z')) (memcrc (a' ++ y ++ z')).
Proof. exact context_diff. Qed.
Print Assumptions C158_change.
(* The checksum of the exclusive or of three texts of equal length is the exclusive or of their checksums. *)
Theorem C158_exclusive_or : forall x y z, List.length x = List.length y -> List.length y = List.length z ->
  memcrc (xor_text (xor_text x y) z) = N.lxor (N.lxor (memcrc x) (memcrc y)) (memcrc z).
Proof. exact affine. Qed.
Print Assumptions C158_exclusive_or.
(* two texts of five bytes with the same checksum, alone and inside a sentence *)
Example C158_nonvacuous :
  let x := map ascii_of_N [1; 4; 193; 29; 183]%N in let y := map ascii_of_N [0; 0; 0; 0; 0]%N in
  memcrc x = memcrc y /\ x <> y /\ memcrc (B "abc" ++ x ++ B "defg") = memcrc (B "abc" ++ y ++ B "defg") /\
  xor_text (B "ab") (B "  ") = B "AB".
Proof. cbv zeta. repeat split; try (vm_compute; reflexivity). discriminate. Qed.
