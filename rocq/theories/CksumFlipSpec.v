(* Specification vocabulary for C127: the number of flipped bits. *)
From Verif Require Import GoBase CksumModel CksumSpec.

(* the number of places at which two bit strings (of equal length) differ *)
Fixpoint differences (l1 l2 : list bool) : nat :=
  match l1, l2 with
  | x :: l1, y :: l2 => (if Bool.eqb x y then 0 else 1) + differences l1 l2
  | _, _ => 0
  end.
Definition flipped (b1 b2 : bytes) : nat := differences (bits b1) (bits b2).

(* (n, k): up to n bytes, k flipped bits are detected *)
Definition detection : list (N * nat) :=
  [(11454%N, 3); (375%N, 4); (37%N, 5); (25%N, 6); (15%N, 7); (11%N, 8); (8%N, 9); (6%N, 10); (5%N, 14)].
