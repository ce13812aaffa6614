(* Standard outputs that do not take everything. *)
From Verif Require Import GoBase.

(* What an output answers to the i-th write, of [p]: how many of its bytes it takes, and the error if there is one. *)
Definition output := nat -> bytes -> nat * option bytes.

(* an output that reports an error unless it took everything (as os.File.Write does) *)
Definition honest (s : output) : Prop := forall i p n, s i p = (n, None) -> List.length p <= n.

(* a disk that is full *)
Definition full_disk : output := fun _ _ => (0, Some (B "write /dev/stdout: no space left on device")).

(* an output that takes everything but the i-th write *)
Definition misses (i : nat) (e : bytes) : output := fun j p => if Nat.eqb j i then (0, Some e) else (List.length p, None).

(* an output that takes nothing any more after an error *)
Definition broken_for_good (s : output) : Prop :=
  forall i p n e, s i p = (n, Some e) -> forall j q, i < j -> fst (s j q) = 0.

(* what it takes of the writes ws, the first of which has number i *)
Fixpoint taken (s : output) (i : nat) (ws : list bytes) : bytes :=
  match ws with
  | [] => []
  | p :: r => firstn (fst (s i p)) p ++ taken s (S i) r
  end.

Definition is_prefix (a b : bytes) : Prop := exists c, b = a ++ c.
