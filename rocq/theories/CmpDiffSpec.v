(* Specification vocabulary for C149. *)
From Verif Require Import GoBase GoFacts CmpModel.

(* a file name that is neither an option nor standard input *)
Definition plain_operand (f : bytes) : Prop := exists c r, f = c :: r /\ c <> "-"%char.
Definition short (l : bytes) : Prop := ~ In nl l /\ (N.of_nat (List.length l) < 65535)%N.
Definition long (l : bytes) : Prop := ~ In nl l /\ (65536 <= N.of_nat (List.length l))%N.

(* Pairs of different texts that diff does not tell apart: a newline missing at the end, a carriage return before a
   newline, anything from a line of 65536 bytes on. *)
Inductive alike : bytes -> bytes -> Prop :=
| alike_newline l s : Forall short l -> short s -> s <> [] -> alike (unlines l ++ s) (unlines l ++ s ++ [nl])
| alike_return l s rest : Forall short l -> short s -> ~ In cr s ->
    alike (unlines l ++ s ++ [nl] ++ rest) (unlines l ++ s ++ [cr; nl] ++ rest)
| alike_long l x1 r1 x2 r2 : Forall short l -> long x1 -> long x2 -> x1 ++ nl :: r1 <> x2 ++ nl :: r2 ->
    alike (unlines l ++ x1 ++ nl :: r1) (unlines l ++ x2 ++ nl :: r2).

(* the files of cmp's world as diff sees them *)
Definition as_files (w : world) (f : bytes) : option bytes := match opens w f with Some s => Some (fst s) | None => None end.
