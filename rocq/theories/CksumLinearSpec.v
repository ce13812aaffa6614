(* Specification vocabulary for C158. *)
From Verif Require Import GoBase.

(* the exclusive or of two texts, byte by byte *)
Definition xor_byte (c d : ascii) : ascii := ascii_of_N (N.lxor (N_of_ascii c) (N_of_ascii d)).
Definition xor_text (x y : bytes) : bytes := map (fun '(c, d) => xor_byte c d) (combine x y).
