(* Specification vocabulary for C114 and C115: what the matcher of pkg/regexes accepts. *)
From Verif Require Import GoBase RegexModel RegexSpec.

(* k of the runes of w, adjacent or not, are accepted *)
Inductive picked (e : element) : list N -> nat -> Prop :=
| pk_nil : picked e [] 0
| pk_take : forall r w k, accepts e r -> picked e w k -> picked e (r :: w) (S k)
| pk_skip : forall r w k, picked e w k -> picked e (r :: w) k.

(* the elements match loosely at the beginning of a text: each takes u1 ++ u2 off the text; it accepts the
   runes of u1, as many as it must occur at least; of u2 it only matters that as many accepted runes as
   u1 ++ u2 has are found anywhere in a beginning w of the text no longer than the maximal count *)
Inductive loosely : list dupl -> list N -> Prop :=
| lo_nil : forall t, loosely [] t
| lo_cons : forall e c es u1 u2 v w w', Z.of_nat (List.length u1) = cmin c -> Forall (accepts e) u1 ->
    (u1 ++ u2) ++ v = w ++ w' -> (Z.of_nat (List.length w) <= cmax c)%Z -> picked e w (List.length (u1 ++ u2)) ->
    loosely es v -> loosely ((e, c) :: es) ((u1 ++ u2) ++ v).
