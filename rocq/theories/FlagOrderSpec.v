(* Specification vocabulary for C157: what variables hold after the flags have been parsed. *)
From Verif Require Import GoBase FlagModel FlagSpec.

(* the variable a write goes to *)
Definition target (w : write) : nat := match w with WBool a => a | WInt a _ => a | WStr a _ => a end.
(* what a variable holds in the end: the last write to it; None when it keeps what it held *)
Definition held (a : nat) (ws : list write) : option write :=
  fold_left (fun o w => if Nat.eqb (target w) a then Some w else o) ws None.
(* the groups as words, every value flag being named by an ASCII character (see C36) *)
Definition words (gs : list group) : list bytes := flat_map group_args gs.
Definition well_formed (p : parser) (g : group) : Prop :=
  group_ok p g /\ match value g with Some f => (vname f < 128)%N | None => True end.
(* no variable is given two different values *)
Definition consistent (gs : list group) : Prop := forall w w', In w (flat_map group_writes gs) ->
  In w' (flat_map group_writes gs) -> target w = target w' -> w = w'.
(* the groups set no variable in common *)
Definition apart (g h : group) : Prop := forall w w', In w (group_writes g) -> In w' (group_writes h) -> target w <> target w'.
(* the same result, and every variable holds the same *)
Definition same_effect (x y : list write * outcome) : Prop :=
  snd x = snd y /\ forall a, held a (fst x) = held a (fst y).
