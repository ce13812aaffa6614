(* Specification vocabulary for C150. *)
From Verif Require Import GoBase TsortSpec.

(* an item that need not come after any other *)
Definition first_item (ws : list bytes) (x : bytes) : Prop := kept_item ws x /\ forall u, ~ kept ws u x.
(* the words that put the items of l in just this order: each with the next one *)
Fixpoint chain (l : list bytes) : list bytes :=
  match l with
  | a :: ((b :: _) as r) => a :: b :: chain r
  | _ => []
  end.
