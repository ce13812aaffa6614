(* Specification vocabulary for C110-C112 *)
From Verif Require Import GoBase DiffSpec.

(* does p occur in b, at any place? *)
Definition occurs (p b : bytes) : Prop := exists x y, b = x ++ p ++ y.

(* the lines of the old (the new) file before a change, and up to its end *)
Definition old_before (h : hunk) : N := match hop h with OpA => ol1 h | _ => (ol1 h - 1)%N end.
Definition new_before (h : hunk) : N := match hop h with OpD => nl1 h | _ => (nl1 h - 1)%N end.
(* between two changes there is at least one line, the same number of them in both files *)
Fixpoint apart (hs : list hunk) : Prop :=
  match hs with
  | h1 :: ((h2 :: _) as r) => (ol2 h1 < old_before h2 /\ old_before h2 - ol2 h1 = new_before h2 - nl2 h1)%N /\ apart r
  | _ => True
  end.

Definition removed_lines (hs : list hunk) : list bytes := flat_map removed hs.
Definition added_lines (hs : list hunk) : list bytes := flat_map added hs.
Definition size (hs : list hunk) : nat := List.length (removed_lines hs) + List.length (added_lines hs).
(* the changes hs from old to new are as few as possible *)
Definition minimal (hs : list hunk) (old new : list bytes) : Prop :=
  forall hs', patches hs' 0 0 old new -> size hs <= size hs'.
(* the lines of a that are in b *)
Definition common (a b : list bytes) : list bytes := filter (fun l => if in_dec (list_eq_dec ascii_dec) l b then true else false) a.
(* the blocks of lines, each followed by the line x *)
Definition weave (x : bytes) (blocks : list (list bytes)) : list bytes := flat_map (fun a => a ++ [x]) blocks.
