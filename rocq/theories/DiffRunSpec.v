(* Specification vocabulary for C152-C154: which lines a comparison of two files keeps. *)
From Verif Require Import GoBase DiffModel.

(* old = o1 ++ run ++ o2 and new = n1 ++ run ++ n2, and no other block of lines that is in both files is longer, or as long
   and ends earlier in the new file, or as long and at the same place of the new file and earlier in the old one *)
Definition first_longest (o1 n1 run o2 n2 : list bytes) : Prop :=
  run <> [] /\ forall o1' n1' run' o2' n2', o1' ++ run' ++ o2' = o1 ++ run ++ o2 -> n1' ++ run' ++ n2' = n1 ++ run ++ n2 ->
    List.length run' < List.length run \/
    List.length run' = List.length run /\
      (List.length n1 < List.length n1' \/ List.length n1 = List.length n1' /\ List.length o1 <= List.length o1').

(* What is kept, removed and put in, from top to bottom. *)
(* [DiffModel] is used for the type of the result only (piece_of). *)
Inductive piece := Keep (l : list bytes) | Remove (l : list bytes) | Put (l : list bytes).
(* A difference made by keeping the first longest block of common lines, and the same before it and after it. *)
Inductive by_longest : list bytes -> list bytes -> list piece -> Prop :=
| by_none : by_longest [] [] []
| by_put new : new <> [] -> by_longest [] new [Put new]
| by_remove old : old <> [] -> by_longest old [] [Remove old]
| by_change old new : old <> [] -> new <> [] -> (forall l, In l old -> ~ In l new) -> by_longest old new [Remove old; Put new]
| by_keep o1 n1 run o2 n2 p1 p2 : first_longest o1 n1 run o2 n2 -> by_longest o1 n1 p1 -> by_longest o2 n2 p2 ->
    by_longest (o1 ++ run ++ o2) (n1 ++ run ++ n2) (p1 ++ Keep run :: p2).

Definition kept (ps : list piece) : list bytes := flat_map (fun p => match p with Keep l => l | _ => [] end) ps.
Definition taken (ps : list piece) : list bytes := flat_map (fun p => match p with Remove l => l | _ => [] end) ps.
Definition put_in (ps : list piece) : list bytes := flat_map (fun p => match p with Put l => l | _ => [] end) ps.
Definition piece_of (c : comparison) : piece :=
  match kind c with Equal => Keep (values c) | Add => Put (values c) | Minus => Remove (values c) end.

(* The same without any choice: every block that is kept is longer than all other blocks of common lines. *)
Definition only_longest (o1 n1 run o2 n2 : list bytes) : Prop :=
  run <> [] /\ forall o1' n1' run' o2' n2', o1' ++ run' ++ o2' = o1 ++ run ++ o2 -> n1' ++ run' ++ n2' = n1 ++ run ++ n2 ->
    List.length run' < List.length run \/ (o1' = o1 /\ n1' = n1 /\ run' = run).
Inductive no_choice : list bytes -> list bytes -> Prop :=
| nc_old new : no_choice [] new
| nc_new old : no_choice old []
| nc_change old new : (forall l, In l old -> ~ In l new) -> no_choice old new
| nc_keep o1 n1 run o2 n2 : only_longest o1 n1 run o2 n2 -> no_choice o1 n1 -> no_choice o2 n2 ->
    no_choice (o1 ++ run ++ o2) (n1 ++ run ++ n2).

(* for counting lines: count_occ line_dec l x is how often x is in l *)
Definition line_dec : forall a b : bytes, {a = b} + {a <> b} := list_eq_dec ascii_dec.
