(* Specification vocabulary for C139: counting edits. *)
From Verif Require Import GoBase PieceTableModel PieceTableSpec.

(* the inserted texts, one after the other *)
Definition inserted (es : list edit) : bytes := flat_map (fun e => match e with Ins t _ => t | Del _ _ => [] end) es.
Definition is_insert (e : edit) : bool := match e with Ins _ _ => true | Del _ _ => false end.
Definition inserts (es : list edit) : nat := List.length (filter is_insert es).
Definition deletes (es : list edit) : nat := List.length (filter (fun e => negb (is_insert e)) es).
