(* What it means for the cells of a heap to form a list, for C119-C121. *)
From Verif Require Import GoBase PieceTableModel PieceTableSpec PieceHeapModel.
Local Open Scope Z_scope.

(* following the next fields from p one meets the pieces of l, at their addresses, and arrives at q *)
Fixpoint seg (h : heap) (p : option nat) (l : list (nat * piece)) (q : option nat) : Prop :=
  match l with
  | [] => p = q
  | (a, x) :: r => p = Some a /\ exists n, nth_error h a = Some {| c_piece := x; c_next := n |} /\ seg h n r q
  end.

(* a table whose cells form the list of pieces of pt, each cell met once *)
Definition shows (t : table) (pt : piece_table) : Prop :=
  t_orig t = orig pt /\ t_closable t = closable pt /\ t_closed t = closed pt /\ t_append t = appendb pt /\
  exists l, seg (t_heap t) (t_head t) l None /\ NoDup (map fst l) /\ map snd l = head pt.

(* the edits one after the other, in place *)
Fixpoint edit_all (t : table) (es : list edit) : ends table :=
  match es with
  | [] => Returns t
  | Ins text a :: r => match t_insert t text a with Returns t' => edit_all t' r | Dies => Dies | Runs => Runs end
  | Del n a :: r => match t_delete t n a with Returns t' => edit_all t' r | Dies => Dies | Runs => Runs end
  end.

(* the pieces that hold text *)
Definition holds_text (p : piece) : bool := 0 <? plen p.
(* no two pieces without text next to each other *)
Fixpoint none_adjacent (ps : list piece) : Prop :=
  match ps with
  | p :: ((q :: _) as r) => (holds_text p = true \/ holds_text q = true) /\ none_adjacent r
  | _ => True
  end.
