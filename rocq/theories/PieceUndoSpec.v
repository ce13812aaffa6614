(* Specification vocabulary for C161: taking edits back, and edits that do not touch each other.  About plain
   byte strings; independent of the model. *)
From Verif Require Import GoBase PieceTableModel PieceTableSpec.
Local Open Scope Z_scope.

(* the edit that takes [e] back, where [e] was made to the text [s] *)
Definition undo (s : bytes) (e : edit) : edit :=
  match e with
  | Ins t a => Del (len t) a
  | Del n a => Ins (firstn (Z.to_nat n) (skipn (Z.to_nat a) s)) a
  end.

(* the edits that take back all of [es], the last one first *)
Fixpoint undo_all (s : bytes) (es : list edit) : list edit :=
  match es with
  | [] => []
  | e :: r => undo_all (apply_edit s e) r ++ [undo s e]
  end.

(* where an edit begins, where it ends in the text it is made to, and how much longer it makes the text *)
Definition begins (e : edit) : Z := match e with Ins _ a => a | Del _ a => a end.
Definition ends_ (e : edit) : Z := match e with Ins _ a => a | Del n a => a + n end.
Definition growth (e : edit) : Z := match e with Ins t _ => len t | Del n _ => - n end.
(* the same edit, [d] bytes further on *)
Definition moved (d : Z) (e : edit) : edit := match e with Ins t a => Ins t (a + d) | Del n a => Del n (a + d) end.
