(* Specification vocabulary for C04: the seams a history of edits leaves in a text.  A seam is the end of the
   text, or a place where an edit was made; later edits move it along with the text around it. *)
From Verif Require Import GoBase PieceTableModel PieceTableSpec.
Local Open Scope Z_scope.

(* the seams after the edit [e], in order, [l] being those before *)
Definition seams_after (l : list Z) (e : edit) : list Z :=
  match e with
  | Ins t a => filter (fun b => b <? a) l ++ [a; a + len t] ++ map (fun b => b + len t) (filter (fun b => a <=? b) l)
  | Del n a => filter (fun b => b <? a) l ++ [a] ++ map (fun b => b - n) (filter (fun b => a + n <=? b) l)
  end.

(* the seams of a text of [n] bytes read from a file after the edits [es] *)
Definition seams (n : Z) (es : list edit) : list Z := fold_left seams_after es [n].

(* [k] is the first element of [l] that is [a] or more *)
Definition first_from (l : list Z) (a k : Z) : Prop :=
  In k l /\ a <= k /\ forall b, In b l -> a <= b -> k <= b.
