(* Specification vocabulary for C163: editing commands as replacements of lines. *)
From Verif Require Import GoBase PieceTableModel PieceTableSpec EdModel EdSpec.
Local Open Scope Z_scope.

(* the command replaces the lines after line [from_line] up to line [to_line] by [added] lines *)
Definition from_line (c : acmd) : Z :=
  match c with Append n _ => n | Insert_ n _ => n - 1 | Change m _ _ | Delete_ m _ => m - 1 | _ => 0 end.
Definition to_line (c : acmd) : Z :=
  match c with Append n _ => n | Insert_ n _ => n - 1 | Change _ n _ | Delete_ _ n => n | _ => 0 end.
Definition added (c : acmd) : list bytes :=
  match c with Append _ t | Insert_ _ t | Change _ _ t => typed t | _ => [] end.
Definition edits (c : acmd) : Prop :=
  match c with Append _ _ | Change _ _ _ | Delete_ _ _ => True | Insert_ n _ => 1 <= n | _ => False end.
(* how many lines longer the buffer becomes *)
Definition longer (c : acmd) : Z := lines_count (added c) - (to_line c - from_line c).
(* the same command, [d] lines further down *)
Definition down (d : Z) (c : acmd) : acmd :=
  match c with
  | Append n t => Append (n + d) t | Insert_ n t => Insert_ (n + d) t
  | Change m n t => Change (m + d) (n + d) t | Delete_ m n => Delete_ (m + d) (n + d)
  | _ => c
  end.
