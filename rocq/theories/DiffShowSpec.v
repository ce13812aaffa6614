(* Specification vocabulary for C146: reading a diff in which every line is marked by ' ' (both), '-' (old) or '+' (new). *)
From Verif Require Import GoBase.

(* the lines with one of the marks, without the mark and the blank after it *)
Definition marked (marks : list ascii) (lines : list bytes) : list bytes :=
  flat_map (fun l => match l with
                     | m :: b :: rest => if existsb (Ascii.eqb m) marks && Ascii.eqb b " " then [rest] else []
                     | _ => []
                     end) lines.
Definition old_of (lines : list bytes) : list bytes := marked [" "; "-"]%char lines.
Definition new_of (lines : list bytes) : list bytes := marked [" "; "+"]%char lines.
