(* Model of the String method of pkg/diff's comparison, by which package fmt prints the result of Diff. *)
From Verif Require Import GoBase DiffModel.

(* diff.go:14-18 *)
Definition symbols (k : ckind) : bytes :=
  match k with Equal => B " " | Add => B "+" | Minus => B "-" end.
(* diff.go:25-32 *)
Definition comparison_string (c : comparison) : bytes :=
  join [nl] (map (fun v => symbols (kind c) ++ B " " ++ v) (values c)).
