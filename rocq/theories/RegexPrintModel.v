(* Model of the printing methods of pkg/regexes/bre.go.  breParen.Text (88-90) is left out: no breParen is ever
   constructed. *)
From Verif Require Import GoBase RegexModel.

(* pkg/regexes/bre.go:56-58 (brePlainText), 65 (breWildcard), 72-74 (breBracket) *)
Definition el_Text (e : element) : bytes :=
  match e with
  | Plain r => string_of_runes [r]
  | Wildcard => B "."
  | Bracket cs => B "[" ++ string_of_runes cs ++ B "]"
  end.
(* pkg/regexes/bre.go:45-47 *)
Definition count_String (c : count) : bytes := B "{" ++ itoa (cmin c) ++ B "," ++ itoa (cmax c) ++ B "}".
(* pkg/regexes/bre.go:35-37 *)
Definition dupl_String (d : dupl) : bytes := el_Text (fst d) ++ count_String (snd d).
