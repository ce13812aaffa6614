(* Specification vocabulary for C155: texts that mean the same in every pattern. *)
From Verif Require Import GoBase Utf8Facts RegexModel RegexSpec RegexGramSpec.

(* a text of elements that is read in the same way wherever it stands in a pattern *)
Definition fragment (l : list N) : Prop := (exists es, sequence l es) /\ Forall valid_rune l /\
  ~ In (hd 0%N l) [c_caret; c_star; c_lbrace] /\ last l 0%N <> c_dollar.

(* a pattern: ^ or not, the text, $ or not *)
Definition anchored (left right : bool) (l : list N) : bytes :=
  string_of_runes ((if left then [c_caret] else []) ++ l ++ (if right then [c_dollar] else [])).

(* the texts that two patterns match; a text has no more characters than the largest int *)
Definition same_matches (p q : bytes) : Prop := exists b b', ParseBre p = Ok b /\ ParseBre q = Ok b' /\
  forall text, (Z.of_nat (List.length (runes_of text)) <= max_int64)%Z -> Matches b text = Matches b' text.

(* one can be put in the place of the other, between any fragments *)
Definition interchangeable (x y : list N) : Prop := forall left right pre post, fragment pre -> fragment post ->
  same_matches (anchored left right (pre ++ x ++ post)) (anchored left right (pre ++ y ++ post)).

(* how repetitions are written; the numbers fit an int *)
Definition fits (m : nat) : Prop := (Z.of_nat m <= max_int64)%Z.
Definition num (m : nat) : list N := dec_runes (Z.of_nat m).
Definition exactly (m : nat) : list N := [c_lbrace] ++ num m ++ [c_rbrace].
Definition at_least (m : nat) : list N := [c_lbrace] ++ num m ++ [c_comma] ++ [c_rbrace].
Definition between (m n : nat) : list N := [c_lbrace] ++ num m ++ [c_comma] ++ num n ++ [c_rbrace].
Definition star : list N := [c_star].
Definition times (m : nat) (x : list N) : list N := concat (repeat x m).
