(* When tokens begin a locale definition. *)
From Verif Require Import GoBase LocGramSpec LocYaccModel LocParseSpec.

(* the significant tokens of l, with more behind them or without, are derived by the grammar *)
Definition begins_definition (l : list token) : Prop := exists w more, spells l w /\ locale_definition (w ++ more).
