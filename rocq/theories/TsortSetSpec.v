(* Specification vocabulary for C156. *)
From Verif Require Import GoBase TsortSpec.

(* the words of a list of pairs *)
Definition words_of (ps : list (bytes * bytes)) : list bytes := flat_map (fun p => [fst p; snd p]) ps.
(* a text of just these pairs, all words short enough *)
Definition pairs_text (text : bytes) (ps : list (bytes * bytes)) : Prop := worded text (words_of ps) /\ short_words text.
(* what a successful run prints *)
Definition printed (l : list bytes) : run_result := {| out := flat_map (fun x => x ++ [nl]) l; errout := []; fin := Exit 0 |}.
