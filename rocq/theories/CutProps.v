(* C33: cmd/cut. *)
From Verif Require Import GoBase CutModel.

(* exactly one of the three list options is given (with a non-empty list) *)
Definition one_list (o : options) : Prop :=
  (optFields o <> [] /\ optBytes o = [] /\ optChars o = []) \/
  (optFields o = [] /\ optBytes o <> [] /\ optChars o = []) \/
  (optFields o = [] /\ optBytes o = [] /\ optChars o <> []).

(* C33 is false: every such invocation is rejected, as if several lists had been given, *)
Theorem C33_accepts_one_list_refuted : forall o, one_list o ->
  cut_main o = {| out := []; errout := B "Error: only specify one of -f, -b, and -c"; fin := Exit 1 |}.
Proof.
  intros [f b c d n s] H. unfold one_list in H. cbn in H.
  destruct f, b, c; try reflexivity; intuition congruence.
Qed.
Print Assumptions C33_accepts_one_list_refuted.
(* and nothing whatever is accepted. *)
Theorem C33_never_accepts : forall o, out (cut_main o) = [] /\ fin (cut_main o) = Exit 1.
Proof.
  intros [f b c d n s]. destruct f, b, c; split; reflexivity.
Qed.
Print Assumptions C33_never_accepts.
(* What does hold: no list option, or several, is rejected with a message that says which. *)
Theorem C33_rejects_others_partial : forall o, ~ one_list o ->
  (optFields o = [] /\ optBytes o = [] /\ optChars o = [] /\
   cut_main o = {| out := []; errout := B "Error: gotta specify at least one of -f, -b, and -c"; fin := Exit 1 |}) \/
  (~ (optFields o = [] /\ optBytes o = [] /\ optChars o = []) /\
   cut_main o = {| out := []; errout := B "Error: only specify one of -f, -b, and -c"; fin := Exit 1 |}).
Proof.
  intros [f b c d n s] _. cbn [optFields optBytes optChars].
  destruct f, b, c; [left; repeat split; reflexivity|right; (split; [intros (?&?&?); discriminate|reflexivity])..].
Qed.
Print Assumptions C33_rejects_others_partial.
Example C33_nonvacuous : exists o o', one_list o /\ ~ one_list o' /\ optFields o' <> [].
Proof.
  exists {| optFields := B "1"; optBytes := []; optChars := []; optDelim := [tab]; optNoSplit := false;
            optSuppress := false |},
   {| optFields := B "1"; optBytes := B "2"; optChars := []; optDelim := [tab]; optNoSplit := false;
            optSuppress := false |}.
  split; [left; repeat split; discriminate|]. split; [|discriminate].
  intros [(_&H&_)|[(H&_)|(H&_)]]; discriminate.
Qed.
