(* C163: property theorems.  See EdCommuteSpec.v for the vocabulary. *)
From Verif Require Import GoBase GoFacts PieceTableModel PieceTableSpec EdModel EdSpec EdProofs EdProofs2 EdProps EdCommuteSpec EdCommuteProofs.
Local Open Scope Z_scope.

(* C163: two editing commands for different lines give the same buffer in either order (the line numbers of the
   later lines being adjusted), as long as the buffer does not come to end in a blank line in between. *)
Theorem C163_order_partial : forall compile capacity errtext, (forall n, (n <= capacity n)%nat) ->
  forall fs o k ed ls c1 c2, buffer ed ls -> edits c1 -> edits c2 -> valid ls c1 -> valid ls c2 ->
  to_line c1 <= from_line c2 ->
  valid_history ls [c2; c1] -> valid_history ls [c1; down (longer c1) c2] ->
  exists ed1 ed2 ls', command_loop compile capacity errtext fs o k ed (map concrete [c2; c1]) = ([[nl]; [nl]], Val (fs, ed1)) /\
    command_loop compile capacity errtext fs o k ed (map concrete [c1; down (longer c1) c2]) = ([[nl]; [nl]], Val (fs, ed2)) /\
    buffer ed1 ls' /\ buffer ed2 ls'.
Proof. exact ed_commute. Qed.
Print Assumptions C163_order_partial.

(* C163: what a adds, d takes away. *)
Theorem C163_undo_partial : forall compile capacity errtext, (forall n, (n <= capacity n)%nat) ->
  forall fs o k ed ls n t, buffer ed ls -> 0 <= n <= lines_count ls -> good ls ->
  len (unlines ls) + len t + 2 <= max_int64 -> good (upto ls n ++ typed t ++ after ls n) ->
  exists ed', command_loop compile capacity errtext fs o k ed
      (map concrete [Append n t; Delete_ (n + 1) (n + lines_count (typed t))]) = ([[nl]; [nl]], Val (fs, ed')) /\
    buffer ed' ls.
Proof. exact ed_undo. Qed.
Print Assumptions C163_undo_partial.

(* C163 refuted, for every buffer that ends in a blank line and another: deleting the last line first makes the
   blank one go out of reach; deleting the blank one first deletes both. *)
Theorem C163_order_refuted : forall compile capacity errtext fs o k ed ls x n,
  buffer ed (ls ++ [[]; x]) -> Forall ed_line (ls ++ [x]) -> x <> [] -> n = lines_count ls + 1 ->
  exists ed1 ed2,
    command_loop compile capacity errtext fs o k ed (map concrete [Delete_ (n + 1) (n + 1); Delete_ n n]) = ([[nl]; [nl]], Val (fs, ed1)) /\
    command_loop compile capacity errtext fs o k ed (map concrete [Delete_ n n; Delete_ n n]) = ([[nl]; [nl]], Val (fs, ed2)) /\
    buffer ed1 (ls ++ [[]]) /\ buffer ed2 ls.
Proof. exact ed_order_matters. Qed.
Print Assumptions C163_order_refuted.

Example C163_nonvacuous :
  let c1 := Change 1 2 (B "uno") in let c2 := Append 4 (B "five" ++ [nl] ++ B "six") in
  edits c1 /\ edits c2 /\ valid demo_lines c1 /\ valid demo_lines c2 /\ to_line c1 <= from_line c2 /\
  down (longer c1) c2 = Append 3 (B "five" ++ [nl] ++ B "six") /\
  valid_history demo_lines [c2; c1] /\ valid_history demo_lines [c1; down (longer c1) c2] /\
  final_lines demo_lines [c2; c1] = [B "uno"; B ""; B "four"; B "five"; B "six"] /\
  final_lines demo_lines [c1; down (longer c1) c2] = [B "uno"; B ""; B "four"; B "five"; B "six"].
Proof.
  Ltac hist := repeat (split; [split; [easy_good|try exact I; try easy_good]|split; [vm_compute; repeat split; discriminate|split; [vm_compute; discriminate|]]]); exact I.
  cbn zeta. split; [exact I|]. split; [exact I|]. split; [vm_compute; repeat split; discriminate|].
  split; [vm_compute; repeat split; discriminate|]. split; [vm_compute; discriminate|]. split; [reflexivity|].
  split; [hist|]. split; [hist|]. split; reflexivity.
Qed.
Example C163_refuted_nonvacuous : (* demo_lines ends in a blank line and another *)
  buffer demo_ed ([B "one"; B "two"] ++ [[]; B "four"]) /\ Forall ed_line ([B "one"; B "two"] ++ [B "four"]).
Proof. split; [exact demo_buffer|]. repeat constructor; apply easy_line; vm_compute; (reflexivity || discriminate). Qed.
