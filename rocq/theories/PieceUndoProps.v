(* C161: property theorems.  See PieceUndoSpec.v for the vocabulary. *)
From Verif Require Import GoBase PieceTableModel PieceTableSpec PieceUndoSpec PieceTableProofs PieceUndoProofs.
Local Open Scope Z_scope.

(* C161, taking back: any edits in range, followed by the edits that take them back, give the text before. *)
Theorem C161_undo_partial : forall pt s es, table_for pt s -> edits_in_range s es ->
  exists pt1 pt2, run_edits pt es = (pt1, Returned) /\ run_edits pt1 (undo_all s es) = (pt2, Returned) /\
    pt_string pt2 = Ok s.
Proof. exact table_undo. Qed.
Print Assumptions C161_undo_partial.

(* C161, order: two edits that do not touch the same text can be made in either order. *)
Theorem C161_commute_partial : forall pt s e1 e2, table_for pt s -> edit_in_range s e1 -> edit_in_range s e2 ->
  ends_ e1 <= begins e2 -> len s + growth e1 + growth e2 <= max_int64 ->
  exists pt1 pt2 s', run_edits pt [e2; e1] = (pt1, Returned) /\
    run_edits pt [e1; moved (growth e1) e2] = (pt2, Returned) /\ pt_string pt1 = Ok s' /\ pt_string pt2 = Ok s'.
Proof. exact commute. Qed.
Print Assumptions C161_commute_partial.

(* C161, history: two tables with the same text, however they came about, have the same text after the same
   edits in range. *)
Theorem C161_history_partial : forall pt1 pt2 s es, table_for pt1 s -> table_for pt2 s -> edits_in_range s es ->
  exists pt1' pt2' s', run_edits pt1 es = (pt1', Returned) /\ run_edits pt2 es = (pt2', Returned) /\
    pt_string pt1' = Ok s' /\ pt_string pt2' = Ok s'.
Proof. exact table_history. Qed.
Print Assumptions C161_history_partial.

(* C161: refuted for deletions reaching beyond the end.  Any text that came about by an insertion and the same
   text read from a file differ after the deletion of the same range. *)
Theorem C161_history_refuted : forall content t p n a,
  len content + len t <= max_int64 -> 0 <= a <= p -> p <= len content -> (t <> [] \/ p < len content) ->
  len content + len t < a + n <= max_int64 ->
  exists pt1 pt2 s s1 s2, table_for pt1 s /\ table_for pt2 s /\
    pt_string (pt_delete pt1 n a) = Ok s1 /\ pt_string (pt_delete pt2 n a) = Ok s2 /\ s1 <> s2.
Proof. exact table_history_differs. Qed.
Print Assumptions C161_history_refuted.

Definition demo_pt (s : bytes) (es : list edit) : piece_table := fst (run_edits (new_piece_table s false (len s)) es).
Definition text_of (pt : piece_table) (es : list edit) : res bytes := pt_string (fst (run_edits pt es)).

Example C161_nonvacuous :
  let s := B "hello world" in
  let es := [Del 6 0; Ins (B "HELLO ") 0; Del 2 9] in
  edits_in_range s es /\ undo_all s es = [Ins (B "ld") 9; Del 6 0; Ins (B "hello ") 0] /\
  text_of (demo_pt s []) es = Ok (B "HELLO wor") /\ text_of (demo_pt s []) (es ++ undo_all s es) = Ok s.
Proof. vm_compute. repeat split; try discriminate; reflexivity. Qed.

Example C161_commute_nonvacuous :
  let s := B "hello world" in let e1 := Del 3 1 in let e2 := Ins (B "big ") 6 in
  edit_in_range s e1 /\ edit_in_range s e2 /\ ends_ e1 <= begins e2 /\
  moved (growth e1) e2 = Ins (B "big ") 3 /\
  text_of (demo_pt s []) [e2; e1] = Ok (B "ho big world") /\
  text_of (demo_pt s []) [e1; moved (growth e1) e2] = Ok (B "ho big world").
Proof. vm_compute. repeat split; try discriminate; reflexivity. Qed.

Example C161_refuted_nonvacuous :
  pt_string (demo_pt (B "hello") [Ins (B "XY") 2]) = Ok (B "heXYllo") /\
  pt_string (demo_pt (B "heXYllo") []) = Ok (B "heXYllo") /\
  pt_string (pt_delete (demo_pt (B "hello") [Ins (B "XY") 2]) 10 1) = Ok (B "hXYllo") /\
  pt_string (pt_delete (demo_pt (B "heXYllo") []) 10 1) = Ok (B "h").
Proof. vm_compute. auto. Qed.
