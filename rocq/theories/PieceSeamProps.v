(* C04, exactly: what a deletion that reaches beyond the end removes.  See PieceSeamSpec.v for the vocabulary. *)
From Verif Require Import GoBase PieceTableModel PieceTableSpec PieceSeamSpec PieceTableProofs PieceSeamProofs.
Local Open Scope Z_scope.

(* C04: it removes the text from [a] to the next seam, and nothing else. *)
Theorem C04_removes_to_seam_partial : forall content cc m es pt n a,
  let s := apply_edits (firstn (Z.to_nat m) content) es in
  0 <= m <= len content -> m <= max_int64 -> edits_in_range (firstn (Z.to_nat m) content) es ->
  run_edits (new_piece_table content cc m) es = (pt, Returned) ->
  0 <= a <= len s -> len s < a + n <= max_int64 ->
  exists k, first_from (seams m es) a k /\ k <= len s /\
    pt_string (pt_delete pt n a) = Ok (firstn (Z.to_nat a) s ++ skipn (Z.to_nat k) s).
Proof. exact delete_past_exact. Qed.
Print Assumptions C04_removes_to_seam_partial.

(* C04: it truncates the text exactly when no edit left a seam between [a] and the end. *)
Theorem C04_truncates_iff_refuted : forall content cc m es pt n a,
  let s := apply_edits (firstn (Z.to_nat m) content) es in
  0 <= m <= len content -> m <= max_int64 -> edits_in_range (firstn (Z.to_nat m) content) es ->
  run_edits (new_piece_table content cc m) es = (pt, Returned) ->
  0 <= a <= len s -> len s < a + n <= max_int64 ->
  pt_string (pt_delete pt n a) = Ok (firstn (Z.to_nat a) s) <->
  (forall b, In b (seams m es) -> ~ (a <= b < len s)).
Proof. exact delete_past_truncates_iff. Qed.
Print Assumptions C04_truncates_iff_refuted.

Example C04_seam_nonvacuous :
  let es := [Ins (B "XY") 2; Del 1 6; Ins (B "!") 0] in
  let pt := fst (run_edits (new_piece_table (B "hello") false 5) es) in
  edits_in_range (B "hello") es /\ seams 5 es = [0; 1; 3; 5; 7; 7] /\
  pt_string pt = Ok (B "!heXYll") /\
  pt_string (pt_delete pt 9 2) = Ok (B "!hXYll") /\       (* from 2 to the seam at 3 *)
  pt_string (pt_delete pt 9 4) = Ok (B "!heXll") /\       (* from 4 to the seam at 5 *)
  pt_string (pt_delete pt 9 5) = Ok (B "!heXYll") /\      (* a seam at 5: nothing *)
  pt_string (pt_delete pt 9 6) = Ok (B "!heXYl").         (* no seam before the end *)
Proof. vm_compute. repeat split; try discriminate; reflexivity. Qed.
