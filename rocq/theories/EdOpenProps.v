(* C54, exactly: d up to a last line that lacks its newline.  Seams are where edits were made (PieceSeamSpec.v). *)
From Verif Require Import GoBase GoFacts PieceTableModel PieceTableSpec PieceSeamSpec EdModel EdSpec EdProofs EdProofs2 EdProps EdOpenProofs.
Local Open Scope Z_scope.

(* C54: m,$d removes the text from the beginning of line m to the next place where the text was edited before; so
   the lines go exactly if there is no such place in them. *)
Theorem C54_delete_exact_refuted : forall compile capacity errtext fs o ed content cc k es ls x m n t ps,
  0 <= k <= len content -> k <= max_int64 -> edits_in_range (firstn (Z.to_nat k) content) es ->
  run_edits (new_piece_table content cc k) es = (e_pt ed, Returned) ->
  apply_edits (firstn (Z.to_nat k) content) es = unlines ls ++ x ->
  Forall ed_line (ls ++ [x]) -> x <> [] -> len (unlines ls ++ x) < max_int64 ->
  1 <= m <= n -> n = lines_count ls + 1 ->
  let a := len (unlines (upto ls (m - 1))) in
  exists ed', processCommand compile capacity errtext fs o ed (cmd_at ctdelete (num_addr m) (num_addr n) t ps) = Val ([], ed', []) /\
    (exists j, first_from (seams k es) a j /\
       pt_string (e_pt ed') = Ok (unlines (upto ls (m - 1)) ++ skipn (Z.to_nat j) (unlines ls ++ x))) /\
    (pt_string (e_pt ed') = Ok (unlines (upto ls (m - 1))) <->
     forall b, In b (seams k es) -> ~ (a <= b < len (unlines ls ++ x))).
Proof. exact delete_open_any. Qed.
Print Assumptions C54_delete_exact_refuted.

(* the file "one two three four", a line each, without the last newline; "TWO" put after line 2: then 5d works,
   3,5d does nothing, and 2,5d removes line 2 only *)
Example C54_exact_nonvacuous :
  let content := B "one" ++ [nl] ++ B "two" ++ [nl] ++ B "three" ++ [nl] ++ B "four" in
  let es := [Ins (B "TWO" ++ [nl]) 8] in
  let pt := fst (run_edits (new_piece_table content true (len content)) es) in
  let ed := {| e_pt := pt; e_filename := B "f"; e_current := 4 |} in
  let delete m := match processCommand (fun _ => None) (fun n => n) [] (fun _ => None)
                          {| f_stat := false; f_open := false; f_chunks := []; f_write := false; f_close := false;
                             f_rename := false; f_remove := false; f_reopen := false; f_fstat := false |}
                          ed (cmd_at ctdelete (num_addr m) (num_addr 5) [] []) with
                  | Val (_, ed', _) => pt_string (e_pt ed') | _ => Panic end in
  edits_in_range content es /\ seams (len content) es = [8; 12; 22] /\
  apply_edits content es = unlines [B "one"; B "two"; B "TWO"; B "three"] ++ B "four" /\
  delete 5 = Ok (unlines [B "one"; B "two"; B "TWO"; B "three"]) /\
  delete 3 = Ok (apply_edits content es) /\
  delete 2 = Ok (unlines [B "one"; B "TWO"; B "three"] ++ B "four").
Proof. vm_compute. repeat split; try discriminate; reflexivity. Qed.
