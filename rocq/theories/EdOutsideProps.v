(* C72 and C162: addresses outside the buffer.  [upto], [after] and [between] (EdSpec.v) take the lines there are. *)
From Verif Require Import GoBase GoFacts PieceTableModel PieceTableSpec EdModel EdSpec EdProofs EdProofs2 EdProps EdOutsideProofs.
Local Open Scope Z_scope.

(* C72: exactly what p does with any two line numbers.  Nothing is ever reported: lines beyond the last one are
   printed as blank lines as far as the slice of lines happens to have room, and crash the program beyond. *)
Theorem C72_print_exact_refuted : forall compile capacity errtext fs o ed ls m n t ps, buffer ed ls -> good ls ->
  0 <= m <= max_int64 -> 0 <= n <= max_int64 ->
  processCommand compile capacity errtext fs o ed (cmd_at ctprint (num_addr m) (num_addr n) t ps) =
  if (1 <=? m) && (m - 1 <=? n) && (n <=? Z.of_nat (capacity (List.length ls)))
  then Val ([], ed, join [nl] (between ls m n ++ repeat [] (Z.to_nat (n - Z.max (m - 1) (lines_count ls)))))
  else Crashes.
Proof. exact print_any. Qed.
Print Assumptions C72_print_exact_refuted.

(* C72: exactly what n does.  A reversed range prints nothing; any other range outside the buffer crashes. *)
Theorem C72_number_exact_refuted : forall compile capacity errtext fs o ed ls m n t ps, buffer ed ls -> good ls ->
  0 <= m <= max_int64 -> 0 <= n <= max_int64 ->
  processCommand compile capacity errtext fs o ed (cmd_at ctnumber (num_addr m) (num_addr n) t ps) =
  if n <? m then Val ([], ed, [])
  else if (1 <=? m) && (n <=? lines_count ls) then Val ([], ed, numbered m (between ls m n)) else Crashes.
Proof. exact number_any. Qed.
Print Assumptions C72_number_exact_refuted.

Example C72_exact_nonvacuous :
  between demo_lines 3 9 = [B ""; B "four"] /\
  join [nl] (between demo_lines 3 6 ++ repeat [] (Z.to_nat (6 - Z.max (3 - 1) (lines_count demo_lines)))) =
    [nl] ++ B "four" ++ [nl; nl].
Proof. vm_compute. auto. Qed.

(* C162: what a, i, c and d do with any line numbers (in order): the text goes to the nearest place there is, and
   the lines there are are deleted.  The reply is empty. *)
Theorem C162_nearest_partial : forall compile capacity errtext fs o ed ls c, buffer ed ls -> good ls ->
  match c with
  | Append n _ | Insert_ n _ => 0 <= n < max_int64
  | Delete_ m n => 0 <= m <= n /\ n < max_int64
  | Change m n _ => 0 <= m <= n /\ n < max_int64 /\ good (upto ls (m - 1) ++ after ls n)
  | _ => False
  end -> len (unlines ls) + len (text_of c) + 1 <= max_int64 ->
  exists ed', processCommand compile capacity errtext fs o ed (concrete c) = Val ([], ed', []) /\ buffer ed' (aedit ls c).
Proof. exact edit_anywhere. Qed.
Print Assumptions C162_nearest_partial.

(* C162 refuted, for every buffer and every line beyond the last: a and i add their text at the end, c does so
   too, and d does nothing, all without a report. *)
Theorem C162_beyond_refuted : forall compile capacity errtext fs o ed ls m n t, buffer ed ls -> good ls ->
  lines_count ls < m -> m <= n < max_int64 -> len (unlines ls) + len t + 1 <= max_int64 ->
  let process c := processCommand compile capacity errtext fs o ed (concrete c) in
  (exists ed', process (Append m t) = Val ([], ed', []) /\ buffer ed' (ls ++ typed t)) /\
  (exists ed', process (Insert_ m t) = Val ([], ed', []) /\ buffer ed' (ls ++ typed t)) /\
  (exists ed', process (Change m n t) = Val ([], ed', []) /\ buffer ed' (ls ++ typed t)) /\
  (exists ed', process (Delete_ m n) = Val ([], ed', []) /\ buffer ed' ls).
Proof.
  intros compile capacity errtext fs o ed ls m n t H G M N F process.
  assert (0 <= lines_count ls) by (unfold lines_count; lia). pose proof (PieceTableProofs.len_nonneg t) as Lt.
  assert (U : upto ls (m - 1) = ls) by (apply upto_past; lia). assert (U' : upto ls m = ls) by (apply upto_past; lia).
  assert (A : after ls (m - 1) = []) by (apply after_past; lia). assert (A' : after ls m = []) by (apply after_past; lia).
  assert (A'' : after ls n = []) by (apply after_past; lia).
  pose proof (fun c => edit_anywhere compile capacity errtext fs o ed ls c H G) as W. unfold process.
  repeat split.
  - specialize (W (Append m t)). cbn [aedit] in W. rewrite U', A', List.app_nil_r in W. apply W; [lia|assumption].
  - specialize (W (Insert_ m t)). cbn [aedit] in W. rewrite U, A, List.app_nil_r in W. apply W; [lia|assumption].
  - specialize (W (Change m n t)). cbn [aedit] in W. rewrite U, A'', !List.app_nil_r in W. apply W; [|assumption].
    repeat split; try lia; apply G.
  - specialize (W (Delete_ m n)). cbn [aedit] in W. rewrite U, A'', List.app_nil_r in W. apply W; [lia|].
    cbn [text_of]. change (len []) with 0. lia.
Qed.
Print Assumptions C162_beyond_refuted.

(* C162 refuted, for every buffer: line 0, which is no line, is the first line for c and d. *)
Theorem C162_line_zero_refuted : forall compile capacity errtext fs o ed ls n t, buffer ed ls -> good ls ->
  0 <= n < max_int64 -> good (after ls n) -> len (unlines ls) + len t + 1 <= max_int64 ->
  let process c := processCommand compile capacity errtext fs o ed (concrete c) in
  (exists ed', process (Change 0 n t) = Val ([], ed', []) /\ buffer ed' (typed t ++ after ls n)) /\
  (exists ed', process (Delete_ 0 n) = Val ([], ed', []) /\ buffer ed' (after ls n)).
Proof.
  intros compile capacity errtext fs o ed ls n t H G N G1 F process. pose proof (PieceTableProofs.len_nonneg t) as Lt.
  pose proof (fun c => edit_anywhere compile capacity errtext fs o ed ls c H G) as W. unfold process.
  split.
  - specialize (W (Change 0 n t)). cbn [aedit] in W. rewrite upto_neg in W by lia. apply W; [|assumption].
    split; [lia|]. split; [lia|exact G1].
  - specialize (W (Delete_ 0 n)). cbn [aedit] in W. rewrite upto_neg in W by lia. apply W; [lia|].
    cbn [text_of]. change (len []) with 0. lia.
Qed.
Print Assumptions C162_line_zero_refuted.

Example C162_nonvacuous :
  good demo_lines /\ aedit demo_lines (Append 9 (B "new")) = demo_lines ++ [B "new"] /\
  aedit demo_lines (Delete_ 0 3) = [B "four"] /\ aedit demo_lines (Delete_ 2 99) = [B "one"].
Proof. split; [easy_good|]. vm_compute. auto. Qed.
