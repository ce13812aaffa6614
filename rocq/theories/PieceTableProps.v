(* C01-C05 and C67: pkg/txt PieceTable.  Statements only; proofs in PieceTableProofs.v. *)
From Verif Require Import GoBase PieceTableModel PieceTableSpec PieceTableProofs.
Local Open Scope Z_scope.

(* C01. *)
Theorem C01_piece_table_is_byte_string : forall content can_close es,
  len content <= max_int64 -> edits_in_range content es ->
  exists pt, run_edits (new_piece_table content can_close (len content)) es = (pt, Returned) /\
    pt_string pt = Ok (apply_edits content es).
Proof. exact piece_table_whole. Qed.
Print Assumptions C01_piece_table_is_byte_string.

(* C01, when NewPieceTable is told to use only the first n bytes of the reader. *)
Theorem C01_piece_table_prefix : forall content can_close n es,
  0 <= n <= len content -> n <= max_int64 ->
  edits_in_range (firstn (Z.to_nat n) content) es ->
  exists pt, run_edits (new_piece_table content can_close n) es = (pt, Returned) /\
    pt_string pt = Ok (apply_edits (firstn (Z.to_nat n) content) es).
Proof. exact piece_table_refines. Qed.
Print Assumptions C01_piece_table_prefix.

Definition demo_edits : list edit := [Ins (B "XY") 2; Ins (B "") 0; Del 3 1; Ins (B "tail") 4; Del 0 8; Del 8 0].
Example C01_nonvacuous :
  edits_in_range (B "hello") demo_edits /\
  apply_edits (B "hello") (firstn 4 demo_edits) = B "hllotail".
Proof. vm_compute. repeat split; discriminate. Qed.

(* C02. *)
Theorem C02_fuzz_never_reports_problem : forall sscanf data, fuzz sscanf data <> FuzzProblem.
Proof. exact fuzz_no_problem. Qed.
Print Assumptions C02_fuzz_never_reports_problem.

Theorem C02_naive_insert_is_splice : forall s t a, 0 <= a <= len s -> len s + len t <= max_int64 ->
  naive_insert s t a = Ok (splice s t a).
Proof. exact naive_insert_spec. Qed.
Print Assumptions C02_naive_insert_is_splice.

Theorem C02_naive_delete_is_cut : forall s n a, 0 <= a -> 0 <= n -> a + n <= len s -> a + n <= max_int64 ->
  naive_delete s n a = Ok (cut_out s n a).
Proof. exact naive_delete_spec. Qed.
Print Assumptions C02_naive_delete_is_cut.

(* A scanning function for the demonstration: reads "1 1 X" and "-1 1 9223372036854775807". *)
Definition demo_sscanf (b : bytes) : option (Z * Z * bytes) :=
  if beqb b (B "1 1 X") then Some (1, 1, B "X")
  else if beqb b (B "-1 1 9223372036854775807") then Some (-1, 1, B "9223372036854775807")
  else None.
Example C02_nonvacuous :
  fuzz demo_sscanf (B "ab" ++ [nl] ++ B "1 1 X" ++ [nl]) = FuzzReturned.
Proof. vm_compute. reflexivity. Qed.

(* C67: the driver does not crash in any other way either -- refuted: the guard at line 247 adds
   at+length in 64-bit arithmetic, so a huge length slips through and naiveTable slices out of range.
   Exactly these scripts crash it (or a text longer than the largest int). *)
Theorem C67_fuzz_never_crashes_refuted : forall sscanf data, fuzz sscanf data = FuzzCrash <->
  exists o cmds toolong, scan_lines data = (o :: cmds, toolong) /\ fuzz_crash sscanf o cmds.
Proof. exact fuzz_crash_iff. Qed.
Print Assumptions C67_fuzz_never_crashes_refuted.
Example C67_nonvacuous : scan_lines (B "ab" ++ [nl] ++ B "1 1 X" ++ [nl] ++ B "-1 1 9223372036854775807" ++ [nl]) =
    ([B "ab"; B "1 1 X"; B "-1 1 9223372036854775807"], false) /\
  fuzz_crash demo_sscanf (B "ab") [B "1 1 X"; B "-1 1 9223372036854775807"] /\
  fuzz demo_sscanf (B "ab" ++ [nl] ++ B "1 1 X" ++ [nl] ++ B "-1 1 9223372036854775807" ++ [nl]) = FuzzCrash.
Proof.
  split; [vm_compute; reflexivity|]. split; [|vm_compute; reflexivity].
  apply fc_after_insert with (typ := 1) (a := 1) (txt := B "X"); try (vm_compute; (reflexivity || discriminate)).
  apply fc_delete with (typ := -1) (a := 1) (txt := B "9223372036854775807") (n := max_int64);
    vm_compute; (reflexivity || discriminate).
Qed.

(* C67, the true part: scripts whose numbers stay small never crash the driver.  What is missing
   from the full claim is exactly the scripts where at+length exceeds the largest int. *)
Theorem C67_fuzz_never_crashes_partial : forall sscanf data,
  len data <= max_int64 ->
  (forall cmd typ a txt, sscanf cmd = Some (typ, a, txt) -> len txt <= len cmd) ->
  (forall cmd typ a txt n, sscanf cmd = Some (typ, a, txt) -> atoi txt = Some n ->
     n <= max_int64 - len data) ->
  fuzz sscanf data = FuzzReturned.
Proof. exact fuzz_small_returns. Qed.
Print Assumptions C67_fuzz_never_crashes_partial.

(* C03. *)
Theorem C03_insert_in_range_succeeds_past_end_panics : forall pt s t a, table_for pt s ->
  (0 <= a <= len s -> exists pt', pt_insert pt t a = (pt', Returned) /\ pt_string pt' = Ok (splice s t a)) /\
  (len s < a -> exists pt', pt_insert pt t a = (pt', Panics) /\ pt_string pt' = Ok s).
Proof. exact insert_accepts_iff. Qed.
Print Assumptions C03_insert_in_range_succeeds_past_end_panics.

Definition demo_table : piece_table :=
  fst (run_edits (new_piece_table (B "hello") false 5) [Ins (B "XY") 2]).
Example C03_nonvacuous : table_for demo_table (B "heXYllo").
Proof.
  exists (B "hello"), false, 5, [Ins (B "XY") 2]. vm_compute. repeat split; discriminate.
Qed.

(* C04: refuted.  Deleting past the end after any insertion leaves the later pieces in place: the inserted
   text, and the text after it, stay. *)
Theorem C04_delete_past_end_truncates_refuted : forall content cc t p n a,
  len content + len t <= max_int64 -> 0 <= a <= p -> p <= len content -> len content + len t < a + n <= max_int64 ->
  exists pt, run_edits (new_piece_table content cc (len content)) [Ins t p] = (pt, Returned) /\
    pt_string (pt_delete pt n a) = Ok (firstn (Z.to_nat a) content ++ t ++ skipn (Z.to_nat p) content).
Proof. exact delete_past_end_inserted. Qed.
Print Assumptions C04_delete_past_end_truncates_refuted.
Example C04_nonvacuous : run_edits (new_piece_table (B "hello") false 5) [Ins (B "XY") 2] = (demo_table, Returned) /\
  pt_string (pt_delete demo_table 10 1) = Ok (B "hXYllo") /\ firstn 1 (B "heXYllo") = B "h".
Proof. vm_compute. auto. Qed.

(* C04, true part 1: on a table without earlier edits deletion past the end truncates. *)
Theorem C04_delete_past_end_fresh_partial : forall content cc n a,
  len content <= max_int64 ->
  0 <= a <= len content -> len content < a + n <= max_int64 ->
  pt_string (pt_delete (new_piece_table content cc (len content)) n a)
    = Ok (firstn (Z.to_nat a) content).
Proof. exact delete_past_end_fresh. Qed.
Print Assumptions C04_delete_past_end_fresh_partial.

(* C04, true part 2: in every state it keeps the text before [a] and otherwise only some suffix. *)
Theorem C04_delete_past_end_partial : forall pt s n a,
  table_for pt s -> 0 <= a <= len s -> len s < a + n <= max_int64 ->
  exists k, a <= k <= len s /\
    pt_string (pt_delete pt n a) = Ok (firstn (Z.to_nat a) s ++ skipn (Z.to_nat k) s).
Proof. exact delete_past_end. Qed.
Print Assumptions C04_delete_past_end_partial.

(* C05: refuted.  On the zero value the second insertion always panics, wherever it is. *)
Theorem C05_zero_table_usable_refuted : forall t a dels t' a' rest,
  (forall e, In e dels -> exists n b, e = Del n b) ->
  snd (run_edits zero_table (Ins t a :: dels ++ Ins t' a' :: rest)) = Panics.
Proof. exact zero_table_second_insert. Qed.
Print Assumptions C05_zero_table_usable_refuted.
Example C05_refuted_nonvacuous : edits_in_range [] [Ins (B "a") 0; Del 1 0; Ins (B "b") 0] /\
  snd (run_edits zero_table [Ins (B "a") 0; Del 1 0; Ins (B "b") 0]) = Panics.
Proof. split; [|reflexivity]. vm_compute. repeat split; discriminate. Qed.

(* C05, true part: one insert followed by any in-range deletions works. *)
Theorem C05_zero_table_usable_partial : forall t a es, len t <= max_int64 ->
  (forall e, In e es -> exists n a', e = Del n a') -> edits_in_range t es ->
  exists pt, run_edits zero_table (Ins t a :: es) = (pt, Returned) /\
    pt_string pt = Ok (apply_edits t es).
Proof. exact zero_table_one_insert. Qed.
Print Assumptions C05_zero_table_usable_partial.
Example C05_nonvacuous : edits_in_range (B "abc") [Del 1 1; Del 1 0] /\
  apply_edits (B "abc") [Del 1 1; Del 1 0] = B "c".
Proof. vm_compute. repeat split; discriminate. Qed.
