(* C164: what w does to the editor.  Seams are where edits were made (PieceSeamSpec.v). *)
From Verif Require Import GoBase GoFacts NumFacts PieceTableModel PieceTableSpec PieceSeamSpec EdModel EdSpec EdProofs EdProofs2 EdProps
  EdFileSpec EdOpenProofs EdOpenProps EdWriteProofs.
Local Open Scope Z_scope.

(* C164 refuted, for every buffer: after w the current line is the last one, wherever it was. *)
Theorem C164_current_line_refuted : forall compile capacity errtext fs o ed c data ls n, c_typ c = ctwrite ->
  pt_string (e_pt ed) = Ok data -> len data <= max_int64 -> text_lines data = Val (ls, n) ->
  fs (e_filename ed) <> None -> no_failure o ->
  exists states ed', processCommand compile capacity errtext fs o ed c = Val (states, ed', []) /\ e_current ed' = lines_count ls /\
    (e_current ed <> lines_count ls -> e_current ed' <> e_current ed).
Proof.
  intros compile capacity errtext fs o ed c data ls n C D L T F O.
  destruct (w_gives compile capacity errtext fs o ed c data ls n C D L T F O) as (states&P&_).
  exists states. eexists. split; [exact P|]. split; [reflexivity|]. cbn [reopened e_current]. congruence.
Qed.
Print Assumptions C164_current_line_refuted.

(* C164 refuted: w changes what later commands do.  If the last line lacks its newline, and the text was edited in or
   just before lines m to the last, then m,$d does not remove these lines; after a w the same command does. *)
Theorem C164_later_command_refuted : forall compile capacity errtext fs o o1 o2 ed content cc k es ls x m n t ps c b,
  0 <= k <= len content -> k <= max_int64 -> edits_in_range (firstn (Z.to_nat k) content) es ->
  run_edits (new_piece_table content cc k) es = (e_pt ed, Returned) ->
  apply_edits (firstn (Z.to_nat k) content) es = unlines ls ++ x ->
  Forall ed_line (ls ++ [x]) -> x <> [] -> len (unlines ls ++ x) < max_int64 -> 1 <= m <= n -> n = lines_count ls + 1 ->
  In b (seams k es) -> len (unlines (upto ls (m - 1))) <= b < len (unlines ls ++ x) ->
  c_typ c = ctwrite -> fs (e_filename ed) <> None -> no_failure o ->
  let delete := cmd_at ctdelete (num_addr m) (num_addr n) t ps in
  exists states ed1 ed2 ed3,
    processCommand compile capacity errtext fs o1 ed delete = Val ([], ed1, []) /\
    pt_string (e_pt ed1) <> Ok (unlines (upto ls (m - 1))) /\
    processCommand compile capacity errtext fs o ed c = Val (states, ed2, []) /\
    processCommand compile capacity errtext (final fs states) o2 ed2 delete = Val ([], ed3, []) /\
    pt_string (e_pt ed3) = Ok (unlines (upto ls (m - 1))).
Proof.
  intros compile capacity errtext fs o o1 o2 ed content cc k es ls x m n t ps c b K K2 R E A Fl Ne L M N I Hb Cw F O delete.
  destruct (C54_delete_exact_refuted compile capacity errtext fs o1 ed content cc k es ls x m n t ps K K2 R E A Fl Ne L M N) as (ed1&P1&_&X1).
  assert (H : holds ed (unlines ls ++ x)).
  { exists content, cc, k, es. auto. }
  assert (T : text_lines (unlines ls ++ x) = Val (ls ++ [x], List.length (ls ++ [x]))).
  { pose proof (getLines_open ed ls x H Fl Ne) as G. unfold getLines in G. now rewrite (holds_string _ _ H) in G. }
  destruct (w_gives compile capacity errtext fs o ed c _ _ _ Cw (holds_string _ _ H) ltac:(lia) T F O) as (states&P2&_).
  set (ed2 := reopened _ _ _) in P2.
  destruct (C54_delete_exact_refuted compile capacity errtext (final fs states) o2 ed2 (unlines ls ++ x) true (len (unlines ls ++ x)) [] ls x m n t ps)
    as (ed3&P3&_&X3); auto; try lia.
  { unfold len; lia. }
  { exact Logic.I. }
  { cbn [apply_edits fold_left]. unfold len. rewrite Nat2Z.id. apply firstn_all. }
  exists states, ed1, ed2, ed3. split; auto. split; [|split; auto; split; auto].
  - intros Q. rewrite X1 in Q. apply (Q b I). lia.
  - apply X3. intros b' I'. cbn in I'. destruct I' as [<-|[]]. lia.
Qed.
Print Assumptions C164_later_command_refuted.

(* C164, what is true: w prints nothing; the text and the name are kept; the file holds the text, its temporary file is
   gone and no other file has changed. *)
Theorem C164_text_kept_partial : forall compile capacity errtext fs o ed c data ls n states ed' r, c_typ c = ctwrite ->
  pt_string (e_pt ed) = Ok data -> len data <= max_int64 -> text_lines data = Val (ls, n) ->
  fs (e_filename ed) <> None -> no_failure o ->
  processCommand compile capacity errtext fs o ed c = Val (states, ed', r) ->
  r = [] /\ pt_string (e_pt ed') = Ok data /\ e_filename ed' = e_filename ed /\
  final fs states (e_filename ed) = Some data /\ final fs states (e_filename ed ++ B ".swp") = None /\
  forall m, m <> e_filename ed -> m <> e_filename ed ++ B ".swp" -> final fs states m = fs m.
Proof.
  intros compile capacity errtext fs o ed c data ls n states ed' r C D L T F O P.
  destruct (w_gives compile capacity errtext fs o ed c data ls n C D L T F O) as (states'&P'&Q).
  rewrite P in P'. injection P' as -> -> ->. change (e_filename ed ++ B ".swp") with (swp (e_filename ed)).
  split; auto. split; [apply holds_string, reopened_holds, L|]. split; auto.
  pose proof (swp_differs (e_filename ed)) as Sd.
  split; [|split].
  - rewrite Q. destruct (beqb_case (e_filename ed) (e_filename ed)) as [[_ ->]|[]]; congruence.
  - rewrite Q. destruct (beqb_case (swp (e_filename ed)) (e_filename ed)) as [[]|[_ ->]]; [congruence|].
    destruct (beqb_case (swp (e_filename ed)) (swp (e_filename ed))) as [[_ ->]|[]]; congruence.
  - intros m M1 M2. rewrite Q. destruct (beqb_case m (e_filename ed)) as [[]|[_ ->]]; [congruence|].
    destruct (beqb_case m (swp (e_filename ed))) as [[]|[_ ->]]; congruence.
Qed.
Print Assumptions C164_text_kept_partial.

(* C164: a second w, and e of the file, then change nothing at all, neither in the editor nor in any file. *)
Theorem C164_again_partial : forall compile capacity errtext fs o o' ed c c' data ls n states ed' r, c_typ c = ctwrite ->
  pt_string (e_pt ed) = Ok data -> len data <= max_int64 -> text_lines data = Val (ls, n) ->
  fs (e_filename ed) <> None -> no_failure o -> no_failure o' ->
  processCommand compile capacity errtext fs o ed c = Val (states, ed', r) ->
  c_typ c' = ctwrite \/ (c_typ c' = ctedit /\ exists ps, c_params c' = e_filename ed :: ps) ->
  exists states', processCommand compile capacity errtext (final fs states) o' ed' c' = Val (states', ed', []) /\
    forall m, final (final fs states) states' m = final fs states m.
Proof.
  intros compile capacity errtext fs o o' ed c c' data ls n states ed' r C D L T F O O' P C'.
  destruct (w_gives compile capacity errtext fs o ed c data ls n C D L T F O) as (states'&P'&Q).
  rewrite P in P'. injection P' as -> -> ->.
  assert (F1 : final fs states' (e_filename ed) = Some data).
  { rewrite Q. destruct (beqb_case (e_filename ed) (e_filename ed)) as [[_ ->]|[]]; congruence. }
  set (ed1 := reopened (e_filename ed) data ls) in *.
  assert (H1 : pt_string (e_pt ed1) = Ok data) by (apply holds_string, reopened_holds, L).
  destruct C' as [C'|[C' (ps&Ps)]].
  - destruct (w_gives compile capacity errtext (final fs states') o' ed1 c' data ls n C' H1 L T) as (s2&P2&Q2); auto.
    { cbn [ed1 reopened e_filename]. congruence. }
    exists s2. split; [exact P2|]. intros m. rewrite Q2. cbn [ed1 reopened e_filename]. rewrite Q.
    destruct (beqb m (e_filename ed)); auto. destruct (beqb m (swp (e_filename ed))); auto.
  - exists []. split; [|intros m; reflexivity]. unfold processCommand.
    assert (Q1 : c_typ (setDefaultAddresses c') = ctedit /\ c_params (setDefaultAddresses c') = e_filename ed :: ps).
    { unfold setDefaultAddresses. destruct (is_null (c_start c')); auto. }
    destruct Q1 as [-> ->]. destruct O' as (_&_&_&_&_&R1&R2).
    rewrite (edit_gives errtext _ o' ed1 (e_filename ed) data ls n); auto.
Qed.
Print Assumptions C164_again_partial.

(* C164: over a buffer of ordinary lines every history of commands with line numbers prints the same, and leaves the same
   text, with a w before it as without. *)
Theorem C164_histories_partial : forall compile capacity errtext, (forall n, (n <= capacity n)%nat) ->
  forall h fs o k ed ls c, buffer ed ls -> good ls -> len (unlines ls) <= max_int64 -> valid_history ls h ->
  c_typ c = ctwrite -> fs (e_filename ed) <> None -> no_failure (o k) ->
  exists fs' ed1 ed2 text,
    command_loop compile capacity errtext fs o k ed (map concrete h) = (printed ls h, Val (fs, ed1)) /\
    command_loop compile capacity errtext fs o k ed (c :: map concrete h) = ([nl] :: printed ls h, Val (fs', ed2)) /\
    pt_string (e_pt ed1) = Ok text /\ pt_string (e_pt ed2) = Ok text.
Proof.
  intros compile capacity errtext Cp h fs o k ed ls c H G L V C F O.
  destruct (w_gives compile capacity errtext fs (o k) ed c _ _ _ C (holds_string _ _ H) L (text_lines_good ls G) F O) as (states&P&_).
  destruct (C51_histories_refine_partial compile capacity errtext Cp h fs o k ed ls H V) as (ed1&E1&B1).
  destruct (C51_histories_refine_partial compile capacity errtext Cp h (final fs states) o (S k) (reopened (e_filename ed) (unlines ls) ls) ls)
    as (ed2&E2&B2); auto. { apply reopened_holds, L. }
  exists (final fs states), ed1, ed2, (unlines (final_lines ls h)). split; auto. split; [|split; apply holds_string; assumption].
  cbn [command_loop]. rewrite C, P, E2. reflexivity.
Qed.
Print Assumptions C164_histories_partial.

(* the file "one two three", a line each, the last without newline; "TWO" put after line 2; and then w *)
Example C164_nonvacuous :
  let content := B "one" ++ [nl] ++ B "two" ++ [nl] ++ B "three" in
  let es := [Ins (B "TWO" ++ [nl]) 8] in
  let ed := {| e_pt := fst (run_edits (new_piece_table content true (len content)) es); e_filename := B "f"; e_current := 3 |} in
  let fs : files := fun n => if beqb n (B "f") then Some content else None in
  let ok := {| f_stat := false; f_open := false; f_chunks := [4%nat]; f_write := false; f_close := false;
               f_rename := false; f_remove := false; f_reopen := false; f_fstat := false |} in
  let ls := [B "one"; B "two"; B "TWO"] in
  edits_in_range content es /\ apply_edits content es = unlines ls ++ B "three" /\ seams (len content) es = [8; 12; 17] /\
  no_failure ok /\ text_lines (unlines ls ++ B "three") = Val (ls ++ [B "three"], 4%nat) /\
  match processCommand (fun _ => None) (fun n => n) [] fs ok ed (cmd_at ctwrite zero_address zero_address [] []) with
  | Val (states, ed', r) => e_current ed' = 4 /\ r = [] /\ final fs states (B "f") = Some (unlines ls ++ B "three") /\ List.length states = 4%nat
  | _ => False
  end /\
  valid_history demo_lines demo_history /\ good demo_lines.
Proof.
  split; [vm_compute; repeat split; discriminate|]. split; [reflexivity|]. split; [vm_compute; reflexivity|]. split; [repeat split|].
  split; [vm_compute; reflexivity|]. split; [vm_compute; repeat split|]. split; [apply C51_nonvacuous|]. destruct C51_nonvacuous as [[[G _] _] _]. exact G.
Qed.
