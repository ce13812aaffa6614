(* Property theorems C50-C58, C64-C66, C70-C76 (pkg/ed, editing commands).
   Throughout, [compile] is regexp.CompilePOSIX, [capacity] the capacity of a slice built by appending,
   [errtext] the text of a system error, [o] which system calls fail. *)
From Verif Require Import GoBase GoFacts PieceTableModel PieceTableSpec EdModel EdSpec EdProofs EdProofs2.
Local Open Scope Z_scope.

Definition demo_lines : list bytes := [B "one"; B "two"; B ""; B "four"].
Definition demo_ed : itor :=
  {| e_pt := new_piece_table (unlines demo_lines) true (len (unlines demo_lines)); e_filename := B "f"; e_current := 2 |}.
Lemma demo_buffer : buffer demo_ed demo_lines.
Proof. eapply fresh_holds with (cc := true); [vm_compute; intros Q; discriminate Q|reflexivity]. Qed.
Lemma no_cr_ended : forall l, last l nl <> cr -> forall p, l <> p ++ [cr].
Proof. intros l H p ->. rewrite last_last in H. congruence. Qed.
Lemma no_nl_in : forall l, forallb (fun c => negb (Ascii.eqb c nl)) l = true -> ~ In nl l.
Proof. intros l H I. rewrite forallb_forall in H. apply H in I. now rewrite Ascii.eqb_refl in I. Qed.
Lemma easy_line : forall l, forallb (fun c => negb (Ascii.eqb c nl)) l = true -> last l nl <> cr ->
  len l < 65536 -> ed_line l.
Proof. intros. split; [now apply no_nl_in|]. split; [now apply no_cr_ended|auto]. Qed.
Lemma last_not_blank : forall ls : list bytes, ls = [] \/ last ls [] <> [] -> forall p, ls <> p ++ [[]].
Proof. intros ls [->|H] p E; [destruct p; discriminate|]. rewrite E, last_last in H. congruence. Qed.
Ltac easy_good := split; [repeat constructor; apply easy_line; vm_compute; (reflexivity || discriminate)
                         |apply last_not_blank; vm_compute; right; discriminate].
Lemma demo_good : good demo_lines. Proof. easy_good. Qed.

(* C50, a: the text is inserted after line n (n may be 0); every other line stays. *)
Theorem C50_append_partial : forall compile capacity errtext fs o ed ls a b n t ps,
  buffer ed ls -> good ls -> denotes ed ls a n ->
  0 <= n <= lines_count ls -> len (unlines ls) + len t + 1 <= max_int64 ->
  exists ed', processCommand compile capacity errtext fs o ed (cmd_at ctappend a b t ps) = Val ([], ed', []) /\
    buffer ed' (upto ls n ++ typed t ++ after ls n).
Proof.
  intros compile capacity errtext fs o ed ls a b n t ps H G.
  intros. destruct (append_ok compile capacity errtext fs o ed ls a b n t ps) as (ed'&E&B&_); eauto.
Qed.
Print Assumptions C50_append_partial.

Theorem C50_insert_partial : forall compile capacity errtext fs o ed ls a b n t ps,
  buffer ed ls -> good ls -> denotes ed ls a n ->
  0 <= n <= lines_count ls -> len (unlines ls) + len t + 1 <= max_int64 ->
  exists ed', processCommand compile capacity errtext fs o ed (cmd_at ctinsert a b t ps) = Val ([], ed', []) /\
    buffer ed' (upto ls (n - 1) ++ typed t ++ after ls (n - 1)).
Proof.
  intros compile capacity errtext fs o ed ls a b n t ps H G.
  intros. destruct (insert_ok compile capacity errtext fs o ed ls a b n t ps) as (ed'&E&B&_); eauto.
Qed.
Print Assumptions C50_insert_partial.

Theorem C50_delete_partial : forall compile capacity errtext fs o ed ls a b m n t ps,
  buffer ed ls -> good ls -> denotes ed ls a m -> denotes ed ls b n ->
  1 <= m <= n -> n <= lines_count ls -> not_last a ->
  exists ed', processCommand compile capacity errtext fs o ed (cmd_at ctdelete a b t ps) = Val ([], ed', []) /\
    buffer ed' (upto ls (m - 1) ++ after ls n).
Proof.
  intros compile capacity errtext fs o ed ls a b m n t ps H G.
  intros. destruct (delete_cmd_ok compile capacity errtext fs o ed ls a b m n t ps) as (ed'&E&B&_); eauto.
Qed.
Print Assumptions C50_delete_partial.

(* C50, c: missing are the cases where the deletion leaves a blank last line (refuted below) and a first
   address relative to the end (C71). *)
Theorem C50_change_partial : forall compile capacity errtext fs o ed ls a b m n t ps,
  buffer ed ls -> good ls -> denotes ed ls a m -> denotes ed ls b n ->
  1 <= m <= n -> n <= lines_count ls -> not_last a -> good (upto ls (m - 1) ++ after ls n) ->
  len (unlines ls) + len t + 1 <= max_int64 ->
  exists ed', processCommand compile capacity errtext fs o ed (cmd_at ctchange a b t ps) = Val ([], ed', []) /\
    buffer ed' (upto ls (m - 1) ++ typed t ++ after ls n).
Proof.
  intros compile capacity errtext fs o ed ls a b m n t ps H G.
  intros. destruct (change_ok compile capacity errtext fs o ed ls a b m n t ps) as (ed'&E&B&_); eauto.
Qed.
Print Assumptions C50_change_partial.

Example C50_nonvacuous : buffer demo_ed demo_lines /\ good demo_lines /\
  denotes demo_ed demo_lines (num_addr 2) 2 /\ denotes demo_ed demo_lines aCur 2 /\
  good (upto demo_lines (2 - 1) ++ after demo_lines 2) /\
  upto demo_lines (2 - 1) ++ typed (B "x" ++ [nl] ++ B "y") ++ after demo_lines 2 = [B "one"; B "x"; B "y"; B ""; B "four"].
Proof.
  split; [apply demo_buffer|]. split; [apply demo_good|].
  split; [apply denotes_num; unfold min_int64, max_int64; lia|]. split; [apply (den_cur demo_ed demo_lines (B ".") 0)|].
  split; [easy_good|reflexivity].
Qed.

(* C50 refuted: EdExactProps.v. *)
Definition no_faults : faults := {| f_stat := false; f_open := false; f_chunks := []; f_write := false;
  f_close := false; f_rename := false; f_remove := false; f_reopen := false; f_fstat := false |}.

(* C51: a history of valid commands on buffers of ordinary lines leaves the buffer and prints what the
   abstract line editor does; every reply is ended by a newline.  Missing: buffers in which some line ends
   in \r, is 64K long, or the last line is blank (EdExactProps.v). *)
Theorem C51_histories_refine_partial : forall compile capacity errtext,
  (forall n, (n <= capacity n)%nat) ->
  forall h fs o k ed ls, buffer ed ls -> valid_history ls h ->
  exists ed', command_loop compile capacity errtext fs o k ed (map concrete h) = (printed ls h, Val (fs, ed')) /\
    buffer ed' (final_lines ls h).
Proof. intros compile capacity errtext C h. exact (history_ok compile capacity errtext C h). Qed.
Print Assumptions C51_histories_refine_partial.

Definition demo_history : list acmd :=
  [Append 4 (B "five" ++ [nl] ++ B "six"); Delete_ 2 3; Print_ 1 4; Change 1 1 (B "uno"); Number_ 1 2; Insert_ 1 (B "zero"); LineNo 5].
Example C51_nonvacuous : valid_history demo_lines demo_history /\
  final_lines demo_lines demo_history = [B "zero"; B "uno"; B "four"; B "five"; B "six"] /\
  nth 2 (printed demo_lines demo_history) [] = unlines [B "one"; B "four"; B "five"; B "six"].
Proof.
  split; [|split; reflexivity].
  repeat (split; [split; [easy_good|try exact I; try easy_good]|split; [vm_compute; repeat split; discriminate|split; [vm_compute; discriminate|]]]).
  exact I.
Qed.

(* C52: p and n print the addressed lines, = the address. *)
Theorem C52_print_and_number : forall compile capacity errtext, (forall n, (n <= capacity n)%nat) ->
  forall fs o ed ls a b m n t ps, buffer ed ls -> good ls ->
  denotes ed ls a m -> denotes ed ls b n -> 1 <= m <= n -> n <= lines_count ls ->
  processCommand compile capacity errtext fs o ed (cmd_at ctprint a b t ps) = Val ([], ed, join [nl] (between ls m n)) /\
  processCommand compile capacity errtext fs o ed (cmd_at ctnumber a b t ps) = Val ([], ed, numbered m (between ls m n)).
Proof. intros compile capacity errtext C. exact (printing_ok compile capacity errtext C). Qed.
Print Assumptions C52_print_and_number.
Theorem C52_line_number : forall compile capacity errtext fs o ed ls a b n t ps, buffer ed ls -> good ls ->
  denotes ed ls a n -> min_int64 <= n <= max_int64 ->
  processCommand compile capacity errtext fs o ed (cmd_at ctlineNumber a b t ps) = Val ([], ed, itoa n).
Proof. exact line_number_ok. Qed.
Print Assumptions C52_line_number.
(* C52: whatever the buffer and the addresses, the editor and the files stay as they are. *)
Theorem C52_printing_modifies_nothing : forall compile capacity errtext fs o ed c states ed' r,
  c_typ c = ctprint \/ c_typ c = ctnumber \/ c_typ c = ctlineNumber ->
  processCommand compile capacity errtext fs o ed c = Val (states, ed', r) -> states = [] /\ ed' = ed.
Proof. exact printing_pure. Qed.
Print Assumptions C52_printing_modifies_nothing.
Example C52_nonvacuous : numbered 2 (between demo_lines 2 3) =
  B "2" ++ [tab] ++ B "two" ++ [nl] ++ B "3" ++ [tab] ++ [nl].
Proof. reflexivity. Qed.

(* C53 refuted, for every a and c: the current line is one more than the last line added, so after adding
   at the end it is not a line of the buffer. *)
Theorem C53_current_after_append_refuted : forall compile capacity errtext fs o ed ls a b t ps,
  buffer ed ls -> good ls -> denotes ed ls a (lines_count ls) -> len (unlines ls) + len t + 2 <= max_int64 ->
  exists ed' ls', processCommand compile capacity errtext fs o ed (cmd_at ctappend a b t ps) = Val ([], ed', []) /\
    buffer ed' ls' /\ ls' = ls ++ typed t /\ e_current ed' = lines_count ls' + 1.
Proof.
  intros compile capacity errtext fs o ed ls a b t ps H G D F.
  assert (N : 0 <= lines_count ls <= lines_count ls) by (unfold lines_count; lia).
  destruct (append_ok compile capacity errtext fs o ed ls a b _ t ps H G D N) as (ed'&E&B&C&_); [lia|].
  exists ed', (ls ++ typed t). split; auto. rewrite (appended_fits ls) in C by auto.
  assert (Q : upto ls (lines_count ls) ++ typed t ++ after ls (lines_count ls) = ls ++ typed t).
  { unfold upto, after, lines_count. rewrite Nat2Z.id, firstn_all, skipn_all, List.app_nil_r. reflexivity. }
  rewrite Q in B. split; auto. split; auto. rewrite C. unfold lines_count. rewrite app_length. lia.
Qed.
Print Assumptions C53_current_after_append_refuted.
(* C53 refuted, for every d that deletes the last line: the current line does not exist any more. *)
Theorem C53_current_after_delete_refuted : forall compile capacity errtext fs o ed ls a b m t ps,
  buffer ed ls -> good ls -> denotes ed ls a m -> not_last a -> denotes ed ls b (lines_count ls) -> 1 <= m <= lines_count ls ->
  exists ed' ls', processCommand compile capacity errtext fs o ed (cmd_at ctdelete a b t ps) = Val ([], ed', []) /\
    buffer ed' ls' /\ ls' = upto ls (m - 1) /\ e_current ed' = lines_count ls' + 1.
Proof.
  intros compile capacity errtext fs o ed ls a b m t ps H G Da L Db M.
  destruct (delete_cmd_ok compile capacity errtext fs o ed ls a b m _ t ps H G Da Db) as (ed'&E&B&C&_); auto; try lia.
  exists ed', (upto ls (m - 1)). split; auto.
  assert (Q : upto ls (m - 1) ++ after ls (lines_count ls) = upto ls (m - 1)).
  { unfold after, lines_count. rewrite Nat2Z.id, skipn_all, List.app_nil_r. reflexivity. }
  rewrite Q in B. split; auto. split; auto. rewrite C. unfold lines_count, upto in *. rewrite firstn_length. lia.
Qed.
Print Assumptions C53_current_after_delete_refuted.
(* C53, what is true: after a, c or d away from the end the current line exists; it is the line after the
   text added, or after the lines deleted. *)
Theorem C53_current_line_partial : forall compile capacity errtext fs o ed ls a b m n t ps,
  buffer ed ls -> good ls -> denotes ed ls a m -> denotes ed ls b n -> not_last a ->
  1 <= m <= n -> n < lines_count ls -> good (upto ls (m - 1) ++ after ls n) ->
  len (unlines ls) + len t + 2 <= max_int64 ->
  (exists ed', processCommand compile capacity errtext fs o ed (cmd_at ctappend a b t ps) = Val ([], ed', []) /\
     exists ls', buffer ed' ls' /\ e_current ed' = m + lines_count (typed t) + 1 /\ 1 <= e_current ed' <= lines_count ls') /\
  (exists ed', processCommand compile capacity errtext fs o ed (cmd_at ctchange a b t ps) = Val ([], ed', []) /\
     exists ls', buffer ed' ls' /\ e_current ed' = m - 1 + lines_count (typed t) + 1 /\ 1 <= e_current ed' <= lines_count ls') /\
  (exists ed', processCommand compile capacity errtext fs o ed (cmd_at ctdelete a b t ps) = Val ([], ed', []) /\
     exists ls', buffer ed' ls' /\ e_current ed' = m /\ 1 <= e_current ed' <= lines_count ls').
Proof.
  intros compile capacity errtext fs o ed ls a b m n t ps H G Da Db L M N G1 F.
  assert (T1 : 1 <= lines_count (typed t)) by (unfold lines_count; rewrite typed_count; lia).
  split; [|split].
  - destruct (append_ok compile capacity errtext fs o ed ls a b m t ps H G Da) as (ed'&E&B&C&_); try lia.
    exists ed'. split; auto. eexists. split; [exact B|]. rewrite (appended_fits ls) in C by (auto; lia).
    split; auto. rewrite count_inserted; lia.
  - destruct (change_ok compile capacity errtext fs o ed ls a b m n t ps H G Da Db) as (ed'&E&B&C&_); auto; try lia.
    exists ed'. split; auto. eexists. split; [exact B|].
    replace (m + linesIn t) with (m - 1 + 1 + linesIn t) in C by lia.
    rewrite (appended_fits ls) in C by (auto; lia).
    split; auto. rewrite count_inserted; lia.
  - destruct (delete_cmd_ok compile capacity errtext fs o ed ls a b m n t ps H G Da Db) as (ed'&E&B&C&_); auto; try lia.
    exists ed'. split; auto. eexists. split; [exact B|]. split; auto. rewrite C.
    unfold lines_count, upto, after in *. rewrite app_length, firstn_length, skipn_length. lia.
Qed.
Print Assumptions C53_current_line_partial.

(* C54 refuted, for every file whose last line lacks its newline: appending after the last line crashes. *)
Theorem C54_append_after_open_line_refuted : forall compile capacity errtext fs o ed ls x a b t ps,
  holds ed (unlines ls ++ x) -> Forall ed_line (ls ++ [x]) -> x <> [] -> lines_count ls + 2 <= max_int64 ->
  denotes ed (ls ++ [x]) a (lines_count ls + 1) ->
  processCommand compile capacity errtext fs o ed (cmd_at ctappend a b t ps) = Crashes.
Proof. exact append_open_crashes. Qed.
Print Assumptions C54_append_after_open_line_refuted.
Example C54_nonvacuous : exists ed, holds ed (unlines [B "one"] ++ B "two") /\ Forall ed_line ([B "one"] ++ [B "two"]) /\
  denotes ed ([B "one"] ++ [B "two"]) aLast (lines_count [B "one"] + 1).
Proof.
  exists {| e_pt := new_piece_table (unlines [B "one"] ++ B "two") true 7; e_filename := []; e_current := 2 |}.
  split; [eapply fresh_holds with (cc := true); [vm_compute; intros Q; discriminate Q|reflexivity]|].
  split; [repeat constructor; apply easy_line; vm_compute; (reflexivity || discriminate)|].
  exact (den_last _ [B "one"; B "two"] (B "$") 0).
Qed.
(* C54, what is true: in an unmodified file the last line is deleted (and see C50 for files that end in a
   newline). *)
Theorem C54_delete_open_line_partial : forall compile capacity errtext fs o ed cc ls x n t ps,
  e_pt ed = new_piece_table (unlines ls ++ x) cc (len (unlines ls ++ x)) ->
  Forall ed_line (ls ++ [x]) -> x <> [] -> len (unlines ls ++ x) < max_int64 -> n = lines_count ls + 1 ->
  exists ed', processCommand compile capacity errtext fs o ed (cmd_at ctdelete (num_addr n) (num_addr n) t ps) = Val ([], ed', []) /\
    pt_string (e_pt ed') = Ok (unlines ls).
Proof. exact delete_open_fresh. Qed.
Print Assumptions C54_delete_open_line_partial.

(* C55 refuted, for every buffer that ends in a blank line: deleting that line does nothing. *)
Theorem C55_delete_blank_last_refuted : forall compile capacity errtext fs o ed ls n t ps,
  buffer ed (ls ++ [[]]) -> Forall ed_line ls -> n = lines_count ls + 1 -> n < max_int64 ->
  exists ed', processCommand compile capacity errtext fs o ed (cmd_at ctdelete (num_addr n) (num_addr n) t ps) = Val ([], ed', []) /\
    buffer ed' (ls ++ [[]]).
Proof. exact delete_blank_last. Qed.
Print Assumptions C55_delete_blank_last_refuted.
(* C55 refuted, for every first line that ends in \r: 1d leaves a blank line behind. *)
Theorem C55_delete_cr_line_refuted : forall compile capacity errtext fs o ed l r t ps,
  buffer ed ((l ++ [cr]) :: r) -> ed_line l -> len l + 1 < 65536 -> good r -> r <> [] ->
  exists ed', processCommand compile capacity errtext fs o ed (cmd_at ctdelete (num_addr 1) (num_addr 1) t ps) = Val ([], ed', []) /\
    buffer ed' ([] :: r).
Proof. exact delete_cr_first. Qed.
Print Assumptions C55_delete_cr_line_refuted.
(* C55, what is true: with \r inside lines and blank lines before the last one, deleting and printing
   address the right lines.  [good] excludes only \r at the end of a line and a blank last line. *)
Theorem C55_inner_cr_and_blank_partial : forall compile capacity errtext, (forall n, (n <= capacity n)%nat) ->
  forall fs o ed ls m n t ps, buffer ed ls -> good ls -> 1 <= m <= n -> n <= lines_count ls ->
  processCommand compile capacity errtext fs o ed (cmd_at ctprint (num_addr m) (num_addr n) t ps) =
    Val ([], ed, join [nl] (between ls m n)) /\
  exists ed', processCommand compile capacity errtext fs o ed (cmd_at ctdelete (num_addr m) (num_addr n) t ps) = Val ([], ed', []) /\
    buffer ed' (upto ls (m - 1) ++ after ls n).
Proof.
  intros compile capacity errtext C fs o ed ls m n t ps H G M N. pose proof (lines_range _ _ H G).
  assert (Da : denotes ed ls (num_addr m) m) by (apply denotes_num; unfold min_int64; lia).
  assert (Db : denotes ed ls (num_addr n) n) by (apply denotes_num; unfold min_int64; lia).
  split; [apply (printing_ok compile capacity errtext C fs o ed ls _ _ m n t ps); auto|].
  destruct (delete_cmd_ok compile capacity errtext fs o ed ls (num_addr m) (num_addr n) m n t ps) as (ed'&E&B&_); eauto using num_not_last.
Qed.
Print Assumptions C55_inner_cr_and_blank_partial.
Example C55_nonvacuous : good [B "a" ++ [cr] ++ B "b"; []; B "c"]. Proof. easy_good. Qed.

(* C56: at every point of Write, whichever system calls fail, the edited file holds its old contents or
   the whole buffer, and no file other than FILE and FILE.swp differs; after success it holds the buffer
   and FILE.swp is gone. *)
Theorem C56_write_is_atomic : forall errtext fs o ed data states r,
  pt_string (e_pt ed) = Ok data -> Write errtext fs o ed = (states, r) ->
  (forall s, In s states ->
     (s (e_filename ed) = fs (e_filename ed) \/ s (e_filename ed) = Some data) /\
     (forall m, m <> e_filename ed -> m <> swp (e_filename ed) -> s m = fs m)) /\
  (forall ed', r = Val (ed', None) ->
     final fs states (e_filename ed) = Some data /\ final fs states (swp (e_filename ed)) = None).
Proof. exact write_states_spec. Qed.
Print Assumptions C56_write_is_atomic.
(* C56: meanwhile FILE.swp holds what it did before, nothing, or the beginning of the buffer; when w ends, however
   it ends, FILE.swp is gone, unless nothing was tried or its removal fails. *)
Theorem C56_swap_file : forall errtext fs o ed data states r,
  pt_string (e_pt ed) = Ok data -> Write errtext fs o ed = (states, r) ->
  let tmp := e_filename ed ++ B ".swp" in
  (forall s, In s states -> s tmp = fs tmp \/ s tmp = None \/ exists written missing, data = written ++ missing /\ s tmp = Some written) /\
  (states <> [] -> f_remove o = false -> final fs states tmp = None).
Proof. exact write_tmp. Qed.
Print Assumptions C56_swap_file.
(* C56: after success the editor still holds the same text under the same name. *)
Theorem C56_write_keeps_buffer : forall errtext fs o ed data states ed',
  pt_string (e_pt ed) = Ok data -> len data <= max_int64 ->
  Write errtext fs o ed = (states, Val (ed', None)) -> holds ed' data /\ e_filename ed' = e_filename ed.
Proof. exact write_reloads. Qed.
Print Assumptions C56_write_keeps_buffer.
Example C56_nonvacuous : exists states r, 
  Write [] (fun n => if beqb n (B "f") then Some (B "old") else None)
    {| f_stat := false; f_open := false; f_chunks := [3%nat; 5%nat]; f_write := false; f_close := false;
       f_rename := false; f_remove := false; f_reopen := false; f_fstat := false |} demo_ed = (states, r) /\
  List.length states = 5%nat /\ (exists ed', r = Val (ed', None)) /\
  map (fun s => s (B "f.swp")) states = [Some []; Some (B "one"); Some (B "one" ++ [nl] ++ B "two" ++ [nl]);
    Some (unlines demo_lines); None].
Proof. eexists _, _. split; [vm_compute; reflexivity|]. split; [reflexivity|]. split; [eexists; reflexivity|]. reflexivity. Qed.

(* C57 refuted, for every file that is not empty and every failure of a system call before the reopening:
   afterwards every command that needs the buffer crashes. *)
Theorem C57_failed_write_refuted : forall compile capacity errtext fs o ed content c, content <> [] ->
  e_pt ed = new_piece_table content true (len content) -> write_fails o = true -> c_typ c = ctwrite ->
  exists states ed', processCommand compile capacity errtext fs o ed c = Val (states, ed', B "?" ++ errtext) /\
    forall fs' o' c', touches_buffer (c_typ c') -> processCommand compile capacity errtext fs' o' ed' c' = Crashes.
Proof. exact failed_write_breaks. Qed.
Print Assumptions C57_failed_write_refuted.
Example C57_nonvacuous : exists o, write_fails o = true /\ e_pt demo_ed = new_piece_table (unlines demo_lines) true (len (unlines demo_lines)).
Proof. exists {| f_stat := false; f_open := false; f_chunks := []; f_write := true; f_close := false; f_rename := false;
  f_remove := false; f_reopen := false; f_fstat := false |}. split; reflexivity. Qed.
(* C57, what is true: if the text does not come from a file that can be closed, a failed w changes nothing. *)
Theorem C57_failed_write_partial : forall errtext fs o ed states ed' m, closable (e_pt ed) = false ->
  Write errtext fs o ed = (states, Val (ed', Some m)) -> ed' = ed.
Proof.
  intros errtext fs o ed states ed' m C W. unfold Write in W. destruct (pt_string (e_pt ed)); try discriminate.
  assert (P : set_pt ed (pt_close (e_pt ed)) = ed) by (unfold pt_close; rewrite C; now destruct ed).
  rewrite P in W. destruct (f_stat o || _); [inversion W; auto|].
  destruct (WriteFile fs o _ a) as [sts ok]. destruct ok; cbn [negb] in W; [|inversion W; auto].
  destruct (f_rename o); [inversion W; auto|]. injection W as _ W. now apply edit_fails in W.
Qed.
Print Assumptions C57_failed_write_partial.

(* C58 refuted: the outcome of w does not depend on its addresses or file name at all; whatever they are,
   FILE is never created or changed (unless it is the edited file) and success writes the whole buffer to
   the edited file. *)
Theorem C58_w_ignores_its_arguments_refuted : forall compile capacity errtext fs o ed a b t ps,
  processCommand compile capacity errtext fs o ed (cmd_at ctwrite a b t ps) =
  processCommand compile capacity errtext fs o ed (cmd_at ctwrite zero_address zero_address [] []).
Proof. intros. apply write_ignores; reflexivity. Qed.
Print Assumptions C58_w_ignores_its_arguments_refuted.
Theorem C58_w_file_name_refuted : forall compile capacity errtext fs o ed data a b t file ps states ed' r,
  pt_string (e_pt ed) = Ok data -> file <> e_filename ed -> file <> swp (e_filename ed) ->
  processCommand compile capacity errtext fs o ed (cmd_at ctwrite a b t (file :: ps)) = Val (states, ed', r) ->
  final fs states file = fs file.
Proof.
  intros compile capacity errtext fs o ed data a b t file ps states ed' r D N1 N2 P.
  rewrite C58_w_ignores_its_arguments_refuted in P. unfold processCommand in P.
  change (c_typ (setDefaultAddresses (cmd_at ctwrite zero_address zero_address [] []))) with ctwrite in P.
  cbv iota in P. destruct (Write errtext fs o ed) as [sts q] eqn:W.
  destruct q as [[ed1 e]| |]; cbn [obind] in P; try discriminate. injection P as <- _ _.
  destruct (write_states_spec errtext fs o ed data sts _ D W) as [S _].
  destruct (last_in sts fs) as [Q|Q]; unfold final; [now rewrite <- Q|].
  now apply (S _ Q).
Qed.
Print Assumptions C58_w_file_name_refuted.
Example C58_nonvacuous : exists states ed', 
  processCommand (fun _ => None) (fun n => n) [] (fun n => if beqb n (B "f") then Some (B "old") else None) no_faults demo_ed
    (cmd_at ctwrite (num_addr 1) (num_addr 2) [] [B "other"]) = Val (states, ed', []) /\
  final (fun _ => None) states (B "other") = None /\ final (fun _ => None) states (B "f") = Some (unlines demo_lines).
Proof. eexists _, _. split; [vm_compute; reflexivity|]. split; reflexivity. Qed.

(* C64, what is true: from a current line in the buffer, /re/ denotes the first matching line after it,
   wrapping around to and including it; the search ends; -1 means that no line matches.  Missing: a report
   of the failure (refuted below). *)
Theorem C64_regex_address_partial : forall compile ed ls re matches, buffer ed ls -> good ls ->
  1 <= e_current ed <= lines_count ls -> slashless re -> compile re = Some matches ->
  addrLine compile ed (regex_addr re) =
  Val match find (fun x => matches (nth (Z.to_nat (x - 1)) ls [])) (search_order ls (e_current ed)) with
      | Some x => x
      | None => -1
      end.
Proof. exact regex_addr_ok. Qed.
Print Assumptions C64_regex_address_partial.
Example C64_nonvacuous : slashless (B "o") /\ search_order demo_lines 2 = [3; 4; 1; 2].
Proof.
  split; [|reflexivity]. split; [intros r; discriminate|]. split; [|discriminate].
  intros r E. apply (f_equal (fun l => last l "x"%char)) in E. rewrite last_last in E. discriminate.
Qed.
(* C64 refuted: if the current line is 0 or past the end (as C53 leaves it) and no line matches, the search
   never ends. *)
Theorem C64_search_ends_refuted : forall compile ed ls re matches, buffer ed ls -> good ls -> ls <> [] ->
  0 <= e_current ed -> ~ 1 <= e_current ed <= lines_count ls -> slashless re -> compile re = Some matches ->
  (forall l, In l ls -> matches l = false) -> addrLine compile ed (regex_addr re) = Hangs.
Proof. exact regex_hangs. Qed.
Print Assumptions C64_search_ends_refuted.
(* C64 refuted: the model's [Hangs] is a real one, for the loop does not end in any number of rounds. *)
Theorem C64_hang_is_real_refuted : forall matches ls cur fuel n, (forall l, In l ls -> matches l = false) ->
  ~ 1 <= cur <= lines_count ls -> 1 <= n <= lines_count ls -> search matches ls cur n fuel = Hangs.
Proof. exact search_hangs. Qed.
Print Assumptions C64_hang_is_real_refuted.
(* C64 refuted: in an empty buffer the search crashes. *)
Theorem C64_empty_buffer_refuted : forall compile ed re matches, buffer ed [] -> slashless re ->
  compile re = Some matches -> addrLine compile ed (regex_addr re) = Crashes.
Proof.
  intros compile ed re matches H (S1&S2&S3) M. unfold addrLine. cbn [regex_addr a_typ a_text a_offset].
  rewrite trim_slash_spec by auto. unfold regexMatch. rewrite (getLines_good ed []); auto.
  - cbn [obind]. now rewrite M.
  - split; auto. intros p E. destruct p; discriminate.
Qed.
Print Assumptions C64_empty_buffer_refuted.
(* a search that finds nothing, or an expression that does not compile, gives the address -1 *)
Definition finds_nothing (compile : bytes -> option (bytes -> bool)) (ed : itor) (ls : list bytes) (re : bytes) : Prop :=
  compile re = None \/
  exists matches, compile re = Some matches /\ 1 <= e_current ed <= lines_count ls /\ forall l, In l ls -> matches l = false.
Lemma finds_nothing_addr : forall compile ed ls re, buffer ed ls -> good ls -> slashless re ->
  finds_nothing compile ed ls re -> addrLine compile ed (regex_addr re) = Val (-1).
Proof.
  intros compile ed ls re H G Sl [N|(m&M&C&N)].
  - destruct Sl as (S1&S2&S3). unfold addrLine. cbn [regex_addr a_typ a_text a_offset].
    rewrite trim_slash_spec by auto. unfold regexMatch. rewrite (getLines_good ed ls); auto. cbn [obind]. now rewrite N.
  - rewrite (regex_addr_ok compile ed ls re m) by auto. destruct (find _ _) as [x|] eqn:E; [|reflexivity].
    apply find_some in E as [I X]. exfalso. rewrite N in X; [discriminate|]. apply nth_In.
    unfold search_order in I. apply in_map_iff in I as (y&<-&I).
    unfold lines_count in *. apply in_app_or in I as [I|I]; apply in_seq in I; lia.
Qed.
(* C64 refuted: a failed search and a wrong expression are never reported.  The commands go on with line -1: d
   replies as if it had succeeded, deletes nothing and leaves the current line at -1; a adds its text before the
   first line; p crashes. *)
Theorem C64_unmatched_reported_refuted : forall compile capacity errtext fs o ed ls re t b ps,
  buffer ed ls -> good ls -> slashless re -> finds_nothing compile ed ls re ->
  addrLine compile ed (regex_addr re) = Val (-1) /\
  (exists ed', processCommand compile capacity errtext fs o ed
      (cmd_at ctdelete (regex_addr re) (regex_addr re) t ps) = Val ([], ed', []) /\ buffer ed' ls /\ e_current ed' = -1) /\
  (len (unlines ls) + len t + 1 <= max_int64 ->
   exists ed', processCommand compile capacity errtext fs o ed (cmd_at ctappend (regex_addr re) b t ps) = Val ([], ed', []) /\
     buffer ed' (typed t ++ ls)) /\
  processCommand compile capacity errtext fs o ed (cmd_at ctprint (regex_addr re) (regex_addr re) t ps) = Crashes.
Proof.
  intros compile capacity errtext fs o ed ls re t b ps H G Sl F. pose proof (finds_nothing_addr _ _ _ _ H G Sl F) as A.
  split; [exact A|]. split; [|split].
  - unfold processCommand. rewrite no_default by reflexivity. cbn [cmd_at c_typ c_start c_end]. rewrite A. cbn [obind].
    unfold Delete. rewrite (addr_good _ ls); auto. cbn [obind].
    change (wrap64 (-1 + 1)) with 0. rewrite (addr_good _ ls); auto. cbn [obind].
    change (upto ls (-1 - 1)) with (@nil bytes). change (upto ls (0 - 1)) with (@nil bytes).
    change (len (unlines []) - len (unlines [])) with 0. change (len (unlines [])) with 0.
    pose proof (table_for_del (e_pt ed) (unlines ls) 0 0 H) as Q. change (cut_out (unlines ls) 0 0) with (unlines ls) in Q.
    assert (H' : buffer (set_pt ed (pt_delete (e_pt ed) 0 0)) ls).
    { apply Q. cbn. unfold len. lia. }
    assert (A' : addrLine compile (set_pt ed (pt_delete (e_pt ed) 0 0)) (regex_addr re) = Val (-1)).
    { apply (finds_nothing_addr _ _ ls); auto. }
    rewrite A'. cbn [obind]. eexists. split; [reflexivity|]. split; [exact H'|reflexivity].
  - intros L. unfold processCommand. rewrite no_default by reflexivity. cbn [cmd_at c_typ c_start c_text]. rewrite A. cbn [obind].
    destruct (insert_good ed ls (wrap64 (-1 + 1)) t H G L) as (pt&E&T). rewrite E. cbn [obind].
    eexists. split; [reflexivity|]. exact T.
  - unfold processCommand. rewrite no_default by reflexivity. cbn [cmd_at c_typ c_start c_end]. rewrite A. cbn [obind].
    unfold Print. rewrite (getLines_good ed ls); auto.
Qed.
Print Assumptions C64_unmatched_reported_refuted.
Example C64_unmatched_nonvacuous : finds_nothing (fun _ => Some (fun _ => false)) demo_ed demo_lines (B "x") /\
  finds_nothing (fun _ => None) demo_ed demo_lines (B "[").
Proof. split; [right|now left]. eexists. split; [reflexivity|]. split; [vm_compute; split; discriminate|auto]. Qed.
(* C64 refuted: an expression ending in an escaped slash is mangled, whatever stands before it: the expression
   that is compiled ends in a backslash. *)
Theorem C64_escaped_slash_refuted : forall x, (forall r, x <> "/"%char :: r) ->
  trim_slash (B "/" ++ (x ++ B "\/") ++ B "/") = x ++ B "\".
Proof.
  intros x H. unfold trim_slash. change (B "/") with ["/"%char]. change (B "\/") with ["\"; "/"]%char.
  cbn [app trim_slash_left]. rewrite Ascii.eqb_refl.
  assert (T : trim_slash_left ((x ++ ["\"; "/"]%char) ++ ["/"%char]) = (x ++ ["\"; "/"]%char) ++ ["/"%char]).
  { destruct x as [|c r]; [reflexivity|]. cbn. destruct (Ascii.eqb_spec c "/"); auto. subst. now elim (H r). }
  rewrite T, !rev_app_distr. cbn [rev app trim_slash_left]. rewrite !Ascii.eqb_refl. cbn [Ascii.eqb Bool.eqb].
  change (B "\") with ["\"%char]. cbn. now rewrite rev_involutive.
Qed.
Print Assumptions C64_escaped_slash_refuted.

(* C65: explicit addresses are never replaced. *)
Theorem C65_explicit_addresses_kept : forall cmd,
  (is_null (c_start cmd) = false -> setDefaultAddresses cmd = cmd) /\
  (is_null (c_end cmd) = false -> c_end (setDefaultAddresses cmd) = c_end cmd) /\
  c_typ (setDefaultAddresses cmd) = c_typ cmd /\ c_text (setDefaultAddresses cmd) = c_text cmd /\
  c_params (setDefaultAddresses cmd) = c_params cmd /\ c_dest (setDefaultAddresses cmd) = c_dest cmd.
Proof.
  intros cmd. unfold setDefaultAddresses. destruct (is_null (c_start cmd)); repeat split; try discriminate; auto.
  intros ->. reflexivity.
Qed.
Print Assumptions C65_explicit_addresses_kept.
(* C65, what is true: the defaults are those of POSIX for all commands but g, G, v, V and w. *)
Theorem C65_defaults_partial : forall t,
  t <> ctglobal -> t <> ctinteractive -> t <> ctglobalInverse -> t <> ctinteractiveInverse -> t <> ctwrite ->
  default_right t.
Proof.
  intros t N1 N2 N3 N4 N5 cmd T S E s e P. unfold setDefaultAddresses. rewrite S, E, T.
  cbn [c_start c_end]. destruct t; try congruence; cbn in P; try discriminate; injection P as <- <-;
    (split; [reflexivity|intros e' Q; now inversion Q]).
Qed.
Print Assumptions C65_defaults_partial.
(* C65 refuted: for g, G, v, V and w the range starts at the current line instead of line 1. *)
Theorem C65_defaults_refuted : forall t,
  t = ctglobal \/ t = ctinteractive \/ t = ctglobalInverse \/ t = ctinteractiveInverse \/ t = ctwrite ->
  ~ default_right t.
Proof.
  intros t T D. set (c := {| c_typ := t; c_start := zero_address; c_end := zero_address; c_dest := zero_address; c_text := []; c_params := [] |}).
  destruct T as [-> |[-> |[-> |[-> | ->]]]]; destruct (D c eq_refl eq_refl eq_refl _ _ eq_refl) as [X _]; discriminate.
Qed.
Print Assumptions C65_defaults_refuted.

(* C66 refuted, for every unmodified buffer and reversed range: d succeeds silently and repeats the lines
   between. *)
Theorem C66_reversed_delete_refuted : forall compile capacity errtext fs o ed cc ls m n t ps,
  e_pt ed = new_piece_table (unlines ls) cc (len (unlines ls)) -> good ls -> len (unlines ls) <= max_int64 ->
  0 <= n < m -> m <= lines_count ls ->
  exists ed', processCommand compile capacity errtext fs o ed (cmd_at ctdelete (num_addr m) (num_addr n) t ps) = Val ([], ed', []) /\
    pt_string (e_pt ed') = Ok (unlines (upto ls (m - 1) ++ after ls n)).
Proof. exact delete_reversed. Qed.
Print Assumptions C66_reversed_delete_refuted.
Example C66_nonvacuous : unlines (upto demo_lines (4 - 1) ++ after demo_lines 1) =
  unlines [B "one"; B "two"; B ""; B "two"; B ""; B "four"].
Proof. reflexivity. Qed.
(* C66 refuted, for every buffer: p crashes on a reversed range, or prints nothing when it is off by one. *)
Theorem C66_reversed_print_refuted : forall compile capacity errtext, (forall n, (n <= capacity n)%nat) ->
  forall fs o ed ls m n t ps, buffer ed ls -> good ls -> 0 <= n < m -> m <= lines_count ls ->
  processCommand compile capacity errtext fs o ed (cmd_at ctprint (num_addr m) (num_addr n) t ps) =
  if m =? n + 1 then Val ([], ed, []) else Crashes.
Proof.
  intros compile capacity errtext C fs o ed ls m n t ps H G N M. pose proof (lines_range _ _ H G) as R.
  unfold processCommand. rewrite no_default by reflexivity. cbn [cmd_at c_typ c_start c_end].
  rewrite !addr_num_line by (unfold min_int64; lia). cbn [obind]. rewrite (print_reversed capacity ed ls) by (auto; lia).
  pose proof (C (List.length ls)). unfold lines_count in *.
  destruct (m =? n + 1); auto. destruct (n <=? Z.of_nat (capacity (List.length ls))) eqn:E; auto. lia.
Qed.
Print Assumptions C66_reversed_print_refuted.

(* C70 refuted, for every valid a: the loop writes an empty line although the command prints nothing. *)
Theorem C70_silent_commands_refuted : forall compile capacity errtext fs o k ed ls n t,
  buffer ed ls -> good ls -> 0 <= n <= lines_count ls -> len (unlines ls) + len t + 1 <= max_int64 ->
  fst (command_loop compile capacity errtext fs o k ed [concrete (Append n t)]) = [[nl]].
Proof.
  intros compile capacity errtext fs o k ed ls n t H G N F. pose proof (lines_range _ _ H G).
  cbn [command_loop concrete cmd_at c_typ].
  destruct (append_ok compile capacity errtext fs (o k) ed ls (num_addr n) zero_address n t [] H G) as (ed'&E&_); auto.
  { apply denotes_num. unfold min_int64. lia. }
  unfold cmd_at in *. cbv iota. rewrite E. reflexivity.
Qed.
Print Assumptions C70_silent_commands_refuted.

(* C71 refuted, for every buffer of two or more lines: $c puts the new text before the last but one line. *)
Theorem C71_change_last_line_refuted : forall compile capacity errtext fs o ed p x y t ps,
  buffer ed (p ++ [x; y]) -> good (p ++ [x; y]) -> good (p ++ [x]) -> Forall ed_line (typed t) ->
  len (unlines (p ++ [x; y])) + len t + 1 <= max_int64 ->
  exists ed', processCommand compile capacity errtext fs o ed (cmd_at ctchange aLast aLast t ps) = Val ([], ed', []) /\
    buffer ed' (p ++ typed t ++ [x]).
Proof. exact change_last. Qed.
Print Assumptions C71_change_last_line_refuted.
Example C71_nonvacuous : good ([B "one"] ++ [B "two"; B "three"]) /\ good ([B "one"] ++ [B "two"]) /\ Forall ed_line (typed (B "new")).
Proof. split; [easy_good|]. split; [easy_good|]. repeat constructor; apply easy_line; vm_compute; (reflexivity || discriminate). Qed.

(* C72 refuted: an address that is not a line of the buffer crashes p (line 0) and n (past the end). *)
Theorem C72_invalid_address_refuted : forall compile capacity errtext fs o ed ls n t ps, buffer ed ls -> good ls ->
  lines_count ls < n < max_int64 ->
  processCommand compile capacity errtext fs o ed (cmd_at ctprint (num_addr 0) (num_addr 0) t ps) = Crashes /\
  processCommand compile capacity errtext fs o ed (cmd_at ctnumber (num_addr n) (num_addr n) t ps) = Crashes.
Proof.
  intros compile capacity errtext fs o ed ls n t ps H G N. split.
  - apply zero_line_crashes.
    + eexists. apply (getLines_good ed ls); auto.
    + exists 0. apply addr_num_line. unfold min_int64, max_int64. lia.
  - now apply (number_past_crashes compile capacity errtext fs o ed ls).
Qed.
Print Assumptions C72_invalid_address_refuted.

(* C73: String ends in a newline and is the text, with one added if it lacks it. *)
Theorem C73_string_partial : forall ed s c, pt_string (e_pt ed) = Ok (s ++ [c]) ->
  String_ ed = Val (if Ascii.eqb c nl then s ++ [c] else s ++ [c] ++ [nl]).
Proof.
  intros ed s c E. unfold String_. rewrite E. cbn [of_res obind]. rewrite rev_app_distr. cbn [rev app].
  destruct (Ascii.eqb c nl); auto. now rewrite <- app_assoc.
Qed.
Print Assumptions C73_string_partial.
(* C73 refuted: String crashes on the empty buffer, such as the one of NewEditor. *)
Theorem C73_string_refuted : String_ NewEditor = Crashes /\ forall ed, pt_string (e_pt ed) = Ok [] -> String_ ed = Crashes.
Proof. split; [reflexivity|]. intros ed E. unfold String_. rewrite E. reflexivity. Qed.
Print Assumptions C73_string_refuted.

(* C74 refuted, for every buffer and range: p leaves the current line where it was. *)
Theorem C74_print_sets_current_refuted : forall compile capacity errtext fs o ed c states ed' r,
  c_typ c = ctprint \/ c_typ c = ctnumber ->
  processCommand compile capacity errtext fs o ed c = Val (states, ed', r) -> e_current ed' = e_current ed.
Proof.
  intros compile capacity errtext fs o ed c states ed' r T P.
  apply printing_pure in P as [_ ->]; auto. destruct T; auto.
Qed.
Print Assumptions C74_print_sets_current_refuted.
(* C74: a lone address does make its line the current one, and prints it. *)
Theorem C74_lone_address_partial : forall compile capacity errtext, (forall n, (n <= capacity n)%nat) ->
  forall fs o ed ls a b n t ps, buffer ed ls -> good ls -> denotes ed ls a n -> 1 <= n <= lines_count ls ->
  exists ed', processCommand compile capacity errtext fs o ed (cmd_at ctnull a b t ps) =
    Val ([], ed', nth (Z.to_nat (n - 1)) ls []) /\ e_current ed' = n /\ e_pt ed' = e_pt ed.
Proof.
  intros compile capacity errtext C fs o ed ls a b n t ps H G D N. pose proof (lines_range _ _ H G) as R.
  unfold processCommand. rewrite no_default by (cbn; eapply denotes_start; eauto).
  cbn [cmd_at c_typ c_start]. rewrite (addr_denotes compile ed ls a n) by (auto; unfold min_int64; lia). cbn [obind].
  rewrite (print_good capacity C (set_current ed n) ls n n) by (auto; lia). cbn [obind].
  exists (set_current ed n). split; [|split; reflexivity]. f_equal. f_equal. unfold between.
  replace (Z.to_nat (n - n + 1)) with 1%nat by lia.
  destruct (skipn (Z.to_nat (n - 1)) ls) as [|l r] eqn:S.
  { assert (Q : List.length (skipn (Z.to_nat (n - 1)) ls) = O) by now rewrite S. rewrite skipn_length in Q.
    unfold lines_count in N. lia. }
  cbn [firstn join]. rewrite <- (firstn_skipn (Z.to_nat (n - 1)) ls), app_nth2, S; rewrite firstn_length; unfold lines_count in N; [|lia].
  replace (Z.to_nat (n - 1) - _)%nat with O by lia. reflexivity.
Qed.
Print Assumptions C74_lone_address_partial.

(* C75: e FILE makes the contents of FILE the buffer and its last line the current one; if it fails the
   editor is unchanged. *)
Theorem C75_edit_loads : forall errtext fs o ed f content, fs f = Some content -> f_reopen o = false -> f_fstat o = false ->
  forall ls, len content <= max_int64 -> text_lines content = Val ls ->
    exists ed', Edit errtext fs o ed f = Val (ed', None) /\ holds ed' content /\ e_filename ed' = f /\
      e_current ed' = lines_count (fst ls).
Proof. exact edit_ok. Qed.
Print Assumptions C75_edit_loads.
Theorem C75_failed_edit_changes_nothing : forall errtext fs o ed f ed' m,
  Edit errtext fs o ed f = Val (ed', Some m) -> ed' = ed.
Proof. exact edit_fails. Qed.
Print Assumptions C75_failed_edit_changes_nothing.
Theorem C75_lines_of_a_file : forall ls, good ls -> text_lines (unlines ls) = Val (ls, List.length ls).
Proof. exact text_lines_good. Qed.
Print Assumptions C75_lines_of_a_file.
Example C75_nonvacuous : exists ed', Edit [] (fun n => if beqb n (B "f") then Some (unlines demo_lines) else None)
  no_faults zero_itor (B "f") = Val (ed', None) /\ e_current ed' = 4.
Proof. eexists. split; [vm_compute; reflexivity|reflexivity]. Qed.

(* C76 refuted: in the editor started without a file (the zero Itor of cmd/ed) the first a works, and
   every later a or i crashes. *)
Theorem C76_no_file_refuted : forall compile capacity errtext fs o t n, 0 <= n < max_int64 - 1 ->
  exists ed', processCommand compile capacity errtext fs o zero_itor (cmd_at ctappend (num_addr n) zero_address t []) = Val ([], ed', []) /\
    pt_string (e_pt ed') = Ok (t ++ [nl]) /\
    (forall fs' o' a b t' ps x, x = ctappend \/ x = ctinsert -> addrLine compile ed' a <> Hangs -> is_null a = false ->
       processCommand compile capacity errtext fs' o' ed' (cmd_at x a b t' ps) = Crashes).
Proof. exact zero_append_once. Qed.
Print Assumptions C76_no_file_refuted.
