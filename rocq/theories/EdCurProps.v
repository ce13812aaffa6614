(* Property C53, exactly: the current line after each command and after every history of commands. *)
From Verif Require Import GoBase GoFacts PieceTableModel PieceTableSpec EdModel EdSpec EdProofs EdProofs2 EdProps.
Local Open Scope Z_scope.

(* the line the editor makes current when [cur] was current before *)
Definition current_after (cur : Z) (c : acmd) : Z :=
  match c with
  | Append n t => n + lines_count (typed t) + 1
  | Change m n t => m + lines_count (typed t)
  | Delete_ m n => m
  | _ => cur
  end.
Fixpoint current_finally (cur : Z) (h : list acmd) : Z :=
  match h with [] => cur | c :: r => current_finally (current_after cur c) r end.
(* the current line as POSIX has it: the last line added; after a deletion the line that follows, or the last *)
Definition posix_current (ls : list bytes) (cur : Z) (c : acmd) : Z :=
  match c with
  | Append n t => n + lines_count (typed t)
  | Insert_ n t => Z.max 0 (n - 1) + lines_count (typed t)
  | Change m n t => m - 1 + lines_count (typed t)
  | Delete_ m n => Z.min m (lines_count (aedit ls c))
  | Print_ m n | Number_ m n => n
  | LineNo n => cur
  end.
(* the history fits in memory with its line numbers *)
Fixpoint roomy (ls : list bytes) (h : list acmd) : Prop :=
  match h with [] => True | c :: r => len (unlines ls) + len (text_of c) + 2 <= max_int64 /\ roomy (aedit ls c) r end.

Lemma step_current : forall compile capacity errtext, (forall n, (n <= capacity n)%nat) ->
  forall fs o ed ls c, buffer ed ls -> ordinary ls c -> valid ls c ->
  len (unlines ls) + len (text_of c) + 2 <= max_int64 ->
  exists ed', processCommand compile capacity errtext fs o ed (concrete c) = Val ([], ed', areply ls c) /\
    buffer ed' (aedit ls c) /\ e_current ed' = current_after (e_current ed) c.
Proof.
  intros compile capacity errtext CO fs o ed ls c H O V F. pose proof O as [G Gc]. pose proof (lines_range _ _ H G).
  destruct c as [n t|n t|m n t|m n|m n|m n|n]; cbn [valid concrete aedit areply text_of current_after] in *.
  - destruct (append_ok compile capacity errtext fs o ed ls (num_addr n) zero_address n t []) as (ed'&E&B&C&_); auto; try lia.
    + apply denotes_num. unfold min_int64; lia.
    + exists ed'. rewrite (appended_fits ls) in C by (auto; lia). auto.
  - destruct (insert_ok compile capacity errtext fs o ed ls (num_addr n) zero_address n t []) as (ed'&E&B&C&_); auto; try lia.
    + apply denotes_num. unfold min_int64; lia.
    + eauto.
  - destruct (change_ok compile capacity errtext fs o ed ls (num_addr m) (num_addr n) m n t []) as (ed'&E&B&C&_); auto;
      try (apply denotes_num; unfold min_int64; lia); try lia; try apply num_not_last.
    exists ed'. replace (m + linesIn t) with (m - 1 + 1 + linesIn t) in C by lia.
    rewrite (appended_fits ls) in C by (auto; lia). repeat split; auto. lia.
  - destruct (delete_cmd_ok compile capacity errtext fs o ed ls (num_addr m) (num_addr n) m n [] []) as (ed'&E&B&C&_); auto;
      try (apply denotes_num; unfold min_int64; lia); try lia; try apply num_not_last. eauto.
  - exists ed. split; auto. apply (printing_ok compile capacity errtext CO fs o ed ls); auto;
      try (apply denotes_num; unfold min_int64; lia); lia.
  - exists ed. split; auto. apply (printing_ok compile capacity errtext CO fs o ed ls); auto;
      try (apply denotes_num; unfold min_int64; lia); lia.
  - exists ed. split; auto. apply (line_number_ok compile capacity errtext fs o ed ls); auto;
      try (apply denotes_num; unfold min_int64; lia); unfold min_int64; lia.
Qed.

(* C53, exactly, for a command with numeric addresses on a buffer of ordinary lines: which line becomes current,
   and when it is a line of the buffer.  Missing: buffers that are not of ordinary lines, as for C51. *)
Theorem C53_exact_partial : forall compile capacity errtext, (forall n, (n <= capacity n)%nat) ->
  forall fs o ed ls c, buffer ed ls -> ordinary ls c -> valid ls c ->
  len (unlines ls) + len (text_of c) + 2 <= max_int64 ->
  exists ed', processCommand compile capacity errtext fs o ed (concrete c) = Val ([], ed', areply ls c) /\
    buffer ed' (aedit ls c) /\ e_current ed' = current_after (e_current ed) c /\
    match c with
    | Append n _ | Change _ n _ | Delete_ _ n =>
        1 <= e_current ed' <= lines_count (aedit ls c) + 1 /\ (e_current ed' <= lines_count (aedit ls c) <-> n < lines_count ls)
    | _ => e_current ed' = e_current ed
    end.
Proof.
  intros compile capacity errtext CO fs o ed ls c H O V F.
  destruct (step_current compile capacity errtext CO fs o ed ls c H O V F) as (ed'&E&B&C).
  exists ed'. repeat (split; auto). rewrite C.
  destruct c as [n t|n t|m n t|m n|m n|m n|n]; cbn [valid aedit current_after] in *; auto.
  - assert (1 <= lines_count (typed t)) by (unfold lines_count; rewrite typed_count; lia).
    rewrite count_inserted by lia. lia.
  - assert (1 <= lines_count (typed t)) by (unfold lines_count; rewrite typed_count; lia).
    rewrite count_inserted by lia. lia.
  - assert (Q : lines_count (upto ls (m - 1) ++ after ls n) = m - 1 + (lines_count ls - n)).
    { unfold lines_count, upto, after in *. rewrite app_length, firstn_length, skipn_length. lia. }
    rewrite Q. lia.
Qed.
Print Assumptions C53_exact_partial.

(* C53 refuted, for every a and every c: the current line is the one after the last line added. *)
Theorem C53_not_the_last_added_refuted : forall compile capacity errtext, (forall n, (n <= capacity n)%nat) ->
  forall fs o ed ls c, buffer ed ls -> ordinary ls c -> valid ls c ->
  len (unlines ls) + len (text_of c) + 2 <= max_int64 ->
  (exists n t, c = Append n t) \/ (exists m n t, c = Change m n t) ->
  exists ed', processCommand compile capacity errtext fs o ed (concrete c) = Val ([], ed', areply ls c) /\
    e_current ed' = posix_current ls (e_current ed) c + 1.
Proof.
  intros compile capacity errtext CO fs o ed ls c H O V F K.
  destruct (step_current compile capacity errtext CO fs o ed ls c H O V F) as (ed'&E&_&C).
  exists ed'. split; auto. rewrite C.
  destruct K as [(n&t& ->)|(m&n&t& ->)]; cbn [current_after posix_current]; lia.
Qed.
Print Assumptions C53_not_the_last_added_refuted.

(* C53, what is true of a deletion: the current line is the POSIX one exactly when it does not reach the end. *)
Theorem C53_after_delete_partial : forall compile capacity errtext, (forall n, (n <= capacity n)%nat) ->
  forall fs o ed ls m n, buffer ed ls -> good ls -> 1 <= m <= n -> n <= lines_count ls -> len (unlines ls) + 2 <= max_int64 ->
  exists ed', processCommand compile capacity errtext fs o ed (concrete (Delete_ m n)) = Val ([], ed', []) /\
    (e_current ed' = posix_current ls (e_current ed) (Delete_ m n) <-> n < lines_count ls).
Proof.
  intros compile capacity errtext CO fs o ed ls m n H G M N F.
  destruct (step_current compile capacity errtext CO fs o ed ls (Delete_ m n) H) as (ed'&E&_&C);
    [split; [auto|exact Logic.I]|split; auto|cbn [text_of]; change (len []) with 0; lia|].
  exists ed'. split; auto. rewrite C. cbn [current_after posix_current aedit].
  assert (Q : lines_count (upto ls (m - 1) ++ after ls n) = m - 1 + (lines_count ls - n)).
  { unfold lines_count, upto, after in *. rewrite app_length, firstn_length, skipn_length. lia. }
  rewrite Q. lia.
Qed.
Print Assumptions C53_after_delete_partial.

(* C53 for histories: the current line at the end is determined by the commands alone. *)
Theorem C53_histories_partial : forall compile capacity errtext, (forall n, (n <= capacity n)%nat) ->
  forall h fs o k ed ls, buffer ed ls -> valid_history ls h -> roomy ls h ->
  exists ed', command_loop compile capacity errtext fs o k ed (map concrete h) = (printed ls h, Val (fs, ed')) /\
    buffer ed' (final_lines ls h) /\ e_current ed' = current_finally (e_current ed) h.
Proof.
  intros compile capacity errtext CO.
  induction h as [|c h IH]; intros fs o k ed ls H V R; cbn [map command_loop printed final_lines current_finally].
  - eauto.
  - destruct V as (G&Vc&F&V). destruct R as [R1 R].
    destruct (step_current compile capacity errtext CO fs (o k) ed ls c H G Vc R1) as (ed1&E&B&C).
    destruct (IH fs o (S k) ed1 _ B V R) as (ed2&E2&B2&C2).
    assert (Tq : c_typ (concrete c) <> ctquit) by (destruct c; discriminate).
    exists ed2. rewrite <- C. split; auto. rewrite E. cbn [final last]. rewrite E2.
    destruct (c_typ (concrete c)); try reflexivity. now elim Tq.
Qed.
Print Assumptions C53_histories_partial.

Example C53_exact_nonvacuous : valid_history demo_lines demo_history /\ roomy demo_lines demo_history /\
  current_finally (e_current demo_ed) demo_history = 2 /\
  current_finally (e_current demo_ed) (firstn 1 demo_history) = 7 /\
  lines_count (final_lines demo_lines (firstn 1 demo_history)) = 6 /\
  posix_current demo_lines 2 (Append 4 (B "five" ++ [nl] ++ B "six")) = 6 /\ posix_current demo_lines 2 (Delete_ 3 4) = 2.
Proof.
  split; [exact (proj1 C51_nonvacuous)|]. split; [vm_compute; repeat split; discriminate|].
  vm_compute. repeat split; reflexivity.
Qed.
