(* Property theorems C129 and the refutations of C50, C51 and C54 that rest on it (pkg/ed): what the editing
   commands do to texts whose lines end in \r and to buffers that end in a blank line. *)
From Verif Require Import GoBase GoFacts PieceTableModel PieceTableSpec PieceTableProofs EdModel EdSpec EdProofs EdProofs2 EdProps EdExactSpec EdExactProofs.
Local Open Scope Z_scope.

(* C129: on every text that is empty or ends in a newline and has no line of 64K, a history of a, i, c, d, p,
   n and = leaves and prints exactly what [exact_edit] and [exact_reply] say. *)
Theorem C129_exact_histories : forall compile capacity errtext, (forall n, (n <= capacity n)%nat) ->
  forall h fs o k ed s, holds ed s -> complete s -> exact_history s h ->
  exists ed', command_loop compile capacity errtext fs o k ed (map concrete h) =
      (exact_printed s h, Val (fs, ed')) /\ holds ed' (exact_final s h).
Proof. exact exact_history_ok. Qed.
Print Assumptions C129_exact_histories.
(* Without lines that end in \r: the buffer behaves as a list of lines of which the last, if it is blank, is
   out of reach. *)
Theorem C129_ordinary_lines : forall compile capacity errtext fs o ed ls c, buffer ed ls -> Forall ed_line ls ->
  match c with Append n _ | Insert_ n _ => 0 <= n < max_int64
             | Change m n _ | Delete_ m n => 1 <= m <= n /\ n < max_int64 | _ => False end ->
  len (unlines ls) + len (text_of c) + 1 <= max_int64 ->
  exists ed', processCommand compile capacity errtext fs o ed (concrete c) = Val ([], ed', []) /\ buffer ed' (line_edit ls c).
Proof. exact line_edit_ok. Qed.
Print Assumptions C129_ordinary_lines.
(* So commands that keep to the lines before it do what is asked.  (A change is a deletion and an insertion:
   if it replaces the last lines, the line before them must not be blank.) *)
Theorem C129_as_asked : forall ls c,
  match c with
  | Append n _ => n <= lines_count (cut_blank ls)
  | Insert_ n _ => n - 1 <= lines_count (cut_blank ls)
  | Delete_ m n => 1 <= m <= n /\ n <= lines_count (cut_blank ls)
  | Change m n _ => 1 <= m <= n /\ n <= lines_count (cut_blank ls) /\
                    (n < lines_count ls \/ forall p, upto ls (m - 1) <> p ++ [[]])
  | _ => True
  end -> line_edit ls c = aedit ls c.
Proof. exact line_edit_asked. Qed.
Print Assumptions C129_as_asked.

Definition dos_text : bytes := B "one" ++ [cr; nl] ++ B "two" ++ [cr; nl] ++ B "three" ++ [cr; nl].
Definition dos_ed : itor := {| e_pt := new_piece_table dos_text true (len dos_text); e_filename := []; e_current := 3 |}.
Definition dos_history : list acmd := [Number_ 1 3; Append 1 (B "x"); Delete_ 3 3; Print_ 1 3].
(* One \r per line is lost from the count: the text appended after line 1 goes before its newline. *)
Example C129_nonvacuous : holds dos_ed dos_text /\ complete dos_text /\ exact_history dos_text dos_history /\
  seen dos_text = [B "one"; B "two"; B "three"] /\
  exact_edit dos_text (Append 1 (B "x")) = B "one" ++ [cr] ++ B "x" ++ [nl; nl] ++ B "two" ++ [cr; nl] ++ B "three" ++ [cr; nl] /\
  (let ls := [B "a"; B ""] in buffer {| e_pt := new_piece_table (unlines ls) true 3; e_filename := []; e_current := 1 |} ls /\
     line_edit ls (Append 1 (B "x")) = [B "a"; B "x"; B ""] /\ line_edit ls (Delete_ 2 2) = ls /\ cut_blank ls = [B "a"]).
Proof.
  split; [eapply fresh_holds with (cc := true); [vm_compute; intros Q; discriminate Q|reflexivity]|].
  assert (C : complete dos_text).
  { change dos_text with (unlines [B "one" ++ [cr]; B "two" ++ [cr]; B "three" ++ [cr]]). apply unlines_complete. }
  split; [exact C|].
  assert (R : forall s, forallb (fun l => len l <? 65536) (text_pieces s) = true -> readable s).
  { intros s H. unfold readable. rewrite forallb_forall in H. apply Forall_forall. intros l I. apply H in I. lia. }
  split; [|split; [reflexivity|split; [reflexivity|split; [|repeat split]]]].
  - cbn [exact_history dos_history]. repeat (split; [split; [apply R; vm_compute; reflexivity|vm_compute; repeat split; discriminate]|]).
    exact I.
  - eapply fresh_holds with (cc := true); [vm_compute; intros Q; discriminate Q|reflexivity].
Qed.

(* C50 refuted, for every buffer that ends in a blank line and every text that is not just newlines: appending
   after the last line puts the text before it. *)
Theorem C50_line_edits_refuted : forall compile capacity errtext fs o ed (p : list bytes) (t : bytes),
  buffer ed (p ++ [[]]) -> Forall ed_line p -> (exists c, In c t /\ c <> nl) ->
  len (unlines (p ++ [[]])) + len t + 1 <= max_int64 ->
  exists ed', processCommand compile capacity errtext fs o ed (concrete (Append (lines_count p + 1) t)) = Val ([], ed', []) /\
    buffer ed' (p ++ typed t ++ [[]]) /\
    p ++ typed t ++ [[]] <> aedit (p ++ [[]]) (Append (lines_count p + 1) t).
Proof.
  intros compile capacity errtext fs o ed p t H F T L.
  pose proof (lines_le_len (p ++ [[]])) as LL. unfold lines_count in LL. rewrite app_length in LL. cbn [List.length] in LL.
  pose proof (len_nonneg t).
  destruct (line_edit_ok compile capacity errtext fs o ed (p ++ [[]]) (Append (lines_count p + 1) t)) as (ed'&E&Q); auto.
  { apply Forall_app. auto using ed_line_nil. }
  { unfold lines_count. lia. }
  exists ed'. split; auto. cbn [line_edit] in Q. rewrite line_insert_blank in Q by lia. split; auto.
  cbn [aedit]. unfold upto, after. rewrite firstn_all2, skipn_all2 by (rewrite app_length; unfold lines_count; cbn; lia).
  rewrite List.app_nil_r, <- app_assoc. now apply blank_moves.
Qed.
Print Assumptions C50_line_edits_refuted.
(* C50 refuted, for every buffer whose last line but one is blank: changing the last line puts the text before
   the blank line. *)
Theorem C50_change_last_refuted : forall compile capacity errtext fs o ed (p : list bytes) (x t : bytes) n,
  buffer ed (p ++ [[]; x]) -> Forall ed_line (p ++ [x]) -> x <> [] -> (exists c, In c t /\ c <> nl) ->
  len (unlines (p ++ [[]; x])) + len t + 1 <= max_int64 -> n = lines_count p + 2 ->
  good (p ++ [[]; x]) /\
  exists ed', processCommand compile capacity errtext fs o ed (concrete (Change n n t)) = Val ([], ed', []) /\
    buffer ed' (p ++ typed t ++ [[]]) /\
    p ++ typed t ++ [[]] <> aedit (p ++ [[]; x]) (Change n n t).
Proof.
  intros compile capacity errtext fs o ed p x t n H F Ne T L ->.
  pose proof (lines_le_len (p ++ [[]; x])) as LL. unfold lines_count in LL. rewrite app_length in LL. cbn [List.length] in LL.
  pose proof (len_nonneg t).
  assert (F2 : Forall ed_line (p ++ [[]; x])).
  { rewrite Forall_app in *. destruct F as [F1 F2]. split; auto. inversion F2; subst. auto using ed_line_nil. }
  split.
  { split; auto. intros q E. change ([[]; x]) with ([[]] ++ [x]) in E. rewrite app_assoc in E. apply app_inj_tail in E as [_ E]. congruence. }
  destruct (line_edit_ok compile capacity errtext fs o ed (p ++ [[]; x]) (Change (lines_count p + 2) (lines_count p + 2) t)) as (ed'&E&Q); auto.
  { unfold lines_count. lia. }
  exists ed'. split; auto. cbn [line_edit] in Q. rewrite line_delete_last, line_insert_blank in Q by (auto; lia). split; auto.
  cbn [aedit]. unfold upto, after.
  replace (Z.to_nat (lines_count p + 2 - 1)) with (List.length p + 1)%nat by (unfold lines_count; lia).
  rewrite skipn_all2 by (rewrite app_length; unfold lines_count; cbn; lia).
  rewrite firstn_app. replace (List.length p + 1 - List.length p)%nat with 1%nat by lia.
  rewrite firstn_all2 by lia. cbn [firstn]. rewrite List.app_nil_r, <- app_assoc. now apply blank_moves.
Qed.
Print Assumptions C50_change_last_refuted.
Example C50_refuted_nonvacuous : exists ed, buffer ed ([B "one"] ++ [[]; B "three"]) /\ Forall ed_line ([B "one"] ++ [B "three"]) /\
  [B "one"] ++ typed (B "x") ++ [[]] = [B "one"; B "x"; B ""] /\
  aedit ([B "one"] ++ [[]; B "three"]) (Change 3 3 (B "x")) = [B "one"; B ""; B "x"].
Proof.
  exists {| e_pt := new_piece_table (unlines [B "one"; B ""; B "three"]) true 11; e_filename := []; e_current := 3 |}.
  split; [eapply fresh_holds with (cc := true); [vm_compute; intros Q; discriminate Q|reflexivity]|].
  split; [repeat constructor; apply easy_line; vm_compute; (reflexivity || discriminate)|]. split; reflexivity.
Qed.

(* C51 refuted, for every such buffer: deleting the last line and appending at the end. *)
Theorem C51_histories_refine_refuted : forall compile capacity errtext fs o k ed (p : list bytes) (x t : bytes) n,
  buffer ed (p ++ [[]; x]) -> Forall ed_line (p ++ [x]) -> x <> [] -> (exists c, In c t /\ c <> nl) ->
  len (unlines (p ++ [[]; x])) + len t + 1 <= max_int64 -> n = lines_count p + 2 ->
  let h := [Delete_ n n; Append (n - 1) t] in
  good (p ++ [[]; x]) /\ valid (p ++ [[]; x]) (Delete_ n n) /\ valid (aedit (p ++ [[]; x]) (Delete_ n n)) (Append (n - 1) t) /\
  exists ed', command_loop compile capacity errtext fs o k ed (map concrete h) = ([[nl]; [nl]], Val (fs, ed')) /\
    buffer ed' (p ++ typed t ++ [[]]) /\ p ++ typed t ++ [[]] <> final_lines (p ++ [[]; x]) h.
Proof.
  intros compile capacity errtext fs o k ed p x t n H F Ne T L En h.
  pose proof (lines_le_len (p ++ [[]; x])) as LL. unfold lines_count in LL. rewrite app_length in LL. cbn [List.length] in LL.
  pose proof (len_nonneg t).
  assert (F2 : Forall ed_line (p ++ [[]; x])).
  { rewrite Forall_app in *. destruct F as [F1 F2]. split; auto. inversion F2; subst. auto using ed_line_nil. }
  assert (A1 : aedit (p ++ [[]; x]) (Delete_ n n) = p ++ [[]]).
  { subst n. cbn [aedit]. unfold upto, after.
    replace (Z.to_nat (lines_count p + 2 - 1)) with (List.length p + 1)%nat by (unfold lines_count; lia).
    rewrite skipn_all2 by (rewrite app_length; unfold lines_count; cbn; lia).
    rewrite firstn_app. replace (List.length p + 1 - List.length p)%nat with 1%nat by lia.
    rewrite firstn_all2 by lia. cbn [firstn]. now rewrite List.app_nil_r. }
  split; [|split; [|split]].
  - split; auto. intros q E. change ([[]; x]) with ([[]] ++ [x]) in E. rewrite app_assoc in E. apply app_inj_tail in E as [_ E]. congruence.
  - subst n. cbn [valid]. unfold lines_count. rewrite app_length. cbn. lia.
  - rewrite A1. subst n. cbn [valid]. unfold lines_count. rewrite app_length. cbn. lia.
  - destruct (line_edit_ok compile capacity errtext fs (o k) ed (p ++ [[]; x]) (Delete_ n n)) as (ed1&E1&Q1); auto.
    { subst n. unfold lines_count. lia. }
    { cbn [text_of]. change (len []) with 0. lia. }
    cbn [line_edit] in Q1. rewrite En, line_delete_last in Q1 by auto.
    assert (LE : len (unlines (p ++ [[]])) <= len (unlines (p ++ [[]; x]))).
    { rewrite !unlines_app, !len_app, !len_unlines_cons. change (len (unlines [])) with 0. change (len []) with 0.
      pose proof (len_nonneg x). lia. }
    destruct (C50_line_edits_refuted compile capacity errtext fs (o (S k)) ed1 p t) as (ed2&E2&Q2&N2); auto.
    { apply Forall_app in F. tauto. }
    { lia. }
    exists ed2. split; [|split; auto].
    + unfold h. cbn [map command_loop]. rewrite E1. cbn [final last].
      replace (n - 1) with (lines_count p + 1) by lia. rewrite E2. reflexivity.
    + unfold h. cbn [final_lines]. rewrite A1. replace (n - 1) with (lines_count p + 1) by lia. exact N2.
Qed.
Print Assumptions C51_histories_refine_refuted.

(* C54 refuted, for every file whose last line lacks its newline: after an insertion just before it, deleting
   that line does nothing. *)
Theorem C54_delete_open_line_refuted : forall compile capacity errtext fs o k ed cc ls x t,
  e_pt ed = new_piece_table (unlines ls ++ x) cc (len (unlines ls ++ x)) ->
  Forall ed_line (ls ++ typed t ++ [x]) -> x <> [] -> len (unlines ls ++ x) + len t + 2 <= max_int64 ->
  exists ed', command_loop compile capacity errtext fs o k ed
      (map concrete [Insert_ (lines_count ls + 1) t; Delete_ (lines_count ls + lines_count (typed t) + 1) (lines_count ls + lines_count (typed t) + 1)])
    = ([[nl]; [nl]], Val (fs, ed')) /\
  pt_string (e_pt ed') = Ok (unlines (ls ++ typed t) ++ x).
Proof. exact delete_open_behind. Qed.
Print Assumptions C54_delete_open_line_refuted.
Example C54_refuted_nonvacuous : Forall ed_line ([B "one"] ++ typed (B "x" ++ [nl] ++ B "y") ++ [B "two"]) /\
  unlines ([B "one"] ++ typed (B "x" ++ [nl] ++ B "y")) ++ B "two" = B "one" ++ [nl] ++ B "x" ++ [nl] ++ B "y" ++ [nl] ++ B "two".
Proof. split; [|reflexivity]. repeat constructor; apply easy_line; vm_compute; (reflexivity || discriminate). Qed.
