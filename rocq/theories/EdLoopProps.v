(* Property theorems C59, C60, C83, C84, C86 and C88 (pkg/ed, whole runs: any interleaving of the reading
   goroutine and the command loop; cmd/ed).  [compile], [capacity], [errtext] are as in EdProps.v; [o k] are
   the system calls that fail during the k-th command; [perr] is the text of a syntax error. *)
From Verif Require Import GoBase GoFacts NumFacts PieceTableModel PieceTableSpec PieceTableProofs EdModel EdSpec EdProofs EdProofs2 EdProps RuneFacts
  EdPegModel EdPegSpec EdPegProofs EdPegProofs2 EdPegProofs3 EdPegProofs4 EdPegProofs5 EdLoopModel EdLoopSpec EdLoopProofs EdLoopProofs2 EdLoopProofs3.
Local Open Scope Z_scope.

(* C59: in every run that has stopped the commands were executed in the order read, with the same replies and
   the same outcome; a syntax error is written either at its place, or before the reply to the command just
   before it.  (After q, or a command that ended the program, the errors still to come may be missing.) *)
Theorem C59_any_schedule : forall compile capacity errtext o fs ed evs ls n s, getLines ed = Val (ls, n) ->
  steps compile capacity errtext o (begin fs ed evs) s -> stopped compile capacity errtext o s ->
  exists rep r out, command_loop compile capacity errtext fs o 0 (set_current ed (lines_count ls)) (commands evs) = (rep, r) /\
    visible (l_out s) = map OError (first_errors evs) ++ out /\ placed (errors_after evs) rep out /\ ended r s.
Proof. exact run_from_begin. Qed.
Print Assumptions C59_any_schedule.
(* C59: so two runs of the same input agree on replies and on how they end. *)
Theorem C59_schedules_agree : forall compile capacity errtext o fs ed evs ls n s1 s2, getLines ed = Val (ls, n) ->
  steps compile capacity errtext o (begin fs ed evs) s1 -> stopped compile capacity errtext o s1 ->
  steps compile capacity errtext o (begin fs ed evs) s2 -> stopped compile capacity errtext o s2 ->
  replies (l_out s1) = replies (l_out s2) /\ l_status s1 = l_status s2 /\
  (l_status s1 = Finished -> l_fs s1 = l_fs s2 /\ l_ed s1 = l_ed s2).
Proof.
  intros compile capacity errtext o fs ed evs ls n s1 s2 G H1 T1 H2 T2.
  destruct (run_from_begin _ _ _ _ _ _ _ _ _ _ G H1 T1) as (rep1&r1&out1&C1&V1&P1&E1).
  destruct (run_from_begin _ _ _ _ _ _ _ _ _ _ G H2 T2) as (rep2&r2&out2&C2&V2&P2&E2).
  rewrite C1 in C2. injection C2 as <- <-. split.
  - rewrite <- (replies_visible (l_out s1)), <- (replies_visible (l_out s2)), V1, V2, !replies_app, !replies_errors.
    now rewrite (placed_replies _ _ _ P1), (placed_replies _ _ _ P2).
  - destruct r1 as [[fs1 ed1]| |]; cbn [ended] in E1, E2; intuition congruence.
Qed.
Print Assumptions C59_schedules_agree.
(* Two syntax errors around p: three orders are possible, depending on the schedule. *)
Example C59_nonvacuous : exists evs c, evs = reads (fun _ => B "!") (B "x" ++ [nl] ++ B "1p" ++ [nl] ++ B "y" ++ [nl]) /\
  first_errors evs = [B "?!" ++ [nl]] /\ commands evs = [c] /\ errors_after evs = [[B "?!" ++ [nl]]] /\
  c_typ c = ctprint /\ placed [[B "?!" ++ [nl]]] [B "one"] [OError (B "?!" ++ [nl]); OReply (B "one")] /\
  placed [[B "?!" ++ [nl]]] [B "one"] [OReply (B "one"); OError (B "?!" ++ [nl])].
Proof.
  eexists _, _. split; [reflexivity|]. split; [vm_compute; reflexivity|]. split; [vm_compute; reflexivity|]. split; [vm_compute; reflexivity|].
  split; [reflexivity|]. split.
  - exact (placed_reply [B "?!" ++ [nl]] [] [] (B "one") [] [] placed_end).
  - exact (placed_reply [] [B "?!" ++ [nl]] [] (B "one") [] [] placed_end).
Qed.

(* C60: no run goes on for ever, in any state; a run that cannot go on has finished, has crashed, or is in a
   command that never ends (C64). *)
Theorem C60_runs_end : forall compile capacity errtext o s, Acc (fun a b => step compile capacity errtext o b a) s.
Proof. exact runs_end. Qed.
Print Assumptions C60_runs_end.
Theorem C60_stopped_runs : forall compile capacity errtext o s, stopped compile capacity errtext o s ->
  l_status s = Finished \/ l_status s = Crashed \/ l_cons s = Stuck.
Proof. intros compile capacity errtext o s H. destruct (l_status s) eqn:E; auto. right. right. eapply stopped_cases; eauto. Qed.
Print Assumptions C60_stopped_runs.
(* C60: whatever follows q, the program ends in the state reached by the commands before it, having replied to
   those only. *)
Theorem C60_quit : forall compile capacity errtext o fs ed evs ls n cs q rest rep fs' ed' s, getLines ed = Val (ls, n) ->
  commands evs = cs ++ q :: rest -> c_typ q = ctquit ->
  command_loop compile capacity errtext fs o 0 (set_current ed (lines_count ls)) cs = (rep, Val (fs', ed')) ->
  steps compile capacity errtext o (begin fs ed evs) s -> stopped compile capacity errtext o s ->
  l_status s = Finished /\ l_fs s = fs' /\ l_ed s = ed' /\ replies (l_out s) = rep.
Proof.
  intros compile capacity errtext o fs ed evs ls n cs q rest rep fs' ed' s G C Q L H T.
  destruct (run_from_begin _ _ _ _ _ _ _ _ _ _ G H T) as (rep1&r1&out1&C1&V1&P1&E1).
  rewrite C, (cl_quit _ _ _ _ _ _ _ _ _ rest _ _ _ Q L) in C1. injection C1 as <- <-. destruct E1 as (E1&E2&E3). repeat split; auto.
  rewrite <- (replies_visible (l_out s)), V1, replies_app, replies_errors. exact (placed_replies _ _ _ P1).
Qed.
Print Assumptions C60_quit.
Example C60_nonvacuous : exists q rest, commands (reads (fun _ => []) (B "1p" ++ [nl] ++ B "q" ++ [nl] ++ B "1,$d" ++ [nl])) =
  [the_command ctprint (num_addr 1) (num_addr 1) [] []] ++ q :: rest /\ c_typ q = ctquit /\ rest <> [] /\
  exists s, steps (fun _ => None) (fun n => n) [] (fun _ => no_faults) (begin (fun _ => None) demo_ed
      (reads (fun _ => []) (B "1p" ++ [nl] ++ B "q" ++ [nl] ++ B "1,$d" ++ [nl]))) s /\
    stopped (fun _ => None) (fun n => n) [] (fun _ => no_faults) s.
Proof. eexists _, _. split; [vm_compute; reflexivity|]. split; [reflexivity|]. split; [discriminate|]. apply can_stop. Qed.

(* C83 refuted, for every schedule: each command, in Go syntax, is written to standard output before it is
   executed; and each w adds a line with the names of the file and of the temporary file. *)
Theorem C83_only_replies_refuted : forall compile capacity errtext o fs ed evs ls n pre c rest rep fs' ed' s, getLines ed = Val (ls, n) ->
  commands evs = pre ++ c :: rest -> Forall (fun d => c_typ d <> ctquit) pre ->
  command_loop compile capacity errtext fs o 0 (set_current ed (lines_count ls)) pre = (rep, Val (fs', ed')) ->
  steps compile capacity errtext o (begin fs ed evs) s -> stopped compile capacity errtext o s ->
  (exists g, go_command c g /\ In (ODebug (B "cmd " ++ g ++ [nl])) (l_out s)) /\
  (c_typ c = ctwrite -> forall t, pt_string (e_pt ed') = Ok t ->
     In (ODebug (B "f is '" ++ e_filename ed' ++ B "', tmp is '" ++ e_filename ed' ++ B ".swp'" ++ [nl])) (l_out s)).
Proof.
  intros compile capacity errtext o fs ed evs ls n pre c rest rep fs' ed' s G C Q L H T.
  destruct (reaches _ _ _ _ _ _ H T) with (pre := pre) (c := c) (rest := rest) (rep := rep) (fs' := fs') (ed' := ed') as (t&H1&R&Gt&Ef&Ee); auto.
  { rewrite (begin_runs fs ed evs ls n G). reflexivity. }
  { rewrite (begin_runs fs ed evs ls n G). cbn [l_cons l_todo l_fs l_ed l_k]. now rewrite <- sends_commands. }
  destruct (received_shown _ _ _ _ _ _ _ H1 T R Gt) as [S1 S2]. split.
  - destruct (cmd_text c) as (g&Hg&E). rewrite E in S1. eauto.
  - intros W x X. apply S2; [rewrite W; discriminate|]. unfold notes. rewrite W, Ee, X. left. unfold write_note, swp.
    rewrite <- !app_assoc. reflexivity.
Qed.
Print Assumptions C83_only_replies_refuted.
(* C83 refuted further: the text of every a, i and c is written to standard output as well, after "t ". *)
Theorem C83_text_shown_refuted : forall perr lead r gap x t trail, blanks lead -> wrange_ok r -> text_letter x -> text_range x r ->
  blanks gap -> (~ closed r -> gap = []) -> no_term (runes_of t) -> blanks trail ->
  exists typed, handle perr (lead ++ wrange_text r ++ gap ++ [x; nl] ++ t ++ [nl; "."%char] ++ trail ++ [nl]) = Val typed /\
  forall compile capacity errtext o fs ed evs rest ls n rep fs' ed' s, getLines ed = Val (ls, n) ->
  Forall (fun d => c_typ d <> ctquit) (commands evs) ->
  command_loop compile capacity errtext fs o 0 (set_current ed (lines_count ls)) (commands evs) = (rep, Val (fs', ed')) ->
  steps compile capacity errtext o (begin fs ed (evs ++ typed ++ rest)) s -> stopped compile capacity errtext o s ->
  In (ODebug (B "t " ++ cut t ++ [nl])) (l_out s).
Proof.
  intros perr lead r gap x t trail Hl Hr Hx Tx Hg Ng Ht Htr.
  destruct (text_command_events lead r gap x t trail Hl Hr Hx Tx Hg Ng Ht Htr) as (toks&P&E).
  exists (map of_pevent (Execute (lead ++ wrange_text r ++ gap ++ [x; nl] ++ t ++ [nl; "."%char] ++ trail ++ [nl]) toks)). split; [unfold handle; now rewrite P|].
  intros compile capacity errtext o fs ed evs rest ls n rep fs' ed' s G Q L H T. rewrite E in H. cbn [map of_pevent app] in H.
  rewrite (begin_runs fs ed _ ls n G) in H. rewrite sends_commands in Q, L.
  eapply (reaches_print compile capacity errtext o _ _ H T); eauto; reflexivity.
Qed.
Print Assumptions C83_text_shown_refuted.
Example C83_text_shown_nonvacuous : wrange_ok NoAddress /\ text_letter "a" /\ text_range "a" NoAddress /\ no_term (runes_of (B "hi you")) /\
  exists c, handle (fun _ => []) (B "a" ++ [nl] ++ B "hi you" ++ [nl] ++ B "." ++ [nl]) = Val [RPrint (B "t hi you" ++ [nl]); RSend c].
Proof.
  split; [exact I|]. split; [now left|]. split; [exact I|]. split; [|eexists; vm_compute; reflexivity].
  apply no_term_line. vm_compute. intuition discriminate.
Qed.
Example C83_nonvacuous : show_cmd (the_command ctprint (num_addr 1) aLast [] []) = B "cmd {17 {3 1 0} {2 $ 0} {0  0}  []}" ++ [nl].
Proof. reflexivity. Qed.

(* C84: the lines are grouped as they should be, and each group is given to the parser whole, with a newline
   after every line; nothing is lost, added or reordered. *)
Theorem C84_lines_grouped : forall lines, exists g, grouped lines g /\ buffers lines = map unlines g.
Proof. exact buffers_grouped. Qed.
Print Assumptions C84_lines_grouped.
Theorem C84_nothing_lost : forall lines, concat (buffers lines) = unlines lines.
Proof.
  intros lines. destruct (buffers_grouped lines) as (g&G&->). rewrite <- (grouped_concat _ _ G).
  clear G. induction g as [|a g IH]; auto. cbn [map concat]. now rewrite IH, unlines_app.
Qed.
Print Assumptions C84_nothing_lost.
(* A line of 64K ends the input: what was read before it is executed, it and all that follows is lost. *)
Theorem C84_overlong_line : forall perr pre x rest, Forall ed_line pre -> ~ In nl x -> (65536 <= len x)%Z -> rest = [] \/ (exists r, rest = nl :: r) ->
  reads perr (unlines pre ++ x ++ rest) = reads perr (unlines pre) ++ [RPrint (B "Err: bufio.Scanner: token too long" ++ [nl])].
Proof. exact reads_overlong. Qed.
Print Assumptions C84_overlong_line.
Example C84_nonvacuous : grouped [B "1p"; B " 2 , 3c "; B "1p"; B "."; B "a"; B "x"]
    [[B "1p"]; [B " 2 , 3c "; B "1p"; B "."]; [B "a"; B "x"]] /\
  buffers [B "1p"; B " 2 , 3c "; B "1p"; B "."; B "a"; B "x"] =
    [unlines [B "1p"]; unlines [B " 2 , 3c "; B "1p"; B "."]; unlines [B "a"; B "x"]].
Proof.
  split; [|vm_compute; reflexivity].
  apply grouped_line; [intros Q; apply start_spec in Q; vm_compute in Q; discriminate|].
  apply (grouped_text (B " 2 , 3c ") [B "1p"] [B "a"; B "x"] [[B "a"; B "x"]]).
  - apply start_spec. vm_compute. reflexivity.
  - intros x [<-|[]]. discriminate.
  - apply (grouped_open (B "a") [B "x"]); [apply start_spec; vm_compute; reflexivity|]. intros x [<-|[]]. discriminate.
Qed.

(* C86, what is true: for every session of a, i, c, d, p, n and = with valid line numbers, the text being of
   single-byte characters and without lines that begin with a dot (C63), over buffers of ordinary lines
   (C50, C51), and every schedule: ed ends, replies what the list-of-lines editor prints, reports no error,
   leaves its buffer and touches no file. *)
Theorem C86_sessions_partial : forall compile capacity errtext, (forall n, (n <= capacity n)%nat) ->
  forall o perr fs ed ls h s, buffer ed ls -> good ls -> valid_history ls h -> session_ok h ->
  steps compile capacity errtext o (begin fs ed (reads perr (session h))) s -> stopped compile capacity errtext o s ->
  l_status s = Finished /\ visible (l_out s) = map OReply (printed ls h) /\ buffer (l_ed s) (final_lines ls h) /\ l_fs s = fs.
Proof.
  intros compile capacity errtext C o perr fs ed ls h s H G V K St T.
  destruct (run_from_begin _ _ _ _ _ _ _ _ _ _ (getLines_good ed ls H G) St T) as (rep&r&out&L&Vi&P&E).
  pose proof (session_reads perr h (valid_doable h ls ed H V K)) as Sg.
  unfold commands, first_errors, errors_after in *. rewrite Sg in *. cbn [fst snd map app] in *.
  rewrite !map_map in *. cbn [fst snd] in *.
  destruct (history_ok compile capacity errtext C h fs o 0 (set_current ed (lines_count ls)) ls) as (ed'&L'&B'); auto.
  change (map (fun x : acmd => concrete x) h) with (map concrete h) in L. rewrite L' in L. injection L as <- <-. destruct E as (E1&E2&E3).
  split; auto. split; [|split; auto; now rewrite E3].
  rewrite Vi. apply (placed_quiet _ _ _ P). intros e I. apply in_map_iff in I as (x&<-&_). reflexivity.
Qed.
Print Assumptions C86_sessions_partial.
Definition demo_session : list acmd := [Append 1 (B "x" ++ [nl] ++ B "y"); Print_ 1 3; Delete_ 2 2; Change 1 1 (B "uno"); LineNo 4; Number_ 1 2].
Example C86_nonvacuous : valid_history demo_lines demo_session /\ session_ok demo_session /\
  session demo_session = unlines [B "1a"; B "x"; B "y"; B "."; B "1,3p"; B "2,2d"; B "1,1c"; B "uno"; B "."; B "4="; B "1,2n"] /\
  final_lines demo_lines demo_session = [B "uno"; B "y"; B "two"; B ""; B "four"].
Proof.
  split; [|split; [|split; reflexivity]].
  - repeat (split; [split; [easy_good|try exact I; try easy_good]|split; [vm_compute; repeat split; discriminate|split; [vm_compute; discriminate|]]]).
    exact I.
  - assert (T : forall t, Forall ed_line (typed t) -> (forall l, In l (typed t) -> ~ In nl l /\ hd nl l <> "."%char) -> List.length (runes_of t) = List.length t -> typable t).
    { intros t F N L. split; auto. split; [split; [apply split_on_nonempty|]|split; auto].
      - intros l Il. apply N in Il as [Il Hd]. split; auto. intros ->. now apply Hd.
      - intros l r Il. assert (J : In l (typed t)) by (destruct (typed t); [destruct Il|now right]). apply N in J as [_ J].
        intros ->. now apply J. }
    intros c Ic. cbn in Ic. repeat (destruct Ic as [<-|Ic]; [first [exact I | apply T; [repeat constructor; apply easy_line; vm_compute; (reflexivity || discriminate)|
      intros l Il; vm_compute in Il; repeat (destruct Il as [<-|Il]; [split; [vm_compute; intros Q; repeat (destruct Q as [Q|Q]; [discriminate Q|]); exact Q|vm_compute; discriminate]|]); destruct Il|vm_compute; reflexivity]]|]). destruct Ic.
Qed.

(* C88, what is true: if the name is of single-byte characters, on one line and not begun by a blank, and the
   file can be read, then the first reply is empty and the rest is as for an editor holding that file. *)
Theorem C88_opens_file_partial : forall compile capacity errtext o perr fs f content ls input,
  file_name f -> ed_line (B "e " ++ f) -> List.length (runes_of f) = List.length f ->
  fs f = Some content -> f_reopen (o 0%nat) = false -> f_fstat (o 0%nat) = false ->
  len content <= max_int64 -> text_lines content = Val ls ->
  exists ed, holds ed content /\ e_filename ed = f /\ e_current ed = lines_count (fst ls) /\
    forall s, steps compile capacity errtext o (main perr fs (Some f) input) s -> stopped compile capacity errtext o s ->
      exists rep r, command_loop compile capacity errtext fs o 1 ed (commands (reads perr input)) = (rep, r) /\
        replies (l_out s) = [nl] :: rep /\ ended r s.
Proof.
  intros compile capacity errtext o perr fs f content ls input F E R C O1 O2 L T.
  destruct (edit_ok errtext fs (o 0%nat) (set_current zero_itor 0) f content C O1 O2 ls L T) as (ed&Ed&Hd&Hf&Hc).
  exists ed. repeat (split; auto). intros s St Sp.
  assert (G : getLines zero_itor = Val ([], 0%nat)) by (vm_compute; reflexivity).
  destruct (run_from_begin _ _ _ _ _ _ _ _ _ _ G St Sp) as (rep&r&out&Q&V&P&En).
  rewrite main_reads in Q by auto. rewrite R, firstn_all in Q. cbn [command_loop the_command c_typ] in Q.
  unfold processCommand, setDefaultAddresses in Q. cbn [the_command c_typ c_start c_end c_params is_null zero_address a_typ] in Q.
  change (set_current zero_itor (lines_count [])) with (set_current zero_itor 0) in Q. rewrite Ed in Q. cbn [obind final last app] in Q.
  destruct (command_loop compile capacity errtext fs o 1 ed (commands (reads perr input))) as [w e] eqn:W. injection Q as <- <-.
  exists w, e. split; auto. split; auto.
  rewrite <- (replies_visible (l_out s)), V, replies_app, replies_errors. exact (placed_replies _ _ _ P).
Qed.
Print Assumptions C88_opens_file_partial.
(* C88 refuted, for every name with a character of more than one byte: another file is opened, with the end of
   the name cut off. *)
Theorem C88_multibyte_name_refuted : forall perr f input, file_name f -> ed_line (B "e " ++ f) ->
  (List.length (runes_of f) < List.length f)%nat ->
  exists f' rest, commands (reads perr (main_input (Some f) input)) = the_command ctedit zero_address zero_address [] [f'] :: rest /\
    f' <> f /\ exists cut, f = f' ++ cut.
Proof.
  intros perr f input F E L. exists (firstn (List.length (runes_of f)) f), (commands (reads perr input)). split; [now apply main_reads|]. split.
  - intros Q. apply (f_equal (@List.length ascii)) in Q. rewrite firstn_length in Q. lia.
  - exists (skipn (List.length (runes_of f)) f). symmetry. apply firstn_skipn.
Qed.
Print Assumptions C88_multibyte_name_refuted.
(* C88 refuted, for every name with a newline in it: the part before it is opened, and what follows is executed
   as if it had been typed. *)
Theorem C88_newline_name_refuted : forall perr f x input, file_name f -> ed_line (B "e " ++ f) ->
  List.length (runes_of f) = List.length f ->
  commands (reads perr (main_input (Some (f ++ [nl] ++ x)) input)) =
    the_command ctedit zero_address zero_address [] [f] :: commands (reads perr (x ++ [nl] ++ input)).
Proof.
  intros perr f x input F E L.
  change (main_input (Some (f ++ [nl] ++ x)) input) with (B "e " ++ (f ++ [nl] ++ x) ++ [nl] ++ input).
  replace (B "e " ++ (f ++ [nl] ++ x) ++ [nl] ++ input) with (main_input (Some f) (x ++ [nl] ++ input)).
  - rewrite main_reads by auto. now rewrite L, firstn_all.
  - unfold main_input. now rewrite <- !app_assoc.
Qed.
Print Assumptions C88_newline_name_refuted.
(* One line of input, whatever its end, that is no a, i or c. *)
Lemma line_sends : forall perr l l' input cs, scan_lines (l ++ nl :: input) = (let '(ls, e) := scan_lines input in (l' :: ls, e)) ->
  multlineCmdStart l' = false -> parsed (l' ++ [nl]) cs ->
  commands (reads perr (l ++ nl :: input)) = cs ++ commands (reads perr input).
Proof.
  intros perr l l' input cs Q M P. rewrite !sends_commands. unfold reads. rewrite Q. destruct (scan_lines input) as [ls tl].
  rewrite buffers_plain by exact M. cbn [flat_map]. rewrite !sends_app. destruct (handle_parsed perr _ _ P) as (evs&H&S0&_).
  rewrite H, S0. now rewrite <- app_assoc.
Qed.
(* C88 refuted, for every name that begins with blanks: they are lost. *)
Theorem C88_leading_blank_refuted : forall perr bl f input, blanks bl -> bl <> [] -> file_name f -> ed_line (B "e " ++ bl ++ f) ->
  List.length (runes_of f) = List.length f ->
  commands (reads perr (main_input (Some (bl ++ f)) input)) = the_command ctedit zero_address zero_address [] [f] :: commands (reads perr input).
Proof.
  intros perr bl f input Hb Nb F E L. unfold main_input.
  replace (B "e " ++ (bl ++ f) ++ [nl] ++ input) with ((B "e " ++ bl ++ f) ++ nl :: input) by now rewrite <- !app_assoc.
  apply (line_sends perr _ (B "e " ++ bl ++ f) _ [the_command ctedit zero_address zero_address [] [f]]); [now apply scan_lines_cons|apply not_text_e|].
  pose proof (file_name_command [] "e" ctedit (" "%char :: bl) f blanks_nil ltac:(now left)) as P. rewrite L, firstn_all in P.
  replace ((B "e " ++ bl ++ f) ++ [nl]) with ([] ++ ["e"%char] ++ (" "%char :: bl) ++ f ++ [nl]) by (cbn [app]; now rewrite <- !app_assoc).
  apply P; [constructor; auto|discriminate|exact F].
Qed.
Print Assumptions C88_leading_blank_refuted.
(* C88 refuted, for the empty name and every name of blanks: the command has no name. *)
Theorem C88_blank_name_refuted : forall perr bl input, blanks bl -> ed_line (B "e " ++ bl) ->
  commands (reads perr (main_input (Some bl) input)) = the_command ctedit zero_address zero_address [] [] :: commands (reads perr input).
Proof.
  intros perr bl input Hb E. unfold main_input.
  replace (B "e " ++ bl ++ [nl] ++ input) with ((B "e " ++ bl) ++ nl :: input) by now rewrite <- !app_assoc.
  apply (line_sends perr _ (B "e " ++ bl) _ [the_command ctedit zero_address zero_address [] []]); [now apply scan_lines_cons|apply not_text_e|].
  replace ((B "e " ++ bl) ++ [nl]) with ([] ++ ["e"%char] ++ (" "%char :: bl) ++ [nl]) by (cbn [app]; now rewrite <- !app_assoc).
  apply file_command; [apply blanks_nil|now left|constructor; auto].
Qed.
Print Assumptions C88_blank_name_refuted.
(* C88 refuted, for every name that ends in a carriage return: it is lost. *)
Theorem C88_return_name_refuted : forall perr f input, file_name f -> ~ In nl f -> len f < 65533 ->
  List.length (runes_of f) = List.length f ->
  commands (reads perr (main_input (Some (f ++ [cr])) input)) = the_command ctedit zero_address zero_address [] [f] :: commands (reads perr input).
Proof.
  intros perr f input F N Lf L. unfold main_input.
  replace (B "e " ++ (f ++ [cr]) ++ [nl] ++ input) with (((B "e " ++ f) ++ [cr]) ++ nl :: input) by now rewrite <- !app_assoc.
  apply (line_sends perr _ (B "e " ++ f) _ [the_command ctedit zero_address zero_address [] [f]]); [|apply not_text_e|].
  - unfold scan_lines. rewrite raw_lines_cons.
    + cbn [scan_segs]. destruct (max_token <=? N.of_nat (List.length ((B "e " ++ f) ++ [cr])))%N eqn:Q.
      { apply N.leb_le in Q. unfold max_token, len in *. rewrite !app_length in Q. change (List.length (B "e ")) with 2%nat in Q. cbn [List.length] in Q. lia. }
      destruct (scan_segs (raw_lines input)). f_equal. f_equal. generalize (B "e " ++ f). intros x. unfold drop_cr. rewrite rev_app_distr.
      change (rev [cr] ++ rev x) with (cr :: rev x). change (Ascii.eqb cr cr) with true. cbv iota. apply rev_involutive.
    + intros I. apply in_app_or in I as [I|[I|[]]]; [|discriminate]. apply in_app_or in I as [I|I]; [|exact (N I)]. destruct I as [I|[I|[]]]; discriminate.
  - pose proof (file_name_command [] "e" ctedit (B " ") f blanks_nil ltac:(now left) ltac:(repeat constructor) ltac:(discriminate) F) as P.
    rewrite L, firstn_all in P. rewrite <- app_assoc. exact P.
Qed.
Print Assumptions C88_return_name_refuted.
(* C88 refuted, for every name that is too long: nothing is opened, and none of the input is executed. *)
Theorem C88_long_name_refuted : forall perr f input, ~ In nl f -> 65534 <= len f -> commands (reads perr (main_input (Some f) input)) = [].
Proof.
  intros perr f input N L. rewrite sends_commands. unfold main_input, reads.
  replace (B "e " ++ f ++ [nl] ++ input) with ((B "e " ++ f) ++ nl :: input) by now rewrite <- !app_assoc.
  assert (Q : scan_lines ((B "e " ++ f) ++ nl :: input) = ([], true)).
  { unfold scan_lines. rewrite raw_lines_cons.
    - cbn [scan_segs]. destruct (max_token <=? N.of_nat (List.length (B "e " ++ f)))%N eqn:Q; [reflexivity|].
      apply N.leb_gt in Q. unfold max_token, len in *. rewrite !app_length in Q. change (List.length (B "e ")) with 2%nat in Q. lia.
    - intros I. apply in_app_or in I as [I|I]; [|exact (N I)]. destruct I as [I|[I|[]]]; discriminate. }
  rewrite Q. reflexivity.
Qed.
Print Assumptions C88_long_name_refuted.
Example C88_names_nonvacuous : blanks (B " ") /\ file_name (B "f") /\ ed_line (B "e " ++ B " " ++ B "f") /\ ed_line (B "e " ++ B " ") /\
  commands (reads (fun _ => []) (main_input (Some (B " f")) [])) = [the_command ctedit zero_address zero_address [] [B "f"]].
Proof.
  split; [repeat constructor|]. split; [split; [vm_compute; intros Q; repeat (destruct Q as [Q|Q]; [discriminate Q|]); exact Q|exists "f"%char, []; repeat split; discriminate]|].
  split; [apply easy_line; vm_compute; (reflexivity || discriminate)|]. split; [apply easy_line; vm_compute; (reflexivity || discriminate)|].
  vm_compute. reflexivity.
Qed.
Example C88_nonvacuous : file_name (B "f") /\ ed_line (B "e " ++ B "f") /\ text_lines (unlines demo_lines) = Val (demo_lines, 4%nat) /\
  file_name [ascii_of_N 195; ascii_of_N 169] /\ List.length (runes_of [ascii_of_N 195; ascii_of_N 169]) = 1%nat.
Proof.
  split; [|split; [|split; [vm_compute; reflexivity|split; [|vm_compute; reflexivity]]]].
  - split; [vm_compute; intros Q; repeat (destruct Q as [Q|Q]; [discriminate Q|]); exact Q|]. exists "f"%char, []. repeat split; discriminate.
  - apply easy_line; vm_compute; (reflexivity || discriminate).
  - split; [vm_compute; intros Q; repeat (destruct Q as [Q|Q]; [discriminate Q|]); exact Q|]. eexists _, _. split; [reflexivity|]. split; vm_compute; discriminate.
Qed.
