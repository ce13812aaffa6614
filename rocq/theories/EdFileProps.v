(* Property theorems C108 and C109 (pkg/ed, cmd/ed: a file edited from the command line and saved).  [compile],
   [capacity], [errtext], [o] and [perr] are as in EdLoopProps.v. *)
From Verif Require Import GoBase GoFacts NumFacts PieceTableModel PieceTableSpec PieceTableProofs EdModel EdSpec EdProofs EdProofs2 EdProps RuneFacts
  EdPegModel EdPegSpec EdPegProofs EdPegProofs2 EdPegProofs3 EdPegProofs4 EdPegProofs5 EdLoopModel EdLoopSpec EdLoopProofs EdLoopProofs2 EdLoopProofs3
  EdLoopProps EdFileSpec EdFileProofs EdFaultProofs.
Local Open Scope Z_scope.

(* C108: `ed f` with a session of a, i, c, d, p, n, = and w that addresses existing lines, over a file of
   ordinary lines, ended by the end of the input or by q: in every schedule ed ends, the file holds the text
   as of the last w (or is as it was, if there is none), the replies are those of the list-of-lines editor,
   no temporary file is left by a w, and no other file has changed. *)
Theorem C108_session_saved : forall compile capacity errtext o perr fs f ls h tail s,
  (forall n, (n <= capacity n)%nat) -> (forall n, no_failure (o n)) ->
  file_name f -> ed_line (B "e " ++ f) -> List.length (runes_of f) = List.length f ->
  fs f = Some (unlines ls) -> good ls -> len (unlines ls) <= max_int64 -> workable ls h -> leaving tail ->
  steps compile capacity errtext o (main perr fs (Some f) (keyed h ++ tail)) s -> stopped compile capacity errtext o s ->
  l_status s = Finished /\ l_fs s f = Some (unlines (saved ls ls h)) /\
  (In Save h -> l_fs s (swp f) = None) /\ (~ In Save h -> l_fs s (swp f) = fs (swp f)) /\
  (forall m, m <> f -> m <> swp f -> l_fs s m = fs m) /\
  replies (l_out s) = [nl] :: answers ls h.
Proof.
  intros compile capacity errtext o perr fs f ls h tail s C No F E R Fc G L W Lv St Sp.
  destruct (No 0%nat) as (_&_&_&_&_&O1&O2).
  destruct (C88_opens_file_partial compile capacity errtext o perr fs f (unlines ls) _ (keyed h ++ tail) F E R Fc O1 O2 L (text_lines_good ls G)) as (ed&Hd&Hf&_&K).
  destruct (K s St Sp) as (rep&r&Q&Rp&En).
  destruct (acts_ok compile capacity errtext C h fs o 1 ed ls ls No Hd W) as (fs'&ed'&Q'&A&S1&U); [now rewrite Hf|]. rewrite Hf in *.
  rewrite keyed_commands in Q by (eapply workable_can; eauto).
  assert (Q2 : command_loop compile capacity errtext fs o 1 ed (map act_command h ++ commands (reads perr tail)) = (answers ls h, Val (fs', ed'))).
  { destruct (leaving_commands perr tail Lv) as [->|(q&r'&->&T)]; [now rewrite app_nil_r|]. now apply cl_quit. }
  rewrite Q in Q2. injection Q2 as -> ->. destruct En as (E1&E2&E3). rewrite E2. split; auto. split; auto.
  assert (Sv : sees_save h = true <-> In Save h).
  { clear. induction h as [|[c|] h IH]; cbn [sees_save]; split; try (intros []; fail); try discriminate; auto.
    - intros Q. right. now apply IH.
    - intros [Q|Q]; [discriminate|]. now apply IH.
    - intros _. now left. }
  split; [|split; [|auto]].
  - intros I. apply Sv in I. now rewrite I in S1.
  - intros I. destruct (sees_save h); auto. exfalso. apply I. now apply Sv.
Qed.
Print Assumptions C108_session_saved.

(* C109: whatever system calls fail, and at whatever moment of whatever schedule one looks (also between two
   system calls of a w, and so also if ed is killed there): the file holds the text it had, or the whole of a
   text that was in the editor at one of the w; and no file but it and its temporary file has changed. *)
Theorem C109_file_never_broken : forall compile capacity errtext o perr fs f ls h tail s now,
  (forall n, (n <= capacity n)%nat) ->
  file_name f -> ed_line (B "e " ++ f) -> List.length (runes_of f) = List.length f ->
  fs [] = None -> fs f = Some (unlines ls) -> good ls -> len (unlines ls) <= max_int64 -> workable ls h -> leaving tail ->
  steps compile capacity errtext o (main perr fs (Some f) (keyed h ++ tail)) s -> at_a_moment errtext o s now ->
  (exists v, (v = ls \/ In v (versions ls h)) /\ now f = Some (unlines v)) /\
  (forall m, m <> f -> m <> swp f -> now m = fs m).
Proof.
  intros compile capacity errtext o perr fs f ls h tail s now C F E R Z Fc G L W Lv St M.
  assert (Nf : f <> []) by (destruct F as (_&c&t&->&_); discriminate).
  pose proof (leaving_commands perr tail Lv) as Tq.
  eapply (inv_moment errtext o fs f ls h (commands (reads perr tail)) Tq Nf Z s now); [|exact M].
  eapply (steps_inv compile capacity errtext C o fs f ls h (commands (reads perr tail)) Tq Nf Z Fc G L W); [|exact St].
  unfold main. assert (Gl : getLines zero_itor = Val ([], 0%nat)) by (vm_compute; reflexivity). rewrite (begin_runs fs _ _ _ _ Gl).
  split; [split; [exists ls; auto|intros m N1 N2; reflexivity]|]. split; [discriminate|]. intros _. right. right.
  unfold pending. cbn [l_cons l_todo l_ed l_fs app]. rewrite <- sends_commands, main_reads by auto. rewrite R, firstn_all, keyed_commands by (eapply workable_can; eauto).
  eexists. split; [reflexivity|]. repeat split; reflexivity.
Qed.
Print Assumptions C109_file_never_broken.

Definition demo_fs : files := upd (fun _ => None) (B "f") (Some (unlines demo_lines)).
Definition demo_acts : list act := [Do (Append 1 (B "x" ++ [nl] ++ B "y")); Save; Do (Change 1 1 (B "uno")); Do (Print_ 1 2); Save; Do (Delete_ 1 5)].
Lemma demo_workable : workable demo_lines demo_acts.
Proof.
  assert (T : forall t, Forall ed_line (typed t) -> (forall l, In l (typed t) -> ~ In nl l /\ hd nl l <> "."%char) -> List.length (runes_of t) = List.length t -> typable t).
  { intros t F N L. split; auto. split; [split; [apply split_on_nonempty|]|split; auto].
    - intros l Il. apply N in Il as [Il Hd]. split; auto. intros ->. now apply Hd.
    - intros l r Il. assert (J : In l (typed t)) by (destruct (typed t); [destruct Il|now right]). apply N in J as [_ J].
      intros ->. now apply J. }
  assert (T1 : typable (B "x" ++ [nl] ++ B "y")).
  { apply T; [repeat constructor; apply easy_line; vm_compute; (reflexivity || discriminate)| |vm_compute; reflexivity].
    intros l Il; vm_compute in Il; repeat (destruct Il as [<-|Il]; [split; [vm_compute; intros Q; repeat (destruct Q as [Q|Q]; [discriminate Q|]); exact Q|vm_compute; discriminate]|]); destruct Il. }
  assert (T2 : typable (B "uno")).
  { apply T; [repeat constructor; apply easy_line; vm_compute; (reflexivity || discriminate)| |vm_compute; reflexivity].
    intros l Il; vm_compute in Il; repeat (destruct Il as [<-|Il]; [split; [vm_compute; intros Q; repeat (destruct Q as [Q|Q]; [discriminate Q|]); exact Q|vm_compute; discriminate]|]); destruct Il. }
  unfold demo_acts.
  repeat first [ exact I | split; [easy_good|] | (split; [split; [easy_good|try exact I; try easy_good]|split; [vm_compute; repeat split; discriminate|split; [vm_compute; discriminate|split; [first [exact I|exact T1|exact T2]|]]]]) ].
Qed.
Example C108_nonvacuous : file_name (B "f") /\ ed_line (B "e " ++ B "f") /\ demo_fs (B "f") = Some (unlines demo_lines) /\ demo_fs [] = None /\
  workable demo_lines demo_acts /\ leaving (B "q" ++ [nl]) /\ no_failure no_faults /\
  keyed demo_acts = unlines [B "1a"; B "x"; B "y"; B "."; B "w"; B "1,1c"; B "uno"; B "."; B "1,2p"; B "w"; B "1,5d"] /\
  saved demo_lines demo_lines demo_acts = [B "uno"; B "x"; B "y"; B "two"; B ""; B "four"] /\
  exists s, steps (fun _ => None) (fun n => n) [] (fun _ => no_faults) (main (fun _ => []) demo_fs (Some (B "f")) (keyed demo_acts ++ B "q" ++ [nl])) s /\
    stopped (fun _ => None) (fun n => n) [] (fun _ => no_faults) s.
Proof.
  destruct C88_nonvacuous as (N1&N2&_). split; [exact N1|]. split; [exact N2|]. split; [reflexivity|]. split; [reflexivity|].
  split; [exact demo_workable|]. split; [right; exists []; reflexivity|]. split; [repeat split|]. split; [vm_compute; reflexivity|].
  split; [vm_compute; reflexivity|]. apply can_stop.
Qed.
Example C109_nonvacuous : versions demo_lines demo_acts =
  [[B "one"; B "x"; B "y"; B "two"; B ""; B "four"]; [B "uno"; B "x"; B "y"; B "two"; B ""; B "four"]] /\
  exists now, In now (fst (Write [] demo_fs no_faults demo_ed)) /\ now (B "f") = Some (unlines demo_lines) /\ now (swp (B "f")) = Some [].
Proof.
  split; [vm_compute; reflexivity|]. destruct (Write [] demo_fs no_faults demo_ed) as [st r] eqn:E. vm_compute in E. injection E as <- _.
  eexists. split; [left; reflexivity|]. split; vm_compute; reflexivity.
Qed.
