(* Facts about sessions of ed that save the file. *)
From Verif Require Import GoBase GoFacts NumFacts PieceTableModel PieceTableSpec PieceTableProofs EdModel EdSpec EdProofs EdProofs2 RuneFacts
  EdPegModel EdPegSpec EdPegProofs EdPegProofs2 EdPegProofs3 EdPegProofs4 EdPegProofs5 EdLoopModel EdLoopSpec EdLoopProofs EdLoopProofs2 EdLoopProofs3 EdFileSpec.
Local Open Scope Z_scope.

Definition act_command (a : act) : command :=
  match a with Do c => concrete c | Save => the_command ctwrite zero_address zero_address [] [] end.

(* ---- what is read ---- *)
Definition can_do (a : act) : Prop := match a with Do c => doable c | Save => True end.
Lemma workable_can : forall h ls, len (unlines ls) <= max_int64 -> workable ls h -> Forall can_do h.
Proof.
  assert (Zl : forall ls, len (unlines ls) <= max_int64 -> lines_count ls <= max_int64) by (intros ls L; pose proof (lines_le_len ls); lia).
  induction h as [|[c|] h IH]; intros ls L V; constructor.
  - destruct V as (_&V&_&T&_). apply Zl in L. unfold can_do.
    destruct c; cbn [valid doable] in *; repeat match goal with |- _ /\ _ => split end; auto; try lia.
  - destruct V as (_&Vc&F&_&V). apply (IH (aedit ls c)); auto.
    destruct c; cbn [aedit text_of] in *; auto.
    + rewrite typed_len. unfold upto, after. rewrite firstn_skipn. lia.
    + rewrite typed_len. unfold upto, after. rewrite firstn_skipn. lia.
    + rewrite typed_len. cbn [valid] in Vc. pose proof (cut_len ls m n). lia.
    + cbn [valid] in Vc. pose proof (cut_len ls m n). lia.
  - exact I.
  - destruct V as (_&V). now apply (IH ls).
Qed.
Lemma ed_line_w : ed_line (B "w").
Proof. apply (cmd_line_ed [] "w"); [cbn; lia|intros []|discriminate|discriminate]. Qed.
Lemma act_lines_ed : forall h, Forall can_do h -> Forall ed_line (concat (map act_lines h)).
Proof.
  induction 1 as [|[c|] h D F IH]; cbn [map concat act_lines]; [constructor| |]; apply Forall_app; split; auto.
  - now apply script_lines, doable_cut.
  - constructor; [apply ed_line_w|constructor].
Qed.
Lemma scan_lines_app : forall a b, Forall ed_line a -> scan_lines (unlines a ++ b) = let '(ls, e) := scan_lines b in (a ++ ls, e).
Proof.
  induction 1 as [|l a E F IH]; [cbn; now destruct (scan_lines b)|].
  change (unlines (l :: a)) with ((l ++ [nl]) ++ unlines a). rewrite <- !app_assoc. cbn [app]. rewrite scan_lines_cons by auto.
  rewrite IH. now destruct (scan_lines b).
Qed.
Lemma act_buffer : forall a rest, can_do a -> exists b, buffers (act_lines a ++ rest) = b :: buffers rest /\ parsed b [act_command a].
Proof.
  intros [c|] rest D; [now apply script_buffer|]. exists (B "w" ++ [nl]). split.
  - cbn [act_lines app]. apply buffers_plain. reflexivity.
  - eexists. split; vm_compute; reflexivity.
Qed.
Lemma acts_buffers : forall h rest, Forall can_do h ->
  exists bs, buffers (concat (map act_lines h) ++ rest) = bs ++ buffers rest /\ Forall2 (fun b c => parsed b [c]) bs (map act_command h).
Proof.
  intros h rest. induction 1 as [|a h D F (bs&E&IH)]; [exists []; split; [reflexivity|constructor]|].
  cbn [map concat]. rewrite <- app_assoc. destruct (act_buffer a (concat (map act_lines h) ++ rest) D) as (b&Q&P).
  exists (b :: bs). split; [now rewrite Q, E|]. constructor; auto.
Qed.
Lemma keyed_commands : forall perr h tail, Forall can_do h ->
  commands (reads perr (keyed h ++ tail)) = map act_command h ++ commands (reads perr tail).
Proof.
  intros perr h tail D. rewrite !sends_commands. unfold reads, keyed. rewrite scan_lines_app by now apply act_lines_ed.
  destruct (scan_lines tail) as [ls e]. destruct (acts_buffers h ls D) as (bs&E&F). rewrite E, flat_map_app, !sends_app.
  fold (read_bufs perr bs). destruct (read_parsed perr bs _ F) as [Q _]. now rewrite Q, <- app_assoc.
Qed.
Lemma leaving_commands : forall perr tail, leaving tail ->
  commands (reads perr tail) = [] \/ exists q rest, commands (reads perr tail) = q :: rest /\ c_typ q = ctquit.
Proof.
  intros perr tail [->|[r ->]]; [left; reflexivity|right]. rewrite sends_commands. unfold reads.
  assert (E : ed_line (B "q")) by (apply (cmd_line_ed [] "q"); [cbn; lia|intros []|discriminate|discriminate]).
  rewrite scan_lines_cons by auto. destruct (scan_lines r) as [ls e]. rewrite buffers_plain by reflexivity. cbn [flat_map].
  assert (P : parsed (B "q" ++ [nl]) [the_command ctquit zero_address zero_address [] []]) by (eexists; split; vm_compute; reflexivity).
  destruct (handle_parsed perr _ _ P) as (evs&->&Q&_). rewrite !sends_app, Q. cbn [app]. eexists _, _. split; [reflexivity|reflexivity].
Qed.

(* ---- what is done ---- *)
Section R.
Variable compile : bytes -> option (bytes -> bool).
Variable capacity : nat -> nat.
Variable errtext : bytes.
Hypothesis cap : forall n, (n <= capacity n)%nat.
Notation process := (processCommand compile capacity errtext).
Notation cl := (command_loop compile capacity errtext).

Lemma insert_name : forall ed n t ed', insertBeforeLine ed n t = Val ed' -> e_filename ed' = e_filename ed.
Proof.
  clear. intros ed n t ed' H. unfold insertBeforeLine in H. destruct (getLineAddr ed n) as [a| |]; cbn [obind] in H; try discriminate.
  unfold insert_at in H. destruct (pt_insert _ _ _) as [pt []]; try discriminate. now injection H as <-.
Qed.
Lemma delete_name : forall ed m n ed', Delete ed m n = Val ed' -> e_filename ed' = e_filename ed.
Proof.
  clear. intros ed m n ed' H. unfold Delete in H. destruct (getLineAddr ed m) as [a| |]; cbn [obind] in H; try discriminate.
  destruct (getLineAddr ed _) as [b| |]; cbn [obind] in H; try discriminate. now injection H as <-.
Qed.
Lemma default_typ : forall c, c_typ (setDefaultAddresses c) = c_typ c.
Proof. clear. intros c. unfold setDefaultAddresses. destruct (is_null (c_start c)), (is_null (c_end c)), (c_typ c); reflexivity. Qed.
Lemma concrete_name : forall fs o ed c states ed' r, process fs o ed (concrete c) = Val (states, ed', r) -> e_filename ed' = e_filename ed.
Proof.
  clear cap. intros fs o ed c states ed' r H. unfold processCommand in H. cbv zeta in H. set (cmd := setDefaultAddresses (concrete c)) in H.
  assert (T : c_typ cmd = c_typ (concrete c)) by (unfold cmd; apply default_typ). rewrite T in H. clearbody cmd.
  destruct c as [n t|n t|m n t|m n|m n|m n|n]; cbn [concrete cmd_at c_typ] in H;
    repeat match type of H with
      | obind ?m _ = Val _ => let E := fresh "E" in destruct m eqn:E; cbn [obind] in H; try discriminate
      end.
  all: repeat match goal with H : insertBeforeLine _ _ _ = Val _ |- _ => apply insert_name in H | H : Delete _ _ _ = Val _ |- _ => apply delete_name in H end.
  all: cbv beta in H; injection H as <- <- <-; cbn [set_current e_filename]; congruence.
Qed.

(* a successful w *)
Lemma write_ok : forall fs o ed ls content, buffer ed ls -> good ls -> no_failure o -> fs (e_filename ed) = Some content ->
  exists states ed', process fs o ed (act_command Save) = Val (states, ed', []) /\ buffer ed' ls /\ e_filename ed' = e_filename ed /\
    final fs states (e_filename ed) = Some (unlines ls) /\ final fs states (swp (e_filename ed)) = None /\
    (forall m, m <> e_filename ed -> m <> swp (e_filename ed) -> final fs states m = fs m).
Proof.
  clear cap. intros fs o ed ls content H G (F1&F2&F3&F4&F5&F6&F7) Fc.
  assert (D : pt_string (e_pt ed) = Ok (unlines ls)) by exact (holds_string _ _ H).
  assert (L : len (unlines ls) <= max_int64) by exact (holds_len _ _ H).
  assert (W : exists states ed', Write errtext fs o ed = (states, Val (ed', None))).
  { unfold Write. rewrite D, F1, Fc. cbn [orb]. unfold WriteFile. rewrite F2, F3, F4. cbn [negb]. rewrite F5.
    match goal with |- context [Edit _ ?x _ _ _] => set (fs2 := x) end.
    assert (E2 : fs2 (e_filename ed) = Some (unlines ls)).
    { unfold fs2. rewrite upd_other by apply not_eq_sym, swp_differs. rewrite upd_same.
      unfold final. rewrite app_comm_cons, last_last. apply upd_same. }
    destruct (edit_ok errtext fs2 o (set_pt ed (pt_close (e_pt ed))) (e_filename ed) (unlines ls) E2 F6 F7 _ L (text_lines_good ls G)) as (ed'&E&_).
    rewrite E. eauto. }
  destruct W as (states&ed'&W). exists states, ed'.
  destruct (write_states_spec errtext fs o ed _ _ _ D W) as [W1 W2]. destruct (W2 _ eq_refl) as [W3 W4].
  destruct (write_reloads errtext fs o ed _ _ _ D L W) as [W5 W6].
  split; [unfold processCommand; change (c_typ (setDefaultAddresses (act_command Save))) with ctwrite; cbv iota; now rewrite W|].
  split; auto. split; auto. split; auto. split; auto.
  intros m N1 N2. destruct states as [|s0 states]; [reflexivity|]. unfold final.
  apply (W1 (last (s0 :: states) fs)); auto. pose proof (@app_removelast_last _ (s0 :: states) fs ltac:(discriminate)) as Q.
  rewrite Q at 2. apply in_or_app. right. now left.
Qed.
Definition sees_save (h : list act) : bool := existsb (fun a => match a with Save => true | _ => false end) h.
Lemma acts_ok : forall h fs o k ed ls file, (forall n, no_failure (o n)) -> buffer ed ls -> workable ls h ->
  fs (e_filename ed) = Some (unlines file) ->
  exists fs' ed', cl fs o k ed (map act_command h) = (answers ls h, Val (fs', ed')) /\
    fs' (e_filename ed) = Some (unlines (saved ls file h)) /\
    fs' (swp (e_filename ed)) = (if sees_save h then None else fs (swp (e_filename ed))) /\
    (forall m, m <> e_filename ed -> m <> swp (e_filename ed) -> fs' m = fs m).
Proof.
  induction h as [|[c|] h IH]; intros fs o k ed ls file No H V Ff.
  - exists fs, ed. repeat split; auto.
  - destruct V as (G&Vc&F&_&V). destruct (step_ok compile capacity errtext cap fs (o k) ed ls c H G Vc F) as (ed1&E&B1).
    pose proof (concrete_name _ _ _ _ _ _ _ E) as Nm.
    destruct (IH fs o (S k) ed1 _ file No B1 V) as (fs'&ed2&E2&P); [now rewrite Nm|]. rewrite Nm in P.
    exists fs', ed2. split; [|exact P]. cbn [map act_command answers].
    rewrite cl_cons by (destruct c; discriminate). rewrite E. cbn [final last]. now rewrite E2.
  - destruct V as [G V]. destruct (write_ok fs (o k) ed ls _ H G (No k) Ff) as (states&ed1&E&B1&Nm&P1&P2&P3).
    destruct (IH (final fs states) o (S k) ed1 ls ls No B1 V) as (fs'&ed2&E2&Q1&Q2&Q3); [now rewrite Nm|]. rewrite Nm in *.
    exists fs', ed2. split.
    + cbn [map answers]. rewrite cl_cons by discriminate. rewrite E, E2. reflexivity.
    + cbn [saved sees_save existsb orb]. split; auto. split; [|intros m N1 N2; now rewrite Q3, P3].
      rewrite Q2. destruct (sees_save h); auto.
Qed.
End R.
