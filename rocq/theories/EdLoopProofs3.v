(* Facts about whole runs of ed, continued: any schedule, quitting, debugging output, starting with a file. *)
From Verif Require Import GoBase GoFacts NumFacts PieceTableModel PieceTableSpec PieceTableProofs EdModel EdSpec EdProofs EdProofs2 RuneFacts
  EdPegModel EdPegSpec EdPegProofs EdPegProofs2 EdPegProofs3 EdPegProofs4 EdPegProofs5 EdLoopModel EdLoopSpec EdLoopProofs EdLoopProofs2.
Local Open Scope nat_scope.

Lemma replies_app : forall a b, replies (a ++ b) = replies a ++ replies b.
Proof. intros. apply flat_map_app. Qed.
Lemma replies_errors : forall l, replies (map OError l) = [].
Proof. induction l; auto. Qed.
Lemma replies_visible : forall l, replies (visible l) = replies l.
Proof. induction l as [|[s|s|s] l IH]; auto; cbn [visible filter replies flat_map app]; fold (visible l) (replies l) (replies (visible l)); now rewrite ?IH. Qed.
Lemma placed_replies : forall errs rep out, placed errs rep out -> replies out = rep.
Proof.
  induction 1; auto.
  - rewrite !replies_app, !replies_errors, IHplaced. reflexivity.
  - apply replies_errors.
Qed.
Lemma placed_quiet : forall errs rep out, placed errs rep out -> (forall e, In e errs -> e = []) -> out = map OReply rep.
Proof.
  induction 1 as [|p s errs r rep out P IH|p s errs]; intros N; auto.
  - pose proof (N _ (or_introl eq_refl)) as Q. apply app_eq_nil in Q as [-> ->]. cbn [map app]. rewrite IH; auto. intros e I. apply N. now right.
  - pose proof (N _ (or_introl eq_refl)) as Q. apply app_eq_nil in Q as [-> ->]. reflexivity.
Qed.

Section Loop.
Variable compile : bytes -> option (bytes -> bool).
Variable capacity : nat -> nat.
Variable errtext : bytes.
Variable o : nat -> faults.
Notation step' := (step compile capacity errtext o).
Notation steps' := (steps compile capacity errtext o).
Notation stopped' := (stopped compile capacity errtext o).
Notation cl := (command_loop compile capacity errtext).

Lemma begin_runs : forall fs ed evs ls n, getLines ed = Val (ls, n) ->
  begin fs ed evs = {| l_todo := evs; l_cons := Idle; l_fs := fs; l_ed := set_current ed (lines_count ls); l_k := 0; l_out := []; l_status := Running |}.
Proof. intros fs ed evs ls n H. unfold begin. now rewrite H. Qed.
Lemma run_from_begin : forall fs ed evs ls n s', getLines ed = Val (ls, n) -> steps' (begin fs ed evs) s' -> stopped' s' ->
  exists rep r out, cl fs o 0 (set_current ed (lines_count ls)) (commands evs) = (rep, r) /\
    visible (l_out s') = map OError (first_errors evs) ++ out /\ placed (errors_after evs) rep out /\ ended r s'.
Proof.
  intros fs ed evs ls n s' G H St. rewrite (begin_runs fs ed evs ls n G) in H.
  destruct (run_stopped compile capacity errtext o _ s' H St) as (out&r&V&C&E); [split; [reflexivity|discriminate]|].
  unfold coming, rest_of in C. cbn [l_todo l_cons l_fs l_k l_ed] in C. unfold commands, first_errors, errors_after.
  destruct (segments evs) as [e l]. destruct C as (rep&out'&Q&P&->). exists rep, r, out'. cbn [fst snd]. auto.
Qed.

(* no run is infinite *)
Lemma runs_end : forall s, Acc (fun a b => step' b a) s.
Proof.
  intros s. remember (weight s) as n. revert s Heqn. induction n as [n IH] using lt_wf_ind. intros s ->. constructor.
  intros s' H. apply step_weight in H. eapply IH; eauto.
Qed.
(* every run can be continued until it stops *)
Lemma classic_step : forall s, (exists s', step' s s') \/ stopped' s.
Proof.
  intros s. destruct (l_status s) eqn:R; [|right; intros s' H; apply not_running in H; congruence|right; intros s' H; apply not_running in H; congruence].
  destruct (l_todo s) as [|[m|c|m] t] eqn:T.
  2:{ left. eexists. eapply st_error; eauto. }
  3:{ left. eexists. eapply st_print; eauto. }
  all: destruct (l_cons s) as [|c'|c'|a|] eqn:C.
  all: try (left; eexists; eapply st_reply; eauto; fail).
  all: try (destruct (processCommand compile capacity errtext (l_fs s) (o (l_k s)) (l_ed s) c') as [[[sts ed'] r]| |] eqn:P;
      left; eexists; [eapply st_run|eapply st_crash|eapply st_hang]; eauto; fail).
  all: try (destruct (c_typ c') eqn:Q; try (left; eexists; apply st_show with (c := c'); auto; rewrite Q; discriminate);
      left; eexists; eapply st_quit; eauto; fail).
  - left. eexists. apply st_closed; auto.
  - right. intros s' H. inversion H; congruence.
  - left. eexists. eapply st_send; eauto.
  - right. intros s' H. inversion H; congruence.
Qed.
Lemma can_stop : forall s, exists s', steps' s s' /\ stopped' s'.
Proof.
  intros s. induction (runs_end s) as [s _ IH]. destruct (classic_step s) as [[s1 H]|H].
  - destruct (IH s1 H) as (s'&H1&H2). exists s'. split; auto. econstructor; eauto.
  - exists s. split; auto. constructor.
Qed.

(* quitting *)
Lemma cmd_quit_dec : forall c, c_typ c = ctquit \/ c_typ c <> ctquit.
Proof. intros c. destruct (c_typ c); auto; right; discriminate. Qed.
Lemma cl_quit : forall cs fs k ed q rest rep fs' ed', c_typ q = ctquit -> cl fs o k ed cs = (rep, Val (fs', ed')) ->
  cl fs o k ed (cs ++ q :: rest) = (rep, Val (fs', ed')).
Proof.
  induction cs as [|c cs IH]; intros fs k ed q rest rep fs' ed' Q H.
  - cbn [app command_loop] in *. now rewrite Q.
  - destruct (cmd_quit_dec c) as [E|E].
    + cbn [app command_loop] in *. now rewrite E in *.
    + cbn [app]. rewrite cl_cons in * by auto. destruct (processCommand compile capacity errtext fs (o k) ed c) as [[[sts ed1] r]| |]; try discriminate.
      destruct (cl (final fs sts) o (S k) ed1 cs) as [w e] eqn:L. injection H as <- ->. now rewrite (IH _ _ _ q rest _ _ _ Q L).
Qed.

(* the output only grows *)
Lemma step_grows : forall s s', step' s s' -> exists x, l_out s' = l_out s ++ x.
Proof.
  intros s s' H. inversion H; subst; cbn [l_out after_read after_cons ends executed]; try (rewrite <- app_assoc); eauto.
  exists []. now rewrite List.app_nil_r.
Qed.
Lemma steps_grow : forall s s', steps' s s' -> exists x, l_out s' = l_out s ++ x.
Proof.
  induction 1 as [s|s s1 s2 H H' [x IH]]; [exists []; now rewrite List.app_nil_r|].
  apply step_grows in H as [y H]. exists (y ++ x). now rewrite IH, H, app_assoc.
Qed.
(* every command whose predecessors were executed is received *)
Lemma reaches : forall s s', steps' s s' -> stopped' s' -> l_status s = Running ->
  forall pre c rest rep fs' ed', Forall (fun d => c_typ d <> ctquit) pre ->
  match l_cons s with
  | Idle | Answer _ => sends (l_todo s) = pre ++ c :: rest /\ cl (l_fs s) o (l_k s) (l_ed s) pre = (rep, Val (fs', ed'))
  | Got d => d :: sends (l_todo s) = pre ++ c :: rest /\ cl (l_fs s) o (l_k s) (l_ed s) pre = (rep, Val (fs', ed'))
  | Busy d => exists pre', pre = d :: pre' /\ sends (l_todo s) = pre' ++ c :: rest /\ cl (l_fs s) o (l_k s) (l_ed s) pre = (rep, Val (fs', ed'))
  | Stuck => False
  end -> exists t, steps' t s' /\ l_status t = Running /\ l_cons t = Got c /\ l_fs t = fs' /\ l_ed t = ed'.
Proof.
  intros s s' H St. induction H as [s|s s1 s2 H H' IH]; intros R pre c rest rep fs' ed' Q P.
  - apply stopped_cases in St; auto. rewrite St in P. contradiction.
  - specialize (IH St).
    inversion H; subst; cbn [l_out l_status l_cons l_todo l_fs l_ed l_k after_read after_cons ends executed] in *.
    + apply (IH R pre c rest rep fs' ed' Q). now rewrite H1 in P.
    + apply (IH R pre c rest rep fs' ed' Q). now rewrite H1 in P.
    + apply (IH R pre c rest rep fs' ed' Q). rewrite H2, H1 in P. exact P.
    + rewrite H2, H1 in P. destruct P as [P _]. now destruct pre.
    + rewrite H1 in P. destruct P as [P P2]. destruct pre as [|d pre].
      * cbn [app] in P. injection P as -> _. cbn [command_loop] in P2. exists s. split; [econstructor; eauto|].
        inversion P2; subst. auto.
      * cbn [app] in P. injection P as -> P. inversion Q; subst. contradiction.
    + rewrite H1 in P. destruct P as [P P2]. destruct pre as [|d pre].
      * cbn [app] in P. injection P as -> _. cbn [command_loop] in P2. exists s. split; [econstructor; eauto|].
        inversion P2; subst. auto.
      * cbn [app] in P. injection P as -> P. apply (IH R (d :: pre) c rest rep fs' ed' Q). eauto.
    + rewrite H1 in P. destruct P as (pre'&->&P&L). inversion Q; subst. rewrite cl_cons in L by auto. rewrite H2 in L.
      destruct (cl (final (l_fs s) states) o (S (l_k s)) ed'0 pre') as [w e] eqn:E. injection L as _ ->.
      apply (IH R pre' c rest w fs' ed'); auto.
    + rewrite H1 in P. destruct P as (pre'&->&P&L). inversion Q; subst. rewrite cl_cons in L by auto. rewrite H2 in L. discriminate.
    + rewrite H1 in P. destruct P as (pre'&->&P&L). inversion Q; subst. rewrite cl_cons in L by auto. rewrite H2 in L. discriminate.
    + apply (IH R pre c rest rep fs' ed' Q). now rewrite H1 in P.
Qed.
(* and everything to be printed before the next command is printed *)
Lemma reaches_print : forall s s', steps' s s' -> stopped' s' -> l_status s = Running ->
  forall evs m rest pre rep fs' ed', l_todo s = evs ++ RPrint m :: rest -> Forall (fun d => c_typ d <> ctquit) pre ->
  match l_cons s with
  | Idle | Answer _ => pre = sends evs
  | Got d | Busy d => pre = d :: sends evs
  | Stuck => False
  end -> cl (l_fs s) o (l_k s) (l_ed s) pre = (rep, Val (fs', ed')) -> In (ODebug m) (l_out s').
Proof.
  intros s s' H St. induction H as [s|s s1 s2 H H' IH]; intros R evs m rest pre rep fs' ed' T Q P L.
  - apply stopped_cases in St; auto. rewrite St in P. contradiction.
  - specialize (IH St).
    inversion H; subst; cbn [l_out l_status l_cons l_todo l_fs l_ed l_k after_read after_cons ends executed] in *.
    + destruct evs as [|v evs]; cbn [app] in T; rewrite H1 in T; [discriminate|]. injection T as <- T.
      apply (IH R evs m rest pre rep fs' ed' T Q); auto.
    + destruct evs as [|v evs]; cbn [app] in T; rewrite H1 in T.
      * injection T as -> T. apply steps_grow in H' as [y ->]. cbn [l_out after_read]. apply in_or_app. left. apply in_or_app. right. now left.
      * injection T as <- T. apply (IH R evs m rest pre rep fs' ed' T Q); auto.
    + destruct evs as [|v evs]; cbn [app] in T; rewrite H1 in T; [discriminate|]. injection T as <- T. rewrite H2 in P. cbn [sends] in P.
      apply (IH R evs m rest pre rep fs' ed' T Q); auto.
    + rewrite H1 in T. now destruct evs.
    + rewrite H1 in P. subst pre. inversion Q; subst. contradiction.
    + rewrite H1 in P. apply (IH R evs m rest pre rep fs' ed' T Q); auto.
    + rewrite H1 in P. subst pre. inversion Q; subst. rewrite cl_cons in L by auto. rewrite H2 in L.
      destruct (cl (final (l_fs s) states) o (S (l_k s)) ed'0 (sends evs)) as [w e] eqn:E. injection L as _ ->.
      apply (IH R evs m rest (sends evs) w fs' ed' T); auto.
    + rewrite H1 in P. subst pre. inversion Q; subst. rewrite cl_cons in L by auto. rewrite H2 in L. discriminate.
    + rewrite H1 in P. subst pre. inversion Q; subst. rewrite cl_cons in L by auto. rewrite H2 in L. discriminate.
    + rewrite H1 in P. apply (IH R evs m rest pre rep fs' ed' T Q); auto.
Qed.
(* and printed *)
Lemma received_shown : forall t s' c, steps' t s' -> stopped' s' -> l_status t = Running -> l_cons t = Got c ->
  In (ODebug (show_cmd c)) (l_out s') /\ (c_typ c <> ctquit -> incl (map ODebug (notes (l_ed t) c)) (l_out s')).
Proof.
  intros t s' c H St. induction H as [s|s s1 s2 H H' IH]; intros R P.
  - apply stopped_cases in St; auto. congruence.
  - specialize (IH St).
    assert (Here : forall x, In x (l_out s1) -> In x (l_out s2)).
    { intros x I. apply steps_grow in H' as [y ->]. apply in_or_app. now left. }
    inversion H; subst; cbn [l_out l_status l_cons l_todo l_fs l_ed l_k after_read after_cons ends executed] in *; try congruence.
    + apply IH; auto.
    + apply IH; auto.
    + assert (c0 = c) by congruence. subst c0. split; [|contradiction]. apply Here. apply in_or_app. right. now left.
    + assert (c0 = c) by congruence. subst c0. split; [apply Here; apply in_or_app; right; now left|]. intros _. clear IH Here.
      set (s1 := after_cons s (Busy c) [ODebug (show_cmd c)]) in *.
      assert (G : l_cons s1 = Busy c /\ l_ed s1 = l_ed s /\ l_status s1 = Running) by (split; [reflexivity|split; auto]).
      clearbody s1. clear H P H2 H0. revert G. induction H' as [z|z z1 z2 H H' IH]; intros (G1&G2&G3).
      * apply stopped_cases in St; auto. congruence.
      * specialize (IH St).
        assert (Here : incl (map ODebug (notes (l_ed s) c)) (l_out z1) -> incl (map ODebug (notes (l_ed s) c)) (l_out z2)).
        { intros I x X. apply I in X. apply steps_grow in H' as [y ->]. apply in_or_app. now left. }
        inversion H; subst; cbn [l_out l_status l_cons l_todo l_fs l_ed l_k after_read after_cons ends executed] in *; try congruence.
        -- apply IH; auto.
        -- apply IH; auto.
        -- apply Here. assert (c0 = c) by congruence. subst c0. rewrite G2. apply incl_appr, incl_refl.
        -- apply Here. assert (c0 = c) by congruence. subst c0. rewrite G2. apply incl_appr, incl_refl.
        -- apply Here. assert (c0 = c) by congruence. subst c0. rewrite G2. apply incl_appr, incl_refl.
Qed.
End Loop.

(* ---- starting with a file ---- *)
Lemma raw_lines_cons : forall l b, ~ In nl l -> raw_lines (l ++ nl :: b) = l :: raw_lines b.
Proof.
  intros l b N. unfold raw_lines. rewrite split_on_app by auto. pose proof (split_on_nonempty nl b).
  destruct (split_on nl b) as [|x r]; [congruence|].
  change (last (l :: x :: r) []) with (last (x :: r) []). change (removelast (l :: x :: r)) with (l :: removelast (x :: r)).
  destruct (last (x :: r) []); reflexivity.
Qed.
Lemma scan_lines_cons : forall l b, ed_line l -> scan_lines (l ++ nl :: b) = let '(ls, e) := scan_lines b in (l :: ls, e).
Proof.
  intros l b (N&C&L). unfold scan_lines. rewrite raw_lines_cons by auto. cbn [scan_segs].
  destruct (max_token <=? N.of_nat (List.length l))%N eqn:E; [unfold max_token, len in *; lia|].
  destruct (scan_segs (raw_lines b)). f_equal. f_equal. now apply drop_cr_ed_line.
Qed.
Lemma not_text_e : forall t, multlineCmdStart (B "e " ++ t) = false.
Proof. intros t. apply not_text_char with (x := "e"%char); try reflexivity. now left. Qed.
Lemma main_reads : forall perr f input, file_name f -> ed_line (B "e " ++ f) ->
  commands (reads perr (main_input (Some f) input)) =
  the_command ctedit zero_address zero_address [] [firstn (List.length (runes_of f)) f] :: commands (reads perr input).
Proof.
  intros perr f input F E. rewrite !sends_commands. unfold reads, main_input.
  replace (B "e " ++ f ++ [nl] ++ input) with ((B "e " ++ f) ++ nl :: input) by now rewrite <- app_assoc.
  rewrite scan_lines_cons by auto. destruct (scan_lines input) as [ls tl]. rewrite buffers_plain by apply not_text_e. cbn [flat_map].
  rewrite !sends_app.
  assert (P : parsed ((B "e " ++ f) ++ [nl]) [the_command ctedit zero_address zero_address [] [firstn (List.length (runes_of f)) f]]).
  { rewrite <- app_assoc. apply (file_name_command [] "e" ctedit (B " ") f); auto using blanks_nil; [now left|repeat constructor|discriminate]. }
  destruct (handle_parsed perr _ _ P) as (evs&Q&S&_). change (match handle perr ((B "e " ++ f) ++ [nl]) with Val l => l | _ => [] end) with
    (match handle perr ((B "e " ++ f) ++ [nl]) with Val l => l | _ => [] end). rewrite Q, S. reflexivity.
Qed.

(* ---- cutting the input ---- *)
Lemma join_unlines : forall ls, ls <> [] -> join [nl] ls ++ [nl] = unlines ls.
Proof.
  induction ls as [|l ls IH]; intros N; [congruence|]. destruct ls as [|l2 ls]; [cbn; now rewrite List.app_nil_r|].
  change (join [nl] (l :: l2 :: ls)) with (l ++ nl :: join [nl] (l2 :: ls)). rewrite <- app_assoc. cbn [app].
  rewrite IH by discriminate. change (unlines (l :: l2 :: ls)) with ((l ++ [nl]) ++ unlines (l2 :: ls)). now rewrite <- app_assoc.
Qed.
Lemma until_dot_parts : forall ls a b, until_dot ls = (a, b) -> ls = a ++ b.
Proof.
  induction ls as [|l ls IH]; intros a b H; cbn [until_dot] in H; [injection H as <- <-; auto|].
  destruct (beqb l (B ".")); [injection H as <- <-; auto|]. destruct (until_dot ls) as [a' b']. injection H as <- <-.
  cbn [app]. f_equal. auto.
Qed.
Lemma until_dot_shape : forall ls a b, until_dot ls = (a, b) -> exists t, (forall x, In x t -> x <> B ".") /\ (a = t ++ [B "."] \/ a = t /\ b = []).
Proof.
  induction ls as [|l ls IH]; intros a b H; cbn [until_dot] in H.
  - injection H as <- <-. exists []. split; [intros x []|]. now right.
  - destruct (beqb l (B ".")) eqn:E.
    + injection H as <- <-. exists []. split; [intros x []|]. left. apply beqb_eq in E. now subst.
    + destruct (until_dot ls) as [a' b'] eqn:U. injection H as <- <-. destruct (IH _ _ eq_refl) as (t&N&Q). exists (l :: t). split.
      * intros x [<-|I]; auto. intros Q'. apply beqb_eq in Q'. congruence.
      * destruct Q as [-> |[-> ->]]; auto.
Qed.

Lemma fits_seq : forall l s, fits l s -> seq_match l s = true.
Proof.
  induction 1; auto using seq_many, seq_skip, seq_maybe, seq_maybe_not.
  cbn [seq_match]. now rewrite H, IHfits.
Qed.
Lemma re_space_spec : forall s, Forall (fun c => re_space c = true) s <-> Forall white_space s.
Proof.
  intros s. rewrite !Forall_forall. split; intros H c I; apply H in I; unfold re_space, white_space in *.
  - rewrite !orb_true_iff, !Ascii.eqb_eq in I. cbn [In]. intuition.
  - rewrite !orb_true_iff, !Ascii.eqb_eq. cbn [In] in I. intuition.
Qed.
Lemma re_addr_spec : forall s, Forall (fun c => re_addr c = true) s <-> Forall address_char s.
Proof.
  intros s. rewrite !Forall_forall. split; intros H c I; apply H in I; unfold re_addr, in_range, address_char, is_dec_digit in *;
    unfold byte_val in *.
  - rewrite !orb_true_iff, andb_true_iff, !N.leb_le, !Ascii.eqb_eq in I. tauto.
  - rewrite !orb_true_iff, andb_true_iff, !N.leb_le, !Ascii.eqb_eq. tauto.
Qed.
Lemma start_spec : forall l, multlineCmdStart l = true <-> starts_text l.
Proof.
  intros l. split; intros H.
  - apply seq_fits in H. unfold starts_text.
    inversion H as [|? ? s1 r1 F1 H1| | |]; subst. inversion H1 as [|? ? a1 r2 F2 H2| | |]; subst. inversion H2 as [|? ? s2 r3 F3 H3| | |]; subst.
    assert (C : exists c r4, (c = [] \/ c = B ",") /\ r3 = c ++ r4 /\ fits [Many re_space; Many re_addr; Many re_space;
             Once (fun c => Ascii.eqb c "a" || Ascii.eqb c "i" || Ascii.eqb c "c")%bool; Many re_space] r4).
    { inversion H3 as [| |? ? ? G|? ? c ? P G|]; subst; [exists [], r3; auto|]. apply Ascii.eqb_eq in P. subst. exists (B ","), s. auto. }
    destruct C as (c&r4&Cc&->&H4).
    inversion H4 as [|? ? s3 r5 F5 H5| | |]; subst. inversion H5 as [|? ? a2 r6 F6 H6| | |]; subst. inversion H6 as [|? ? s4 r7 F7 H7| | |]; subst.
    inversion H7 as [| | | |? ? x r8 P H8]; subst. inversion H8 as [|? ? s5 r9 F9 H9| | |]; subst. inversion H9; subst.
    apply re_space_spec in F1, F3, F5, F7, F9. apply re_addr_spec in F2, F6.
    exists s1, a1, s2, c, s3, a2, s4, x, s5. rewrite List.app_nil_r. repeat (split; [assumption|]). split; [|split; auto].
    + apply orb_true_iff in P as [P|P]; [apply orb_true_iff in P as [P|P]|]; apply Ascii.eqb_eq in P; subst; [now left|right; now left|right; now right].
  - destruct H as (s1&a1&s2&c&s3&a2&s4&x&s5&F1&F2&F3&C&F4&F5&F6&X&F7&->). apply fits_seq.
    apply re_space_spec in F1, F3, F4, F6, F7. apply re_addr_spec in F2, F5.
    repeat (apply fits_many; [assumption|]).
    assert (G : fits [Many re_space; Many re_addr; Many re_space;
             Once (fun c => Ascii.eqb c "a" || Ascii.eqb c "i" || Ascii.eqb c "c")%bool; Many re_space] (s3 ++ a2 ++ s4 ++ [x] ++ s5)).
    { repeat (apply fits_many; [assumption|]). cbn [app]. apply fits_once; [destruct X as [-> |[-> | ->]]; reflexivity|].
      rewrite <- (List.app_nil_r s5). apply fits_many; [assumption|constructor]. }
    destruct C as [-> | ->]; [now apply fits_maybe_not|now apply fits_maybe].
Qed.
Lemma buffers_grouped : forall lines, exists g, grouped lines g /\ buffers lines = map unlines g.
Proof.
  intros lines. remember (List.length lines) as n. revert lines Heqn. induction n as [n IH] using lt_wf_ind. intros lines ->.
  destruct lines as [|l r]; [exists []; split; constructor|].
  destruct (multlineCmdStart l) eqn:M.
  - destruct (until_dot r) as [a b] eqn:U. pose proof (until_dot_parts _ _ _ U). pose proof (until_dot_shorter _ _ _ U) as L.
    destruct (until_dot_shape _ _ _ U) as (t&N&Q).
    assert (E : buffers (l :: r) = unlines (l :: a) :: buffers b).
    { unfold buffers. cbn [List.length buffers_from]. rewrite M, U. rewrite join_unlines by discriminate. f_equal. now apply buffers_fuel. }
    apply start_spec in M. destruct Q as [-> |[-> ->]].
    + destruct (IH (List.length b)) with (lines := b) as (g&G&Bu); auto; [cbn; lia|].
      exists ((l :: t ++ [B "."]) :: g). split; [subst r; rewrite <- app_assoc; now apply grouped_text|]. cbn [map]. now rewrite E, Bu.
    + exists [l :: t]. split; [subst r; rewrite List.app_nil_r; now apply grouped_open|]. now rewrite E.
  - destruct (IH (List.length r)) with (lines := r) as (g&G&Bu); auto. exists ([l] :: g). split.
    + apply grouped_line; auto. intros Q. apply start_spec in Q. congruence.
    + rewrite buffers_plain by auto. cbn [map]. rewrite Bu. f_equal. cbn. now rewrite List.app_nil_r.
Qed.
Lemma grouped_concat : forall lines g, grouped lines g -> concat g = lines.
Proof.
  induction 1; cbn [concat app]; auto.
  - now rewrite IHgrouped.
  - rewrite IHgrouped. now rewrite <- app_assoc.
  - now rewrite List.app_nil_r.
Qed.

(* ---- the debugging text ---- *)
Lemma addr_text : forall a, go_address a (show_addr a).
Proof. intros [t x k]. unfold go_address, show_addr. cbn [a_typ a_text a_offset].
  exists (Z.to_nat (addr_index t)). destruct t; split; reflexivity. Qed.
Lemma cmd_text : forall c, exists g, go_command c g /\ show_cmd c = B "cmd " ++ g ++ [nl].
Proof.
  intros c. eexists. split.
  - exists (cmd_index (c_typ c)), (show_addr (c_start c)), (show_addr (c_end c)), (show_addr (c_dest c)).
    repeat (split; [apply addr_text || (destruct (c_typ c); reflexivity)|]). reflexivity.
  - unfold show_cmd. change (B "cmd {") with (B "cmd " ++ B "{"). now rewrite <- !app_assoc.
Qed.

(* ---- an overlong line ---- *)
Lemma scan_overlong : forall pre x rest, Forall ed_line pre -> ~ In nl x -> (65536 <= len x)%Z -> rest = [] \/ (exists r, rest = nl :: r) ->
  scan_lines (unlines pre ++ x ++ rest) = (pre, true).
Proof.
  intros pre x rest F N L R. induction F as [|l pre Hl F IH].
  - cbn [unlines flat_map app]. unfold scan_lines.
    assert (E : exists q, raw_lines (x ++ rest) = x :: q).
    { destruct R as [->|[r ->]].
      - rewrite List.app_nil_r. unfold raw_lines. rewrite split_on_no_sep by auto. cbn [last].
        destruct x; [unfold len in L; cbn in L; lia|]. now exists [].
      - rewrite raw_lines_cons by auto. eauto. }
    destruct E as [q ->]. cbn [scan_segs]. unfold max_token. destruct (N.leb_spec 65536 (N.of_nat (List.length x))); [reflexivity|unfold len in L; lia].
  - replace (unlines (l :: pre) ++ x ++ rest) with (l ++ nl :: (unlines pre ++ x ++ rest)).
    + rewrite scan_lines_cons by auto. now rewrite IH.
    + cbn [unlines flat_map]. now rewrite <- !app_assoc.
Qed.
Lemma reads_overlong : forall perr pre x rest, Forall ed_line pre -> ~ In nl x -> (65536 <= len x)%Z -> rest = [] \/ (exists r, rest = nl :: r) ->
  reads perr (unlines pre ++ x ++ rest) = reads perr (unlines pre) ++ [RPrint (B "Err: bufio.Scanner: token too long" ++ [nl])].
Proof.
  intros perr pre x rest F N L R. unfold reads. rewrite scan_overlong by auto.
  assert (E : scan_lines (unlines pre) = (pre, false)).
  { clear - F. induction F as [|l pre Hl F IH]; [reflexivity|].
    replace (unlines (l :: pre)) with (l ++ nl :: unlines pre) by (cbn [unlines flat_map]; now rewrite <- app_assoc).
    rewrite scan_lines_cons by auto. now rewrite IH. }
  rewrite E. now rewrite List.app_nil_r.
Qed.
