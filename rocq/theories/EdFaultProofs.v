(* Sessions of ed in which system calls fail: what becomes of the file. *)
From Verif Require Import GoBase GoFacts NumFacts PieceTableModel PieceTableSpec PieceTableProofs EdModel EdSpec EdProofs EdProofs2 RuneFacts
  EdPegModel EdPegSpec EdPegProofs EdPegProofs2 EdPegProofs3 EdPegProofs4 EdPegProofs5 EdLoopModel EdLoopSpec EdLoopProofs EdLoopProofs2 EdLoopProofs3
  EdFileSpec EdFileProofs.
Local Open Scope Z_scope.
Notation pclosed := PieceTableModel.closed.

(* the first ends in a panic, or both end alike *)
Definition osim {A} (R : A -> A -> Prop) (x y : out A) : Prop :=
  x = Crashes \/ match x, y with Val a, Val b => R a b | Hangs, Hangs => True | _, _ => False end.
Lemma osim_bind : forall {A C} (R : A -> A -> Prop) (Q : C -> C -> Prop) x y f g, osim R x y ->
  (forall a b, R a b -> osim Q (f a) (g b)) -> osim Q (obind x f) (obind y g).
Proof.
  intros A C R Q x y f g [->|H] F; [left; reflexivity|]. destruct x, y; try contradiction; cbn [obind]; auto. right. exact I.
Qed.
Lemma osim_eq : forall {A} (x : out A), osim eq x x.
Proof. intros A [a| |]; [right; reflexivity|left; reflexivity|right; exact I]. Qed.
Lemma osim_val : forall {A} (R : A -> A -> Prop) a b, R a b -> osim R (Val a) (Val b).
Proof. intros. right. auto. Qed.

(* the same table, its file closed or not *)
Definition shut (pt : piece_table) (b : bool) : piece_table :=
  {| orig := orig pt; closable := closable pt; PieceTableModel.closed := b; appendb := appendb pt; head := head pt |}.
Definition like (ed ed0 : itor) : Prop :=
  e_filename ed = e_filename ed0 /\ e_current ed = e_current ed0 /\ exists b, e_pt ed = shut (e_pt ed0) b.
Lemma like_refl : forall ed, like ed ed.
Proof. intros ed. split; auto. split; auto. exists (pclosed (e_pt ed)). now destruct (e_pt ed). Qed.
Lemma like_current : forall ed ed0 n, like ed ed0 -> like (set_current ed n) (set_current ed0 n).
Proof. intros ed ed0 n (H1&H2&b&H3). split; auto. split; auto. now exists b. Qed.
Lemma shut_pieces : forall pt b ps, pclosed pt = false ->
  string_pieces (shut pt b) ps = string_pieces pt ps \/ string_pieces (shut pt b) ps = Panic.
Proof.
  intros pt b ps C. induction ps as [|p ps IH]; cbn [string_pieces] in *; auto.
  destruct (plen p =? 0); auto. destruct (plen p <? 0); auto.
  assert (E : piece_read (shut pt b) p = piece_read pt p \/ piece_read (shut pt b) p = None).
  { unfold piece_read, read_at in *. cbn [orig PieceTableModel.closed shut]. rewrite C. destruct (prdr p); auto. destruct b; auto. }
  destruct E as [-> | ->]; auto. destruct (piece_read pt p); auto. destruct IH as [-> | ->]; auto.
Qed.
Lemma shut_string : forall pt b, pclosed pt = false -> pt_string (shut pt b) = pt_string pt \/ pt_string (shut pt b) = Panic.
Proof.
  intros pt b C. unfold pt_string in *. cbn [head shut]. destruct (total_len (head pt) <? 0); auto. now apply shut_pieces.
Qed.
Lemma insert_shut : forall pt t a b, pt_insert (shut pt b) t a = (shut (fst (pt_insert pt t a)) b, snd (pt_insert pt t a)).
Proof.
  intros. unfold pt_insert. cbn [head appendb shut]. destruct (head pt); [reflexivity|].
  destruct (insert_pieces _ _ _ _ _) as [[ps buf]|]; reflexivity.
Qed.
Lemma delete_shut : forall pt t a b, pt_delete (shut pt b) t a = shut (pt_delete pt t a) b.
Proof. reflexivity. Qed.

Section Sim.
Variable compile : bytes -> option (bytes -> bool).
Variable capacity : nat -> nat.
Variable errtext : bytes.
Hypothesis cap : forall n, (n <= capacity n)%nat.
Notation process := (processCommand compile capacity errtext).
Notation cl := (command_loop compile capacity errtext).

Definition open_ (ed : itor) : Prop := pclosed (e_pt ed) = false.
Lemma insert_closed : forall pt t a, pclosed (fst (pt_insert pt t a)) = pclosed pt.
Proof. clear. intros. unfold pt_insert. destruct (head pt); [reflexivity|]. now destruct (insert_pieces _ _ _ _ _) as [[ps buf]|]. Qed.
Lemma holds_open : forall ed s, holds ed s -> open_ ed.
Proof.
  clear. intros ed s (content&cc&n&es&_&_&_&R&_). unfold open_.
  assert (G : forall es pt pt', run_edits pt es = (pt', Returned) -> pclosed pt' = pclosed pt).
  { clear. induction es as [|[t a|k a] es IH]; intros pt pt' H; cbn [run_edits] in H; [now injection H as <-| |].
    - pose proof (insert_closed pt t a) as Q. destruct (pt_insert pt t a) as [pt1 []]; [|discriminate]. cbn [fst] in Q. apply IH in H. congruence.
    - apply IH in H. exact H. }
  apply G in R. exact R.
Qed.
Lemma lines_sim : forall ed ed0, like ed ed0 -> open_ ed0 -> osim eq (getLines ed) (getLines ed0).
Proof.
  clear. intros ed ed0 (_&_&b&E) O. unfold getLines. rewrite E.
  destruct (shut_string _ b O) as [-> | ->]; [apply osim_eq|left; reflexivity].
Qed.
Lemma line_addr_sim : forall ed ed0 n, like ed ed0 -> open_ ed0 -> osim eq (getLineAddr ed n) (getLineAddr ed0 n).
Proof. clear. intros ed ed0 n L O. unfold getLineAddr. eapply osim_bind; [now apply lines_sim|]. intros ? [x y] ->. apply osim_eq. Qed.
Lemma print_sim : forall ed ed0 s e, like ed ed0 -> open_ ed0 -> osim eq (Print capacity ed s e) (Print capacity ed0 s e).
Proof. clear. intros ed ed0 s e L O. unfold Print. eapply osim_bind; [now apply lines_sim|]. intros ? [x y] ->. apply osim_eq. Qed.
Lemma number_sim : forall ed ed0 s e, like ed ed0 -> open_ ed0 -> osim eq (number ed s e) (number ed0 s e).
Proof. clear. intros ed ed0 s e L O. unfold number. eapply osim_bind; [now apply lines_sim|]. intros ? [x y] ->. apply osim_eq. Qed.
Lemma insert_sim : forall ed ed0 n t, like ed ed0 -> open_ ed0 -> osim like (insertBeforeLine ed n t) (insertBeforeLine ed0 n t).
Proof.
  clear. intros ed ed0 n t L O. unfold insertBeforeLine. eapply osim_bind; [now apply line_addr_sim|]. intros ? x ->.
  destruct L as (L1&L2&b&E). unfold insert_at. rewrite E, insert_shut. destruct (pt_insert (e_pt ed0) (t ++ [nl]) x) as [pt []]; cbn [fst snd]; [|now left].
  right. split; auto. split; auto. now exists b.
Qed.
Lemma delete_sim : forall ed ed0 m n, like ed ed0 -> open_ ed0 -> osim like (Delete ed m n) (Delete ed0 m n).
Proof.
  clear. intros ed ed0 m n L O. unfold Delete. eapply osim_bind; [now apply line_addr_sim|]. intros ? x ->.
  eapply osim_bind; [now apply line_addr_sim|]. intros ? y ->. right.
  destruct L as (L1&L2&b&E). split; auto. split; auto. exists b. cbn [set_pt e_pt]. now rewrite E, delete_shut.
Qed.
Lemma addr_sim : forall ed ed0 n, osim eq (addrLine compile ed (num_addr n)) (addrLine compile ed0 (num_addr n)).
Proof. intros. unfold addrLine. cbn [num_addr a_typ a_text a_offset obind]. apply osim_eq. Qed.
Lemma insert_open : forall ed n t ed', open_ ed -> insertBeforeLine ed n t = Val ed' -> open_ ed'.
Proof.
  clear. intros ed n t ed' O H. unfold insertBeforeLine in H. destruct (getLineAddr ed n) as [a| |]; cbn [obind] in H; try discriminate.
  unfold insert_at in H. pose proof (insert_closed (e_pt ed) (t ++ [nl]) a) as Q. destruct (pt_insert _ _ _) as [pt []]; try discriminate.
  injection H as <-. unfold open_ in *. cbn [set_pt e_pt fst] in *. congruence.
Qed.
Lemma delete_open : forall ed m n ed', open_ ed -> Delete ed m n = Val ed' -> open_ ed'.
Proof.
  clear. intros ed m n ed' O H. unfold Delete in H. destruct (getLineAddr ed m) as [a| |]; cbn [obind] in H; try discriminate.
  destruct (getLineAddr ed _) as [b| |]; cbn [obind] in H; try discriminate. now injection H as <-.
Qed.
Lemma osim_bind' : forall {A C} (R : A -> A -> Prop) (Q : C -> C -> Prop) x y f g, osim R x y ->
  (forall a b, y = Val b -> R a b -> osim Q (f a) (g b)) -> osim Q (obind x f) (obind y g).
Proof.
  clear. intros A C R Q x y f g [->|H] F; [left; reflexivity|]. destruct x, y; try contradiction; cbn [obind]; auto. right. exact I.
Qed.
(* the results of a command: files, editor and reply *)
Definition results (x y : list files * itor * bytes) : Prop := fst (fst x) = fst (fst y) /\ like (snd (fst x)) (snd (fst y)) /\ snd x = snd y.
Lemma step_sim : forall fs o ed ed0 c, like ed ed0 -> open_ ed0 -> osim results (process fs o ed (concrete c)) (process fs o ed0 (concrete c)).
Proof.
  clear cap. intros fs o ed ed0 c L O. unfold processCommand. cbv zeta. rewrite default_typ.
  destruct c as [n t|n t|m n t|m n|m n|m n|n]; cbn [concrete cmd_at c_typ].
  - eapply osim_bind; [apply addr_sim|]. intros ? s ->. eapply osim_bind; [now apply insert_sim|]. intros e1 e2 L1.
    apply osim_val. split; auto. split; auto. now apply like_current.
  - eapply osim_bind; [apply addr_sim|]. intros ? s ->. eapply osim_bind; [now apply insert_sim|]. intros e1 e2 L1.
    apply osim_val. split; auto.
  - eapply osim_bind; [apply addr_sim|]. intros ? s ->. eapply osim_bind; [apply addr_sim|]. intros ? e ->.
    eapply osim_bind'; [now apply delete_sim|]. intros e1 e2 D L1. apply delete_open in D; auto.
    eapply osim_bind; [apply addr_sim|]. intros ? s1 ->. eapply osim_bind; [now apply insert_sim|]. intros e3 e4 L2.
    eapply osim_bind; [apply addr_sim|]. intros ? s2 ->. apply osim_val. split; auto. split; auto. now apply like_current.
  - eapply osim_bind; [apply addr_sim|]. intros ? s ->. eapply osim_bind; [apply addr_sim|]. intros ? e ->.
    eapply osim_bind; [now apply delete_sim|]. intros e1 e2 L1.
    eapply osim_bind; [apply addr_sim|]. intros ? s1 ->. apply osim_val. split; auto. split; auto. now apply like_current.
  - eapply osim_bind; [apply addr_sim|]. intros ? s ->. eapply osim_bind; [apply addr_sim|]. intros ? e ->.
    eapply osim_bind; [now apply print_sim|]. intros ? r ->. apply osim_val. split; auto.
  - eapply osim_bind; [apply addr_sim|]. intros ? s ->. eapply osim_bind; [apply addr_sim|]. intros ? e ->.
    eapply osim_bind; [now apply number_sim|]. intros ? r ->. apply osim_val. split; auto.
  - eapply osim_bind; [apply addr_sim|]. intros ? s ->. apply osim_val. split; auto.
Qed.

(* ---- w, whatever fails ---- *)
Definition editing (f : bytes) (ls : list bytes) (ed : itor) : Prop := exists ed0, like ed ed0 /\ buffer ed0 ls /\ e_filename ed0 = f.
(* the file holds this text and nothing else has changed *)
Definition only_changed (f : bytes) (fs fs' : files) : Prop := forall m, m <> f -> m <> swp f -> fs' m = fs m.
Lemma close_like : forall ed ed0, like ed ed0 -> like (set_pt ed (pt_close (e_pt ed))) ed0.
Proof.
  clear. intros ed ed0 (H1&H2&b&E). split; auto. split; auto. cbn [set_pt e_pt]. unfold pt_close. rewrite E. cbn [closable shut].
  destruct (closable (e_pt ed0)) eqn:C; [|now exists b]. exists true. unfold shut. cbn [orig appendb head]. now rewrite C.
Qed.
Lemma write_any : forall fs o f ls ed states r, editing f ls ed -> Write errtext fs o ed = (states, r) ->
  (forall s, In s states -> (s f = fs f \/ s f = Some (unlines ls)) /\ only_changed f fs s) /\
  (forall ed' e, r = Val (ed', e) -> editing f ls ed').
Proof.
  clear. intros fs o f ls ed states r (ed0&L&H&N) W.
  pose proof (holds_open _ _ H) as O. pose proof (holds_string _ _ H) as D. destruct L as (L1&L2&b&E).
  assert (D' : pt_string (e_pt ed) = Ok (unlines ls) \/ pt_string (e_pt ed) = Panic).
  { rewrite E, <- D. now apply shut_string. }
  destruct D' as [D'|D']; [|unfold Write in W; rewrite D' in W; injection W as <- <-; split; [intros s []|discriminate]].
  assert (Nm : e_filename ed = f) by congruence.
  destruct (write_states_spec errtext fs o ed _ _ _ D' W) as [W1 _]. rewrite Nm in W1. split; [exact W1|].
  intros ed' e ->. assert (Lk : like ed ed0) by (split; [|split; [|exists b]]; auto).
  destruct e as [m|].
  - exists ed0. split; [|auto]. replace ed' with (set_pt ed (pt_close (e_pt ed))); [now apply close_like|].
    unfold Write in W. rewrite D' in W. destruct (f_stat o || _); [now injection W|].
    destruct (WriteFile fs o _ _) as [sts ok]. destruct ok; cbn [negb] in W; [|now injection W].
    destruct (f_rename o); [now injection W|]. injection W as _ W. now apply edit_fails in W.
  - destruct (write_reloads errtext fs o ed _ states ed' D' (holds_len _ _ H) W) as [W5 W6].
    exists ed'. split; [apply like_refl|]. split; auto. congruence.
Qed.
End Sim.

(* ---- every point of every run ---- *)
Section Run.
Variable compile : bytes -> option (bytes -> bool).
Variable capacity : nat -> nat.
Variable errtext : bytes.
Hypothesis cap : forall n, (n <= capacity n)%nat.
Variable o : nat -> faults.
Notation process := (processCommand compile capacity errtext).
Notation step' := (step compile capacity errtext o).
Notation steps' := (steps compile capacity errtext o).

Variables (fs : files) (f : bytes) (first : list bytes) (h : list act) (T : list command).
Hypothesis T_quits : T = [] \/ exists q r, T = q :: r /\ c_typ q = ctquit.
Hypothesis f_named : f <> [].
Hypothesis no_empty : fs [] = None.

Definition pending (s : loop) : list command :=
  match l_cons s with Got c | Busy c => [c] | _ => [] end ++ sends (l_todo s).
Definition file_ok (x : files) : Prop :=
  (exists v, (v = first \/ In v (versions first h)) /\ x f = Some (unlines v)) /\ only_changed f fs x.
Definition editor_ok (ed : itor) (h1 : list act) : Prop :=
  e_filename ed = [] \/
  exists ls, editing f ls ed /\ workable ls h1 /\ incl (versions ls h1) (versions first h).
Definition phase (s : loop) : Prop :=
  l_cons s = Stuck \/
  (exists h1, pending s = map act_command h1 ++ T /\ editor_ok (l_ed s) h1) \/
  (exists e, pending s = e :: map act_command h ++ T /\ c_typ e = ctedit /\ c_params e = [f] /\ e_filename (l_ed s) = [] /\
     l_fs s = fs).
Definition inv (s : loop) : Prop :=
  file_ok (l_fs s) /\ (forall c, l_cons s = Busy c -> c_typ c <> ctquit /\ l_status s = Running) /\ (l_status s = Running -> phase s).
Hypothesis first_file : fs f = Some (unlines first).
Hypothesis first_good : good first.
Hypothesis first_short : len (unlines first) <= max_int64.
Hypothesis first_work : workable first h.

Lemma no_empty_file : forall x, only_changed f fs x -> x [] = None.
Proof. clear - f_named no_empty. intros x H. rewrite H; auto. destruct f; discriminate. Qed.
Lemma file_same : forall a b, file_ok a -> (b f = a f) -> only_changed f a b -> file_ok b.
Proof.
  clear. intros a b [(v&V&E) U] E2 U2. split; [exists v; split; auto; congruence|]. intros m N1 N2. now rewrite U2, U.
Qed.
Lemma write_states_ok : forall x k ed states r ls, file_ok x -> editing f ls ed -> In ls (versions first h) ->
  Write errtext x (o k) ed = (states, r) -> forall y, In y states -> file_ok y.
Proof.
  clear cap. intros x k ed states r ls F E V W y I. destruct (write_any errtext x (o k) f ls ed states r E W) as [W1 _].
  destruct (W1 y I) as [[Q|Q] U].
  - now apply (file_same x).
  - destruct F as [_ F]. split; [exists ls; auto|]. intros m N1 N2. now rewrite U, F.
Qed.
Lemma lost_write : forall x k ed states r, only_changed f fs x -> e_filename ed = [] -> Write errtext x (o k) ed = (states, r) -> states = [].
Proof.
  clear - f_named no_empty. intros x k ed states r U N W. unfold Write in W. rewrite N, (no_empty_file x U) in W.
  destruct (pt_string (e_pt ed)); [|injection W as <- _; auto|injection W as <- _; auto].
  rewrite Bool.orb_true_r in W. now injection W as <- _.
Qed.
Lemma final_ok : forall x states, file_ok x -> (forall y, In y states -> file_ok y) -> file_ok (final x states).
Proof.
  clear. intros x states F A. unfold final. destruct states as [|a l]; [exact F|].
  apply A. pose proof (@app_removelast_last _ (a :: l) x ltac:(discriminate)) as Q. rewrite Q at 2. apply in_or_app. right. now left.
Qed.
Lemma concrete_states : forall x k ed c states ed' r, process x k ed (concrete c) = Val (states, ed', r) -> states = [].
Proof.
  clear. intros x k ed c states ed' r H. unfold processCommand in H. cbv zeta in H. rewrite default_typ in H. set (cmd := setDefaultAddresses (concrete c)) in H.
  clearbody cmd.
  destruct c as [n t|n t|m n t|m n|m n|m n|n]; cbn [concrete cmd_at c_typ] in H;
    repeat match type of H with
      | obind ?m _ = Val _ => let E := fresh "E" in destruct m eqn:E; cbn [obind] in H; try discriminate
      end; cbv beta in H; injection H as <- <- <-; reflexivity.
Qed.
(* executing the next command of the session *)
Lemma act_step : forall x k ed a h1 states ed' r, file_ok x -> editor_ok ed (a :: h1) ->
  process x (o k) ed (act_command a) = Val (states, ed', r) -> file_ok (final x states) /\ editor_ok ed' h1.
Proof.
  intros x k ed [c|] h1 states ed' r F E P; cbn [act_command] in P.
  - pose proof (concrete_states _ _ _ _ _ _ _ P) as ->. split; [exact F|].
    destruct E as [E|(ls&(ed0&L&B0&N)&W&I)]; [left; rewrite (concrete_name _ _ _ _ _ _ _ _ _ _ P); exact E|right].
    destruct W as (G&V&Fl&_&W). destruct (step_ok compile capacity errtext cap x (o k) ed0 ls c B0 G V Fl) as (ed1&E1&B1).
    destruct (step_sim compile capacity errtext x (o k) ed ed0 c L (holds_open _ _ B0)) as [Q|Q]; [congruence|].
    rewrite P, E1 in Q. destruct Q as (_&L1&_). cbn [fst snd] in L1.
    exists (aedit ls c). split; [|split; auto]. exists ed1. split; auto. split; auto.
    now rewrite (concrete_name _ _ _ _ _ _ _ _ _ _ E1).
  - unfold processCommand in P. change (c_typ (setDefaultAddresses (the_command ctwrite zero_address zero_address [] []))) with ctwrite in P. cbv iota in P.
    destruct (Write errtext x (o k) ed) as [sts q] eqn:W. destruct q as [[ed1 e]| |]; cbn [obind] in P; try discriminate. injection P as <- <- _.
    destruct E as [E|(ls&E&Wk&I)].
    + rewrite (lost_write x k ed sts _ (proj2 F) E W). split; [exact F|]. left.
      unfold Write in W. rewrite E, (no_empty_file x (proj2 F)) in W. destruct (pt_string (e_pt ed)); [|discriminate|discriminate].
      rewrite Bool.orb_true_r in W. now injection W as _ <- _.
    + destruct Wk as [G Wk]. assert (V : In ls (versions first h)) by (apply I; now left). split.
      * apply final_ok; auto. intros y Iy. eapply write_states_ok; eauto.
      * right. exists ls. destruct (write_any errtext x (o k) f ls ed sts _ E W) as [_ W2]. split; [now apply (W2 ed1 e)|]. split; auto.
        intros v Iv. apply I. now right.
Qed.
Lemma first_step : forall k ed e states ed' r, c_typ e = ctedit -> c_params e = [f] -> e_filename ed = [] ->
  process fs (o k) ed e = Val (states, ed', r) -> states = [] /\ editor_ok ed' h.
Proof.
  intros k ed e states ed' r Te Pe N P. unfold processCommand in P. rewrite default_typ, Te in P.
  assert (Q : c_params (setDefaultAddresses e) = [f]) by (rewrite <- Pe; unfold setDefaultAddresses; destruct (is_null (c_start e)); reflexivity).
  rewrite Q in P. destruct (Edit errtext fs (o k) ed f) as [[ed1 m]| |] eqn:E; cbn [obind] in P; try discriminate. injection P as <- <- _.
  split; auto. destruct m as [m|]; [left; apply edit_fails in E; congruence|]. right. exists first.
  assert (F : f_reopen (o k) = false /\ f_fstat (o k) = false).
  { unfold Edit in E. rewrite first_file in E. destruct (f_reopen (o k)); [discriminate|]. destruct (f_fstat (o k)); [discriminate|]. auto. }
  destruct (edit_ok errtext fs (o k) ed f (unlines first) first_file (proj1 F) (proj2 F) _ first_short (text_lines_good first first_good)) as (ed2&E2&Hd&Hf&_).
  rewrite E in E2. injection E2 as <-. split; [exists ed1; split; [apply like_refl|split; auto]|]. split; auto. apply incl_refl.
Qed.
Lemma step_inv : forall s s', inv s -> step' s s' -> inv s'.
Proof.
  intros s s' (F&Nq&Ph) H. inversion H; subst.
  - split; [exact F|]. split; [exact Nq|]. intros R. specialize (Ph R). unfold phase, pending in *. cbn [after_read l_cons l_todo l_ed l_fs] in *. now rewrite H1 in Ph.
  - split; [exact F|]. split; [exact Nq|]. intros R. specialize (Ph R). unfold phase, pending in *. cbn [after_read l_cons l_todo l_ed l_fs] in *. now rewrite H1 in Ph.
  - split; [exact F|]. split; [discriminate|]. intros R. specialize (Ph R). unfold phase, pending in *. cbn [after_read after_cons l_cons l_todo l_ed l_fs] in *.
    rewrite H1, H2 in Ph. destruct Ph as [Ph|Ph]; [discriminate|]. right. exact Ph.
  - split; [exact F|]. split; [intros c Q; cbn [ends l_cons] in Q; congruence|]. discriminate.
  - split; [exact F|]. split; [discriminate|]. discriminate.
  - split; [exact F|]. split; [intros x Q; cbn in Q; injection Q as <-; auto|]. intros R. specialize (Ph R).
    unfold phase, pending in *. cbn [after_cons l_cons l_todo l_ed l_fs] in *. rewrite H1 in Ph. destruct Ph as [Ph|Ph]; [discriminate|]. right. exact Ph.
  - destruct (Nq c H1) as [Nq' _]. specialize (Ph H0). unfold phase, pending in Ph. rewrite H1 in Ph. cbn [app] in Ph.
    destruct Ph as [Ph|[(h1&Q&E)|(e&Q&Te&Pe&N&Sm)]]; [discriminate| |].
    + destruct h1 as [|a h1].
      * exfalso. cbn [map app] in Q. destruct T_quits as [Z|(q&r'&Z&Tq)]; rewrite Z in Q; [discriminate|]. injection Q as -> _. auto.
      * cbn [map app] in Q. injection Q as -> Q. destruct (act_step _ _ _ _ _ _ _ _ F E H2) as [F' E'].
        split; [exact F'|]. split; [discriminate|]. intros _. right. left. exists h1. split; auto.
    + injection Q as -> Q. rewrite Sm in H2. destruct (first_step _ _ _ _ _ _ Te Pe N H2) as [-> E'].
      split; [cbn [executed l_fs final last]; exact F|]. split; [discriminate|]. intros _. right. left. exists h. split; auto.
  - split; [exact F|]. split; [discriminate|]. discriminate.
  - split; [exact F|]. split; [discriminate|]. intros _. left. reflexivity.
  - split; [exact F|]. split; [discriminate|]. intros R. specialize (Ph R). unfold phase, pending in *. cbn [after_cons l_cons l_todo l_ed l_fs] in *.
    rewrite H1 in Ph. destruct Ph as [Ph|Ph]; [discriminate|]. right. exact Ph.
Qed.
Lemma steps_inv : forall s s', inv s -> steps' s s' -> inv s'.
Proof. intros s s' I H. induction H; auto. apply IHsteps. eapply step_inv; eauto. Qed.
Lemma inv_moment : forall s x, inv s -> at_a_moment errtext o s x -> file_ok x.
Proof.
  clear cap. intros s x (F&Nq&Ph) [->|(c&states&r&C&Tc&W&I)]; [exact F|].
  destruct (Nq c C) as [_ R]. specialize (Ph R). unfold phase, pending in Ph. rewrite C in Ph. cbn [app] in Ph.
  destruct Ph as [Ph|[(h1&Q&E)|(e&Q&Te&_)]]; [discriminate| |injection Q as <- _; congruence].
  destruct h1 as [|a h1].
  - exfalso. cbn [map app] in Q. destruct T_quits as [Z|(q&r'&Z&Tq)]; rewrite Z in Q; [discriminate|]. injection Q as -> _. congruence.
  - cbn [map app] in Q. injection Q as -> Q. destruct a as [d|]; [destruct d; discriminate|].
    destruct E as [E|(ls&E&Wk&In1)].
    + rewrite (lost_write _ _ _ _ _ (proj2 F) E W) in I. destruct I.
    + eapply write_states_ok; eauto. apply In1. now left.
Qed.
End Run.
