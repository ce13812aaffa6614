(* Proofs about pkg/ed: current line, ends of files, writing, searching, defaults. *)
From Verif Require Import GoBase GoFacts NumFacts PieceTableModel PieceTableSpec PieceTableProofs EdModel EdSpec EdProofs.
Local Open Scope Z_scope.

Lemma beqb_spec : forall a b, beqb a b = true <-> a = b.
Proof. intros. split; [apply beqb_eq|]. intros ->. apply PieceTableProofs.beqb_refl. Qed.

Section R.
Variable compile : bytes -> option (bytes -> bool).
Variable capacity : nat -> nat.
Variable errtext : bytes.
Notation process := (processCommand compile capacity errtext).

(* ---- current line ---- *)
Lemma appended_fits : forall ls t n, 0 <= n <= lines_count ls -> len (unlines ls) + len t + 2 <= max_int64 ->
  wrap64 (n + 1 + linesIn t) = n + lines_count (typed t) + 1.
Proof.
  clear compile capacity errtext.
  intros ls t n N F. rewrite linesIn_typed. rewrite wrap64_id; [lia|].
  pose proof (lines_le_len (typed t)). rewrite unlines_typed, len_app in H. change (len [nl]) with 1 in H.
  pose proof (lines_le_len ls).
  unfold min_int64. split; [unfold lines_count; lia|]. lia.
Qed.
Lemma count_inserted : forall ls n m t, 0 <= n <= m -> m <= lines_count ls ->
  lines_count (upto ls n ++ typed t ++ after ls m) = n + lines_count (typed t) + (lines_count ls - m).
Proof.
  clear compile capacity errtext.
  intros. unfold lines_count, upto, after in *. rewrite !app_length, firstn_length, skipn_length. lia.
Qed.

(* ---- a last line without its newline ---- *)
Lemma getLines_open : forall ed ls x, holds ed (unlines ls ++ x) -> Forall ed_line (ls ++ [x]) -> x <> [] ->
  getLines ed = Val (ls ++ [x], List.length (ls ++ [x])).
Proof.
  clear compile capacity errtext.
  intros ed ls x H F Ne. unfold getLines. rewrite (holds_string _ _ H). cbn [of_res obind].
  apply Forall_app in F as F'. destruct F' as [F1 F2]. inversion F2 as [|? ? Fx _]. subst.
  unfold text_lines, scan_lines. rewrite raw_lines_unlines_open; auto.
  - rewrite scan_segs_cr, map_drop_ed; auto using short_ed. rewrite rev_app_distr. cbn [rev app].
    destruct x; [congruence|reflexivity].
  - intros y Hy. rewrite Forall_forall in F1. now apply F1 in Hy as (?&?&?).
  - apply Fx.
Qed.
Lemma append_open_crashes : forall fs o ed ls x a b t ps, holds ed (unlines ls ++ x) ->
  Forall ed_line (ls ++ [x]) -> x <> [] -> lines_count ls + 2 <= max_int64 ->
  denotes ed (ls ++ [x]) a (lines_count ls + 1) ->
  process fs o ed (cmd_at ctappend a b t ps) = Crashes.
Proof.
  intros fs o ed ls x a b t ps H F Ne L D. unfold processCommand.
  rewrite no_default by (cbn; eapply denotes_start; eauto). cbn [cmd_at c_typ c_start c_text].
  assert (E : addrLine compile ed a = Val (lines_count ls + 1)).
  { unfold addrLine. assert (R : min_int64 <= lines_count ls + 1 <= max_int64) by (unfold min_int64, lines_count in *; lia).
    inversion D as [t' k n A Ea En|t' k Ea En|t' k Ea En]; subst; cbn [a_typ a_text a_offset obind].
    - rewrite (atoi_value_atoi _ n) by auto. rewrite wrap64_id; [congruence|lia].
    - rewrite wrap64_id; [congruence|lia].
    - rewrite (getLines_open ed ls x); auto. cbn [obind]. fold (lines_count (ls ++ [x])).
      rewrite wrap64_id; [congruence|lia]. }
  rewrite E. cbn [obind]. rewrite wrap64_id by (unfold min_int64, lines_count in *; lia).
  unfold insertBeforeLine, getLineAddr. rewrite (getLines_open ed ls x); auto. cbn [obind].
  rewrite line_addr_spec. rewrite firstn_all2 by (rewrite app_length; unfold lines_count; cbn; lia).
  unfold insert_at. rewrite (inv_insert_past _ (unlines ls ++ x)).
  - reflexivity.
  - now apply table_for_inv in H as [H _].
  - rewrite unlines_app, !len_app. cbn [unlines flat_map]. rewrite List.app_nil_r, len_app.
    change (len [nl]) with 1. lia.
Qed.
Lemma fresh_holds : forall ed content cc, len content <= max_int64 ->
  e_pt ed = new_piece_table content cc (len content) -> holds ed content.
Proof.
  clear compile capacity errtext.
  intros ed content cc L E. unfold holds. rewrite E. exists content, cc, (len content), [].
  pose proof (len_nonneg content). cbn. split; [lia|]. split; auto. split; auto. split; auto.
  unfold len. rewrite Nat2Z.id. symmetry. apply firstn_all.
Qed.
Lemma addr_num_line : forall ed n, min_int64 <= n <= max_int64 -> addrLine compile ed (num_addr n) = Val n.
Proof.
  clear capacity errtext.
  intros ed n R. unfold addrLine. cbn [num_addr a_typ a_text a_offset obind].
  rewrite (atoi_value_atoi _ n) by now apply atoi_itoa_small. rewrite Z.add_0_r. now rewrite wrap64_id.
Qed.
Lemma delete_open_fresh : forall fs o ed cc ls x n t ps,
  e_pt ed = new_piece_table (unlines ls ++ x) cc (len (unlines ls ++ x)) ->
  Forall ed_line (ls ++ [x]) -> x <> [] -> len (unlines ls ++ x) < max_int64 ->
  n = lines_count ls + 1 ->
  exists ed', process fs o ed (cmd_at ctdelete (num_addr n) (num_addr n) t ps) = Val ([], ed', []) /\
    pt_string (e_pt ed') = Ok (unlines ls).
Proof.
  intros fs o ed cc ls x n t ps E F Ne L En.
  assert (H : holds ed (unlines ls ++ x)) by (eapply fresh_holds; eauto; lia).
  pose proof (lines_le_len ls) as LL. rewrite len_app in L.
  assert (0 < len x) by (destruct x; [congruence|]; rewrite len_cons; pose proof (len_nonneg x); lia).
  assert (Rn : min_int64 <= n <= max_int64) by (unfold min_int64, lines_count in *; lia).
  unfold processCommand. rewrite no_default by reflexivity. cbn [cmd_at c_typ c_start c_end].
  rewrite addr_num_line by auto. cbn [obind]. unfold Delete, getLineAddr.
  rewrite (getLines_open ed ls x); auto. cbn [obind]. rewrite !line_addr_spec, (wrap64_id (n + 1)) by
    (unfold min_int64 in *; lia).
  replace (n + 1 - 1) with n by lia. subst n.
  replace (Z.to_nat (lines_count ls + 1 - 1)) with (List.length ls) by (unfold lines_count; lia).
  rewrite (firstn_all2 (n := Z.to_nat (lines_count ls + 1))) by (rewrite app_length; unfold lines_count; cbn; lia).
  rewrite firstn_app, Nat.sub_diag, firstn_all. cbn [firstn]. rewrite List.app_nil_r.
  cbn [obind]. rewrite (addr_num_line (set_pt _ _)) by auto. cbn [obind]. eexists. split; [reflexivity|].
  cbn [set_current set_pt e_pt]. rewrite E.
  rewrite delete_past_end_fresh; rewrite ?len_app; try (pose proof (len_nonneg (unlines ls)); lia).
  - f_equal. unfold len. rewrite Nat2Z.id, firstn_app, Nat.sub_diag, firstn_all. cbn. apply List.app_nil_r.
  - rewrite unlines_app, len_app. cbn [unlines flat_map]. rewrite List.app_nil_r, len_app.
    change (len [nl]) with 1. lia.
Qed.

(* ---- blank last lines and carriage returns ---- *)
Lemma getLines_blank : forall ed ls, buffer ed (ls ++ [[]]) -> Forall ed_line ls ->
  getLines ed = Val (ls, S (List.length ls)).
Proof.
  clear compile capacity errtext.
  intros ed ls H F. unfold getLines. rewrite (holds_string _ _ H). cbn [of_res obind]. unfold text_lines.
  rewrite scan_ed_lines.
  - rewrite rev_app_distr. cbn [rev app]. rewrite rev_involutive, app_length. cbn.
    f_equal. f_equal. lia.
  - apply Forall_app. split; auto. constructor; auto. split; [auto|]. split; [intros [|] ; discriminate|].
    cbn. unfold len. cbn. lia.
Qed.
Lemma delete_blank_last : forall fs o ed ls n t ps, buffer ed (ls ++ [[]]) -> Forall ed_line ls ->
  n = lines_count ls + 1 -> n < max_int64 ->
  exists ed', process fs o ed (cmd_at ctdelete (num_addr n) (num_addr n) t ps) = Val ([], ed', []) /\
    buffer ed' (ls ++ [[]]).
Proof.
  intros fs o ed ls n t ps H F En L.
  assert (Rn : min_int64 <= n <= max_int64) by (unfold min_int64, lines_count in *; lia).
  unfold processCommand. rewrite no_default by reflexivity. cbn [cmd_at c_typ c_start c_end].
  rewrite addr_num_line by auto. cbn [obind]. unfold Delete, getLineAddr.
  rewrite (getLines_blank ed ls); auto. cbn [obind]. rewrite !line_addr_spec, (wrap64_id (n + 1)) by
    (unfold min_int64 in *; lia).
  rewrite !firstn_all2 by (unfold lines_count in *; lia). rewrite Z.sub_diag.
  cbn [obind]. rewrite (addr_num_line (set_pt _ _)) by auto. cbn [obind]. eexists. split; [reflexivity|].
  unfold buffer, holds. cbn [set_current set_pt e_pt].
  replace (unlines (ls ++ [[]])) with (cut_out (unlines (ls ++ [[]])) 0 (len (unlines ls))).
  - apply table_for_del; auto. cbn. rewrite unlines_app, len_app. pose proof (len_nonneg (unlines ls)).
    pose proof (len_nonneg (unlines [[]])). lia.
  - unfold cut_out. rewrite Z.add_0_r. apply firstn_skipn.
Qed.
Lemma getLines_cr : forall ed ls, holds ed (unlines ls) -> Forall (fun l => ~ In nl l /\ len l < 65536) ls ->
  (forall p x, ls = p ++ [x] -> drop_cr x <> []) ->
  getLines ed = Val (map drop_cr ls, List.length ls).
Proof.
  clear compile capacity errtext.
  intros ed ls H F G. unfold getLines. rewrite (holds_string _ _ H). cbn [of_res obind]. unfold text_lines, scan_lines.
  rewrite raw_lines_unlines.
  - rewrite scan_segs_cr by (eapply Forall_impl; [|eauto]; intros ? []; auto).
    rewrite map_length. destruct (rev (map drop_cr ls)) as [|[|c l] r] eqn:E; auto.
    exfalso. destruct ls as [|l0 ls]; [discriminate|].
    destruct (@exists_last _ (l0 :: ls)) as (p&x&Ex); [discriminate|]. apply (G p x); auto.
    rewrite Ex, map_app, rev_app_distr in E. cbn in E. now inversion E.
  - intros x Hx. rewrite Forall_forall in F. now apply F in Hx as (?&?).
Qed.
Lemma drop_cr_snoc : forall l, drop_cr (l ++ [cr]) = l.
Proof.
  clear compile capacity errtext. intros. unfold drop_cr. rewrite rev_app_distr. cbn. apply rev_involutive. Qed.
(* 1d when the first line ends in \r: the newline of that line stays *)
Lemma delete_cr_first : forall fs o ed l r t ps, buffer ed ((l ++ [cr]) :: r) ->
  ed_line l -> len l + 1 < 65536 -> good r -> r <> [] ->
  exists ed', process fs o ed (cmd_at ctdelete (num_addr 1) (num_addr 1) t ps) = Val ([], ed', []) /\
    buffer ed' ([] :: r).
Proof.
  intros fs o ed l r t ps H El Ll G Ne.
  unfold processCommand. rewrite no_default by reflexivity. cbn [cmd_at c_typ c_start c_end].
  rewrite addr_num_line by (unfold min_int64, max_int64; lia). cbn [obind]. unfold Delete, getLineAddr.
  assert (Ncr : ~ In nl (l ++ [cr])).
  { intros I. apply in_app_or in I as [I|[I|[]]]; [now apply El|discriminate]. }
  destruct G as [F G].
  assert (GL : getLines ed = Val (l :: r, S (List.length r))).
  { rewrite (getLines_cr ed ((l ++ [cr]) :: r)); auto.
    - cbn [map List.length]. now rewrite drop_cr_snoc, map_drop_ed.
    - constructor.
      + split; auto. rewrite len_app. exact Ll.
      + eapply Forall_impl; [|eauto]. intros y (?&?&?). auto.
    - intros p x Ex. destruct r as [|y r]; [congruence|].
      destruct (@exists_last _ (y :: r)) as (q&z&Eq); [discriminate|]. rewrite Eq in *.
      rewrite app_comm_cons in Ex. apply app_inj_tail in Ex as [_ <-].
      rewrite drop_cr_ed_line; [|]. { intros ->. now apply (G q). }
      apply Forall_app in F as [_ F]. inversion F as [|? ? Fz _]. apply Fz. }
  rewrite GL. cbn [obind]. rewrite !line_addr_spec, (wrap64_id (1 + 1)) by (unfold min_int64, max_int64; lia).
  cbn [Z.sub Z.add Z.pos_sub Z.opp Pos.sub Pos.add Z.to_nat Pos.pred_double Pos.to_nat Pos.iter_op firstn].
  cbn [Z.to_nat Pos.to_nat Pos.iter_op firstn Pos.sub_mask Pos.pred_double Z.pos_sub].
  change (len (unlines [])) with 0. cbn [obind]. rewrite (addr_num_line (set_pt _ _)) by (unfold min_int64, max_int64; lia).
  cbn [obind]. eexists. split; [reflexivity|].
  unfold buffer, holds in *. cbn [set_current set_pt e_pt].
  change (unlines ((l ++ [cr]) :: r)) with (((l ++ [cr]) ++ [nl]) ++ unlines r) in H.
  change (unlines ([] :: r)) with ([nl] ++ unlines r).
  assert (R : edit_in_range (((l ++ [cr]) ++ [nl]) ++ unlines r) (Del (len (unlines [l]) - 0) 0)).
  { cbn [edit_in_range unlines flat_map]. rewrite List.app_nil_r, !len_app.
    change (len [nl]) with 1. change (len [cr]) with 1. pose proof (len_nonneg l). pose proof (len_nonneg (unlines r)). lia. }
  pose proof (table_for_del _ _ _ _ H R) as T.
  replace ([nl] ++ unlines r) with (cut_out (((l ++ [cr]) ++ [nl]) ++ unlines r) (len (unlines [l]) - 0) 0); auto.
  cbn [unlines flat_map]. rewrite List.app_nil_r. unfold cut_out. cbn [Z.to_nat firstn app].
  replace (Z.to_nat (0 + (len (l ++ [nl]) - 0))) with (List.length (l ++ [cr])) by
    (unfold len; rewrite !app_length; cbn [List.length]; lia).
  rewrite <- app_assoc, skipn_app, Nat.sub_diag, skipn_all. reflexivity.
Qed.

(* ---- writing ---- *)
Lemma upd_same : forall fs n c, upd fs n c n = c.
Proof.
  clear compile capacity errtext. intros. unfold upd. now rewrite PieceTableProofs.beqb_refl. Qed.
Lemma upd_other : forall fs n c m, m <> n -> upd fs n c m = fs m.
Proof.
  clear compile capacity errtext. intros. unfold upd. destruct (beqb m n) eqn:E; auto. apply beqb_eq in E. congruence. Qed.
Lemma swp_differs : forall n, swp n <> n.
Proof.
  clear compile capacity errtext.
  intros n E. unfold swp in E. apply (f_equal (@List.length ascii)) in E. rewrite app_length in E.
  change (List.length (B ".swp")) with 4%nat in E. lia.
Qed.
Lemma write_states_only : forall chunks fs name w data s m, In s (write_states fs name w data chunks) ->
  m <> name -> s m = fs m.
Proof.
  clear compile capacity errtext.
  induction chunks as [|k ks IH]; intros fs name w data s m I N; cbn in I; [easy|].
  destruct I as [<-|I]; [now apply upd_other|]. exact (IH _ _ _ _ _ m I N).
Qed.
Lemma writefile_only : forall fs o name data states ok s m, WriteFile fs o name data = (states, ok) ->
  In s (fs :: states) -> m <> name -> s m = fs m.
Proof.
  clear compile capacity errtext.
  intros fs o name data states ok s m W I N. unfold WriteFile in W.
  destruct I as [<-|I]; auto.
  destruct (f_open o); [now inversion W; subst|].
  destruct (f_write o); inversion W; subst; destruct I as [<-|I]; try now apply upd_other.
  - eapply write_states_only; eauto.
  - apply in_app_or in I as [I|[<-|[]]]; [eapply write_states_only; eauto|now apply upd_other].
Qed.
Lemma writefile_ok : forall fs o name data states, WriteFile fs o name data = (states, true) ->
  final fs states name = Some data.
Proof.
  clear compile capacity errtext.
  intros fs o name data states W. unfold WriteFile in W. destruct (f_open o); [inversion W|].
  destruct (f_write o); [inversion W|]. inversion W. unfold final.
  rewrite app_comm_cons, last_last. apply upd_same.
Qed.
Lemma last_in : forall {A} (l : list A) d, In (last l d) (d :: l).
Proof.
  clear compile capacity errtext.
  intros A l d. destruct l as [|x l]; [now left|]. right.
  destruct (@exists_last _ (x :: l)) as (p&y&E); [discriminate|]. rewrite E, last_last.
  apply in_or_app. right. now left.
Qed.
Lemma final_app : forall fs l s, final fs (l ++ [s]) = s.
Proof.
  clear compile capacity errtext. intros. unfold final. apply last_last. Qed.

Lemma write_states_spec : forall fs o ed data states r, pt_string (e_pt ed) = Ok data ->
  Write errtext fs o ed = (states, r) ->
  (forall s, In s states ->
     (s (e_filename ed) = fs (e_filename ed) \/ s (e_filename ed) = Some data) /\
     (forall m, m <> e_filename ed -> m <> swp (e_filename ed) -> s m = fs m)) /\
  (forall ed', r = Val (ed', None) ->
     final fs states (e_filename ed) = Some data /\ final fs states (swp (e_filename ed)) = None).
Proof.
  clear compile capacity.
  intros fs o ed data states r D W. unfold Write in W. rewrite D in W.
  set (f := e_filename ed) in *. pose proof (swp_differs f) as Sd.
  destruct (f_stat o || _) eqn:St.
  { inversion W; subst. split; [easy|]. intros ed' X. inversion X. }
  destruct (WriteFile fs o (swp f) data) as [sts ok] eqn:WF.
  assert (Sts : forall s m, In s (fs :: sts) -> m <> swp f -> s m = fs m)
    by (intros; eapply writefile_only; eauto).
  assert (F1 : forall m, m <> swp f -> final fs sts m = fs m).
  { intros m N. apply Sts; auto. apply last_in. }
  assert (Old : forall s, In s (sts ++ [remove (final fs sts) o (swp f)]) ->
     (s f = fs f \/ s f = Some data) /\ (forall m, m <> f -> m <> swp f -> s m = fs m)).
  { intros s I. apply in_app_or in I as [I|[<-|[]]].
    - split; [left; apply Sts; auto; now right|]. intros; apply Sts; auto. now right.
    - unfold remove. destruct (f_remove o).
      + split; [left; apply F1; congruence|]. auto.
      + split; [left; rewrite upd_other; auto|]. intros. rewrite upd_other; auto. }
  destruct ok; cbn [negb] in W.
  2:{ inversion W; subst. split; auto. intros ed' X. inversion X. }
  destruct (f_rename o).
  { inversion W; subst. split; auto. intros ed' X. inversion X. }
  inversion W; subst. apply writefile_ok in WF as Fin. split.
  - intros s I. apply in_app_or in I as [I|[<-|[]]].
    + split; [left; apply Sts; auto; now right|]. intros; apply Sts; auto. now right.
    + split.
      * right. rewrite upd_other by auto. now rewrite upd_same.
      * intros m N1 N2. rewrite !upd_other by auto. auto.
  - intros ed' X. rewrite final_app. split.
    + rewrite upd_other by auto. now rewrite upd_same.
    + now rewrite upd_same.
Qed.
(* what the temporary file holds meanwhile *)
Lemma write_states_prefix : forall chunks fs name data w d s, data = w ++ d ->
  In s (write_states fs name w d chunks) -> exists p q, data = p ++ q /\ s name = Some p.
Proof.
  clear compile capacity errtext.
  induction chunks as [|k ks IH]; intros fs name data w d s E I; cbn [write_states In] in I; [easy|].
  rewrite <- (firstn_skipn k d) in E. rewrite List.app_assoc in E.
  destruct I as [<-|I]; [exists (w ++ firstn k d), (skipn k d); split; auto; apply upd_same|]. exact (IH _ _ _ _ _ _ E I).
Qed.
Lemma writefile_prefix : forall fs o name data states ok s, WriteFile fs o name data = (states, ok) -> In s states ->
  exists p q, data = p ++ q /\ s name = Some p.
Proof.
  clear compile capacity errtext.
  intros fs o name data states ok s W I. unfold WriteFile in W. destruct (f_open o); [injection W as <- _; destruct I|].
  destruct (f_write o); injection W as <- _.
  - destruct I as [<-|I]; [exists [], data; split; auto; apply upd_same|]. eapply write_states_prefix; eauto. reflexivity.
  - destruct I as [<-|I]; [exists [], data; split; auto; apply upd_same|]. apply in_app_or in I as [I|[<-|[]]].
    + eapply write_states_prefix; eauto. reflexivity.
    + exists data, []. split; [now rewrite List.app_nil_r|apply upd_same].
Qed.
Lemma write_tmp : forall fs o ed data states r, pt_string (e_pt ed) = Ok data -> Write errtext fs o ed = (states, r) ->
  let tmp := swp (e_filename ed) in
  (forall s, In s states -> s tmp = fs tmp \/ s tmp = None \/ exists p q, data = p ++ q /\ s tmp = Some p) /\
  (states <> [] -> f_remove o = false -> final fs states tmp = None).
Proof.
  clear compile capacity.
  intros fs o ed data states r D W tmp. unfold Write in W. rewrite D in W. fold tmp in W.
  destruct (f_stat o || _) eqn:St; [injection W as <- _; split; [easy|congruence]|].
  destruct (WriteFile fs o tmp data) as [sts ok] eqn:WF.
  assert (P : forall s, In s sts -> s tmp = fs tmp \/ s tmp = None \/ exists p q, data = p ++ q /\ s tmp = Some p).
  { intros s I. right. right. eapply writefile_prefix; eauto. }
  assert (L : final fs sts tmp = fs tmp \/ final fs sts tmp = None \/ exists p q, data = p ++ q /\ final fs sts tmp = Some p).
  { unfold final. destruct (last_in sts fs) as [Q|Q]; [left; now rewrite <- Q|auto]. }
  assert (R : (forall s, In s (sts ++ [remove (final fs sts) o tmp]) -> s tmp = fs tmp \/ s tmp = None \/ exists p q, data = p ++ q /\ s tmp = Some p) /\
    (sts ++ [remove (final fs sts) o tmp] <> [] -> f_remove o = false -> final fs (sts ++ [remove (final fs sts) o tmp]) tmp = None)).
  { split.
    - intros s I. apply in_app_or in I as [I|[<-|[]]]; auto. unfold remove. destruct (f_remove o); auto. right. left. apply upd_same.
    - intros _ F. rewrite final_app. unfold remove. rewrite F. apply upd_same. }
  destruct ok; cbn [negb] in W; [|now injection W as <- _].
  destruct (f_rename o); [now injection W as <- _|]. injection W as <- _. split.
  - intros s I. apply in_app_or in I as [I|[<-|[]]]; auto. right. left. apply upd_same.
  - intros _ _. rewrite final_app. apply upd_same.
Qed.
Lemma edit_ok : forall fs o ed f content, fs f = Some content -> f_reopen o = false -> f_fstat o = false ->
  (forall ls, len content <= max_int64 -> text_lines content = Val ls ->
    exists ed', Edit errtext fs o ed f = Val (ed', None) /\ holds ed' content /\ e_filename ed' = f /\
      e_current ed' = lines_count (fst ls)).
Proof.
  clear compile capacity.
  intros fs o ed f content Fs R1 R2 [ls k] L T. unfold Edit. rewrite Fs, R1, R2.
  set (ed1 := {| e_pt := _; e_filename := f; e_current := e_current ed |}).
  assert (H : holds ed1 content) by (eapply fresh_holds with (cc := true); auto).
  assert (G : getLines ed1 = Val (ls, k)) by (unfold getLines; rewrite (holds_string _ _ H); exact T).
  rewrite G. cbn [obind]. eexists. split; [reflexivity|]. split; [exact H|]. auto.
Qed.
Lemma edit_fails : forall fs o ed f ed' m, Edit errtext fs o ed f = Val (ed', Some m) -> ed' = ed.
Proof.
  clear compile capacity.
  intros fs o ed f ed' m E. unfold Edit in E. destruct (fs f); [|now inversion E].
  destruct (f_reopen o); [now inversion E|]. destruct (f_fstat o); [now inversion E|].
  destruct (getLines _) as [[ls k]| |]; cbn in E; inversion E.
Qed.
Lemma write_reloads : forall fs o ed data states ed', pt_string (e_pt ed) = Ok data -> len data <= max_int64 ->
  Write errtext fs o ed = (states, Val (ed', None)) ->
  holds ed' data /\ e_filename ed' = e_filename ed.
Proof.
  clear compile capacity.
  intros fs o ed data states ed' D L W.
  assert (W0 := W). apply (write_states_spec _ _ _ data) in W0 as [_ W0]; auto.
  destruct (W0 _ eq_refl) as [W1 _].
  unfold Write in W. rewrite D in W. destruct (f_stat o || _); [inversion W|].
  destruct (WriteFile fs o _ data) as [sts ok] eqn:WF. destruct ok; cbn [negb] in W; [|inversion W].
  destruct (f_rename o); [inversion W|]. injection W as Hs He. subst states.
  rewrite final_app in W1. set (fs2 := upd (upd _ _ _) _ _) in *.
  unfold Edit in He. rewrite W1 in He.
  destruct (f_reopen o); [inversion He|]. destruct (f_fstat o); [inversion He|].
  destruct (getLines _) as [[ls k]| |]; cbn [obind] in He; inversion He. split; auto.
  eapply fresh_holds with (cc := true); auto.
Qed.

(* ---- after a failed write ---- *)
Lemma closed_crashes : forall ed content, content <> [] ->
  e_pt ed = pt_close (new_piece_table content true (len content)) -> getLines ed = Crashes.
Proof.
  clear compile capacity errtext.
  intros ed content Ne E. unfold getLines. rewrite E. unfold pt_string, pt_close.
  cbn [closable new_piece_table head orig appendb].
  cbn [total_len fold_right plen string_pieces]. pose proof (len_nonneg content).
  assert (0 < len content) by (destruct content; [congruence|]; rewrite len_cons; pose proof (len_nonneg content); lia).
  destruct (len content + 0 <? 0) eqn:E1; [lia|].
  destruct (len content =? 0) eqn:E2; [lia|]. destruct (len content <? 0) eqn:E3; [lia|].
  reflexivity.
Qed.
Definition touches_buffer (t : cmdType) : Prop :=
  t = ctnull \/ t = ctprint \/ t = ctnumber \/ t = ctwrite \/ t = ctdelete \/ t = ctappend \/ t = ctinsert \/ t = ctchange.
Lemma crash_addr : forall ed a, getLines ed = Crashes -> (exists n, addrLine compile ed a = Val n) \/ addrLine compile ed a = Crashes.
Proof.
  clear capacity errtext.
  intros ed a H. unfold addrLine, regexMatch. destruct (a_typ a); cbn [obind]; eauto; rewrite H; cbn [obind]; auto.
Qed.
Lemma all_crash : forall fs o ed c, getLines ed = Crashes -> pt_string (e_pt ed) = Panic ->
  touches_buffer (c_typ c) -> process fs o ed c = Crashes.
Proof.
  intros fs o ed c H P T. unfold processCommand.
  assert (T' : c_typ (setDefaultAddresses c) = c_typ c)
    by (unfold setDefaultAddresses; destruct (is_null (c_start c)); reflexivity).
  rewrite T'. clear T'. set (c' := setDefaultAddresses c). clearbody c'.
  assert (GA : forall n, getLineAddr ed n = Crashes) by (intros; unfold getLineAddr; now rewrite H).
  pose proof (crash_addr ed (c_start c') H) as [[n1 A1]|A1];
  pose proof (crash_addr ed (c_end c') H) as [[n2 A2]|A2];
  destruct T as [T|[T|[T|[T|[T|[T|[T|T]]]]]]]; rewrite T;
    rewrite ?A1; cbn [obind]; rewrite ?A2; cbn [obind]; auto;
    unfold Print, number, Delete, insertBeforeLine, Write; rewrite ?GA, ?H, ?P; auto;
    unfold getLines in *; cbn [set_current e_pt]; rewrite H; auto.
Qed.
Definition write_fails (o : faults) : bool := f_stat o || f_open o || f_write o || f_close o || f_rename o.
Lemma failed_write_breaks : forall fs o ed content c, content <> [] ->
  e_pt ed = new_piece_table content true (len content) -> write_fails o = true ->
  c_typ c = ctwrite ->
  exists states ed', process fs o ed c = Val (states, ed', B "?" ++ errtext) /\
    forall fs' o' c', touches_buffer (c_typ c') -> process fs' o' ed' c' = Crashes.
Proof.
  intros fs o ed content c Ne E WF T.
  assert (St : pt_string (e_pt ed) = Ok content).
  { rewrite E. rewrite pt_string_ok.
    - f_equal. unfold denote. cbn. unfold pbytes. cbn. rewrite List.app_nil_r. apply sub_all.
    - reflexivity.
    - repeat constructor; cbn; pose proof (len_nonneg content); lia. }
  assert (W : exists states, Write errtext fs o ed = (states, Val (set_pt ed (pt_close (e_pt ed)), Some errtext))).
  { unfold Write. rewrite St. destruct (f_stat o) eqn:F1; [cbn; eauto|]. cbn [orb].
    destruct (fs (e_filename ed)); [|eauto].
    unfold WriteFile. unfold write_fails in WF. rewrite F1 in WF. cbn [orb] in WF.
    destruct (f_open o); [cbn; eauto|]. destruct (f_write o); [cbn; eauto|]. destruct (f_close o); [cbn; eauto|].
    cbn [orb negb] in *. rewrite WF. eauto. }
  destruct W as [states W]. exists states, (set_pt ed (pt_close (e_pt ed))). split.
  - unfold processCommand.
    assert (T' : c_typ (setDefaultAddresses c) = ctwrite)
      by (rewrite <- T; unfold setDefaultAddresses; destruct (is_null (c_start c)); reflexivity).
    rewrite T', W. reflexivity.
  - intros fs' o' c' Tc.
    assert (G : getLines (set_pt ed (pt_close (e_pt ed))) = Crashes)
      by (apply (closed_crashes _ content); auto; cbn; now rewrite E).
    apply all_crash; auto. unfold getLines, of_res in G.
    destruct (pt_string (e_pt (set_pt ed (pt_close (e_pt ed))))) as [s| |] eqn:Q; auto.
    + exfalso. cbn [set_pt e_pt] in Q. rewrite E in Q. unfold pt_string, pt_close in Q.
      cbn [closable new_piece_table head orig appendb total_len fold_right plen string_pieces] in Q.
      assert (0 < len content) by (destruct content; [congruence|]; rewrite len_cons; pose proof (len_nonneg content); lia).
      destruct (len content + 0 <? 0) eqn:E1; [discriminate|].
      destruct (len content =? 0) eqn:E2; [lia|]. destruct (len content <? 0) eqn:E3; discriminate.
    + exfalso. cbn [set_pt e_pt] in Q. rewrite E in Q. unfold pt_string, pt_close in Q.
      cbn [closable new_piece_table head orig appendb total_len fold_right plen string_pieces] in Q.
      destruct (len content + 0 <? 0) eqn:E1; [discriminate|].
      destruct (len content =? 0) eqn:E2; [discriminate|]. destruct (len content <? 0) eqn:E3; discriminate.
Qed.
(* w never looks at its addresses, text or file name *)
Lemma write_ignores : forall fs o ed c1 c2, c_typ c1 = ctwrite -> c_typ c2 = ctwrite ->
  process fs o ed c1 = process fs o ed c2.
Proof.
  intros fs o ed c1 c2 T1 T2. unfold processCommand.
  assert (T' : forall c, c_typ (setDefaultAddresses c) = c_typ c)
    by (intros; unfold setDefaultAddresses; destruct (is_null (c_start _)); reflexivity).
  rewrite !T', T1, T2. reflexivity.
Qed.

(* ---- searching ---- *)
Lemma search_up : forall matches ls c k n f, (c < n)%nat -> (n + k = S (List.length ls))%nat -> (1 <= k)%nat ->
  search matches ls (Z.of_nat c) (Z.of_nat n) (k + f) =
  match find (fun x => matches (nth (Z.to_nat (x - 1)) ls [])) (map Z.of_nat (seq n k)) with
  | Some x => Val (x, true)
  | None => search matches ls (Z.of_nat c) 1 f
  end.
Proof.
  clear compile capacity errtext.
  intros matches ls c. induction k as [|k IH]; intros n f C N K; [lia|].
  cbn [Nat.add search seq map find].
  destruct ((1 <=? Z.of_nat n) && (Z.of_nat n <=? Z.of_nat (List.length ls))) eqn:E; [|lia].
  destruct (matches _) eqn:M; auto.
  destruct (Z.of_nat n =? Z.of_nat c) eqn:E2; [lia|].
  destruct k as [|k].
  - cbn [seq map find Nat.add]. replace (Z.of_nat n) with (Z.of_nat (List.length ls)) by lia.
    rewrite Z.rem_same by lia. reflexivity.
  - rewrite Z.rem_small by lia. replace (Z.of_nat n + 1) with (Z.of_nat (S n)) by lia.
    rewrite IH by lia. reflexivity.
Qed.
Lemma search_to : forall matches ls c k n, (1 <= n)%nat -> (n + k = S c)%nat -> (1 <= k)%nat -> (c <= List.length ls)%nat ->
  search matches ls (Z.of_nat c) (Z.of_nat n) k =
  match find (fun x => matches (nth (Z.to_nat (x - 1)) ls [])) (map Z.of_nat (seq n k)) with
  | Some x => Val (x, true)
  | None => Val (-1, false)
  end.
Proof.
  clear compile capacity errtext.
  intros matches ls c. induction k as [|k IH]; intros n C N K L; [lia|].
  cbn [search seq map find].
  destruct ((1 <=? Z.of_nat n) && (Z.of_nat n <=? Z.of_nat (List.length ls))) eqn:E; [|lia].
  destruct (matches _) eqn:M; auto.
  destruct (Z.of_nat n =? Z.of_nat c) eqn:E2.
  - assert (k = O) by lia. subst. reflexivity.
  - rewrite Z.rem_small by lia. replace (Z.of_nat n + 1) with (Z.of_nat (S n)) by lia.
    apply IH; lia.
Qed.
Lemma find_app : forall {A} (P : A -> bool) a b, find P (a ++ b) = match find P a with Some x => Some x | None => find P b end.
Proof.
  clear compile capacity errtext. induction a; intros; cbn; auto. destruct (P a); auto. Qed.
Lemma search_ok : forall matches ls cur, 1 <= cur <= lines_count ls ->
  search matches ls cur (Z.rem cur (Z.of_nat (List.length ls)) + 1) (List.length ls) =
  match find (fun x => matches (nth (Z.to_nat (x - 1)) ls [])) (search_order ls cur) with
  | Some x => Val (x, true)
  | None => Val (-1, false)
  end.
Proof.
  clear compile capacity errtext.
  intros matches ls cur R. unfold lines_count in R. unfold search_order.
  set (c := Z.to_nat cur). replace cur with (Z.of_nat c) at 1 2 by (unfold c; lia).
  assert (Rc : (1 <= c <= List.length ls)%nat) by (unfold c; lia).
  rewrite map_app, find_app.
  destruct (Nat.eq_dec c (List.length ls)) as [Q|Q].
  - replace (List.length ls - c)%nat with O by lia. cbn [seq map find].
    replace (Z.of_nat (List.length ls)) with (Z.of_nat c) by lia. rewrite Z.rem_same by lia.
    rewrite <- Q at 1. change (0 + 1) with (Z.of_nat 1). apply search_to; lia.
  - rewrite Z.rem_small by lia. replace (Z.of_nat c + 1) with (Z.of_nat (S c)) by lia.
    replace (List.length ls) with ((List.length ls - c) + c)%nat at 1 by lia.
    rewrite search_up by lia. destruct (find _ (map Z.of_nat (seq (S c) _))); auto.
    change 1 with (Z.of_nat 1). apply search_to; lia.
Qed.
(* a current line outside the buffer is never met again *)
Lemma search_hangs : forall matches ls cur fuel n, (forall l, In l ls -> matches l = false) ->
  ~ 1 <= cur <= lines_count ls -> 1 <= n <= lines_count ls ->
  search matches ls cur n fuel = Hangs.
Proof.
  clear compile capacity errtext.
  intros matches ls cur. induction fuel as [|f IH]; intros n M C N; cbn [search]; auto.
  unfold lines_count in *.
  destruct ((1 <=? n) && (n <=? Z.of_nat (List.length ls))) eqn:E; [|lia].
  rewrite M by (apply nth_In; lia).
  destruct (n =? cur) eqn:E2; [lia|]. apply IH; auto.
  pose proof (Z.rem_bound_pos n (Z.of_nat (List.length ls))). lia.
Qed.
Lemma trim_slash_spec : forall re, (forall r, re <> "/"%char :: r) -> (forall r, re <> r ++ ["/"%char]) ->
  re <> [] -> trim_slash (B "/" ++ re ++ B "/") = re.
Proof.
  clear compile capacity errtext.
  intros re H1 H2 Ne. unfold trim_slash. change (B "/") with ["/"%char]. cbn [app trim_slash_left].
  rewrite Ascii.eqb_refl.
  assert (T : forall re s, (forall r, re <> "/"%char :: r) -> re <> [] -> trim_slash_left (re ++ s) = re ++ s).
  { clear. intros re s H Ne. destruct re as [|c r]; [congruence|]. cbn. destruct (Ascii.eqb_spec c "/"); auto.
    subst. now elim (H r). }
  rewrite T, rev_app_distr; auto. cbn [rev app trim_slash_left]. rewrite Ascii.eqb_refl.
  rewrite <- (List.app_nil_r (rev re)), T, List.app_nil_r; [apply rev_involutive| |].
  - intros r E. apply (H2 (rev r)). rewrite <- (rev_involutive re), E. reflexivity.
  - intros E. apply Ne. rewrite <- (rev_involutive re), E. reflexivity.
Qed.
Definition regex_addr (re : bytes) : address := {| a_typ := lRegex; a_text := B "/" ++ re ++ B "/"; a_offset := 0 |}.
Lemma regex_addr_ok : forall ed ls re matches, buffer ed ls -> good ls -> 1 <= e_current ed <= lines_count ls ->
  slashless re -> compile re = Some matches ->
  addrLine compile ed (regex_addr re) =
  Val match find (fun x => matches (nth (Z.to_nat (x - 1)) ls [])) (search_order ls (e_current ed)) with
      | Some x => x
      | None => -1
      end.
Proof.
  clear capacity errtext.
  intros ed ls re matches H G C (S1&S2&S3) M. unfold addrLine. cbn [regex_addr a_typ a_text a_offset].
  rewrite trim_slash_spec by auto. unfold regexMatch. rewrite (getLines_good ed ls); auto. cbn [obind].
  rewrite M. pose proof (lines_range ed ls H G) as R.
  destruct ls as [|l ls]; [unfold lines_count in C; cbn in C; lia|].
  rewrite search_ok by auto.
  destruct (find _ _) as [x|] eqn:E; cbn [obind].
  - rewrite Z.add_0_r, wrap64_id; auto. apply find_some in E as [I _]. unfold search_order in I.
    apply in_map_iff in I as (y&<-&I). unfold lines_count in *. unfold min_int64.
    apply in_app_or in I as [I|I]; apply in_seq in I; lia.
  - reflexivity.
Qed.
Lemma regex_hangs : forall ed ls re matches, buffer ed ls -> good ls -> ls <> [] ->
  0 <= e_current ed -> ~ 1 <= e_current ed <= lines_count ls ->
  slashless re -> compile re = Some matches -> (forall l, In l ls -> matches l = false) ->
  addrLine compile ed (regex_addr re) = Hangs.
Proof.
  clear capacity errtext.
  intros ed ls re matches H G Ne C0 C (S1&S2&S3) M N. unfold addrLine. cbn [regex_addr a_typ a_text a_offset].
  rewrite trim_slash_spec by auto. unfold regexMatch. rewrite (getLines_good ed ls); auto. cbn [obind].
  rewrite M. destruct ls as [|l ls]; [congruence|]. rewrite search_hangs; auto.
  unfold lines_count. pose proof (Z.rem_bound_pos (e_current ed) (Z.of_nat (List.length (l :: ls)))).
  cbn [List.length] in *. lia.
Qed.

(* ---- reversed ranges ---- *)
Lemma print_reversed : forall ed ls m n, buffer ed ls -> good ls -> n < m -> 0 <= n -> m <= lines_count ls ->
  Print capacity ed m n = if m =? n + 1 then (if n <=? Z.of_nat (capacity (List.length ls)) then Val [] else Crashes) else Crashes.
Proof.
  clear compile errtext.
  intros ed ls m n H G L N M. pose proof (lines_range ed ls H G) as R. unfold Print.
  rewrite (getLines_good ed ls); auto. cbn [obind]. rewrite wrap64_id by (unfold min_int64; lia).
  destruct (m =? n + 1) eqn:E.
  - replace (m - 1) with n by lia. rewrite Z.leb_refl. replace (0 <=? n) with true by lia. cbn [andb].
    destruct (n <=? _); auto. rewrite Z.sub_diag. reflexivity.
  - destruct ((0 <=? m - 1) && (m - 1 <=? n) && _) eqn:E2; auto. lia.
Qed.
Lemma delete_reversed : forall fs o ed cc ls m n t ps,
  e_pt ed = new_piece_table (unlines ls) cc (len (unlines ls)) -> good ls -> len (unlines ls) <= max_int64 ->
  0 <= n < m -> m <= lines_count ls ->
  exists ed', process fs o ed (cmd_at ctdelete (num_addr m) (num_addr n) t ps) = Val ([], ed', []) /\
    pt_string (e_pt ed') = Ok (unlines (upto ls (m - 1) ++ after ls n)).
Proof.
  intros fs o ed cc ls m n t ps E G L N M.
  assert (H : buffer ed ls) by (eapply fresh_holds; eauto).
  pose proof (lines_range ed ls H G) as R.
  unfold processCommand. rewrite no_default by reflexivity. cbn [cmd_at c_typ c_start c_end].
  rewrite !addr_num_line by (unfold min_int64; lia). cbn [obind].
  unfold Delete. rewrite (addr_good ed ls); auto. cbn [obind]. rewrite wrap64_id by (unfold min_int64; lia).
  rewrite (addr_good ed ls); auto. cbn [obind]. replace (n + 1 - 1) with n by lia.
  rewrite (addr_num_line (set_pt _ _)) by (unfold min_int64; lia). cbn [obind].
  eexists. split; [reflexivity|]. cbn [set_current set_pt e_pt]. rewrite E.
  set (a := len (unlines (upto ls (m - 1)))). set (b := len (unlines (upto ls n))).
  assert (La : a <= len (unlines ls)).
  { unfold a. rewrite <- (upto_after ls (m - 1)) at 2. rewrite unlines_app, len_app.
    pose proof (len_nonneg (unlines (after ls (m - 1)))). lia. }
  assert (Lb : b <= a).
  { unfold a, b. rewrite <- (upto_upto ls n (m - 1)) by lia. unfold upto at 1.
    rewrite <- (firstn_skipn (Z.to_nat n) (upto ls (m - 1))) at 2. rewrite unlines_app, len_app.
    pose proof (len_nonneg (unlines (skipn (Z.to_nat n) (upto ls (m - 1))))). lia. }
  assert (L0 : 0 <= b) by apply len_nonneg.
  unfold pt_delete. cbn [new_piece_table head delete_pieces plen poff prdr orig closable closed appendb].
  rewrite wrap64_id by (unfold min_int64; lia). replace (a + (b - a)) with b by lia.
  replace (0 + len (unlines ls)) with (len (unlines ls)) by lia.
  destruct (a <=? len (unlines ls)) eqn:E1; [|lia]. destruct (b <=? len (unlines ls)) eqn:E2; [|lia].
  set (pt := {| orig := unlines ls; closable := _; closed := _; appendb := _; head := _ |}).
  assert (Fa : firstn (Z.to_nat a) (unlines ls) = unlines (upto ls (m - 1))).
  { rewrite <- (upto_after ls (m - 1)) at 1. rewrite unlines_app. unfold a, len.
    rewrite Nat2Z.id, firstn_app, Nat.sub_diag, firstn_all. cbn. apply List.app_nil_r. }
  assert (Sb : skipn (Z.to_nat b) (unlines ls) = unlines (after ls n)).
  { rewrite <- (upto_after ls n) at 1. rewrite unlines_app. unfold b, len.
    rewrite Nat2Z.id, skipn_app, Nat.sub_diag, skipn_all. reflexivity. }
  rewrite pt_string_ok.
  - f_equal. unfold denote. cbn [head pt flat_map]. unfold pbytes. cbn [plen poff prdr rdr_content orig pt].
    rewrite List.app_nil_r, unlines_app, <- Fa, <- Sb. unfold sub. f_equal.
    + now rewrite Z.sub_0_r.
    + replace (0 + (a - 0 + (b - a))) with b by lia. rewrite firstn_all2; auto.
      rewrite skipn_length. unfold len. lia.
  - reflexivity.
  - cbn [head pt]. repeat constructor; cbn; lia.
Qed.

(* ---- $c ---- *)
Lemma change_last : forall fs o ed p x y t ps, buffer ed (p ++ [x; y]) -> good (p ++ [x; y]) -> good (p ++ [x]) ->
  Forall ed_line (typed t) -> len (unlines (p ++ [x; y])) + len t + 1 <= max_int64 ->
  exists ed', process fs o ed (cmd_at ctchange aLast aLast t ps) = Val ([], ed', []) /\
    buffer ed' (p ++ typed t ++ [x]).
Proof.
  intros fs o ed p x y t ps H G G1 Ft F. set (ls := p ++ [x; y]) in *. pose proof (lines_range ed ls H G) as R.
  assert (Lc : lines_count ls = lines_count p + 2) by (unfold ls, lines_count; rewrite app_length; cbn; lia).
  unfold processCommand. rewrite no_default by reflexivity. cbn [cmd_at c_typ c_start c_end].
  assert (D : denotes ed ls aLast (lines_count ls)).
  { replace (lines_count ls) with (lines_count ls + 0) by lia. constructor. }
  rewrite (addr_denotes compile ed ls _ _ H G D) by (unfold min_int64; lia). cbn [obind].
  destruct (delete_good ed ls (lines_count ls) (lines_count ls) H G) as (pt&E&T); try (unfold lines_count in *; lia).
  rewrite E. cbn [obind].
  assert (Hl : upto ls (lines_count ls - 1) ++ after ls (lines_count ls) = p ++ [x]).
  { unfold upto, after, lines_count. rewrite Nat2Z.id, skipn_all, List.app_nil_r. unfold ls.
    replace (p ++ [x; y]) with ((p ++ [x]) ++ [y]) by (rewrite <- app_assoc; reflexivity).
    rewrite app_length. cbn [List.length].
    replace (Z.to_nat (Z.of_nat (List.length (p ++ [x]) + 1) - 1)) with (List.length (p ++ [x])) by lia.
    rewrite firstn_app, Nat.sub_diag, firstn_all. cbn. apply List.app_nil_r. }
  rewrite Hl in T.
  assert (B1 : buffer (set_pt ed pt) (p ++ [x])) by exact T.
  assert (L1 : lines_count (p ++ [x]) = lines_count p + 1) by (unfold lines_count; rewrite app_length; cbn; lia).
  assert (D1 : denotes (set_pt ed pt) (p ++ [x]) aLast (lines_count p + 1)).
  { rewrite <- L1. replace (lines_count (p ++ [x])) with (lines_count (p ++ [x]) + 0) by lia. constructor. }
  rewrite (addr_denotes compile _ _ _ _ B1 G1 D1) by (unfold min_int64, lines_count in *; lia). cbn [obind].
  cbn [cmd_at c_text].
  destruct (insert_good (set_pt ed pt) (p ++ [x]) (lines_count p + 1) t B1 G1) as (pt2&E2&T2).
  { unfold ls in F. replace (p ++ [x; y]) with ((p ++ [x]) ++ [y]) in F by (rewrite <- app_assoc; reflexivity).
    rewrite unlines_app, len_app in F. pose proof (len_nonneg (unlines [y])). lia. }
  rewrite E2. cbn [obind]. change (set_pt (set_pt ed pt) pt2) with (set_pt ed pt2).
  assert (Hu : upto (p ++ [x]) (lines_count p + 1 - 1) = p).
  { unfold upto, lines_count. replace (Z.to_nat (Z.of_nat (List.length p) + 1 - 1)) with (List.length p) by lia.
    rewrite firstn_app, Nat.sub_diag, firstn_all. cbn. apply List.app_nil_r. }
  assert (Ha : after (p ++ [x]) (lines_count p + 1 - 1) = [x]).
  { unfold after, lines_count. replace (Z.to_nat (Z.of_nat (List.length p) + 1 - 1)) with (List.length p) by lia.
    rewrite skipn_app, Nat.sub_diag, skipn_all. reflexivity. }
  rewrite Hu, Ha in T2.
  assert (G2 : good (p ++ typed t ++ [x])).
  { destruct G1 as [F1 G1]. apply Forall_app in F1 as [Fp Fx]. split.
    - apply Forall_app. split; auto. apply Forall_app. auto.
    - intros q Q. rewrite app_assoc in Q. apply app_inj_tail in Q as [_ ->]. now apply (G1 p). }
  assert (B2 : buffer (set_pt ed pt2) (p ++ typed t ++ [x])) by exact T2.
  assert (D2 : denotes (set_pt ed pt2) (p ++ typed t ++ [x]) aLast (lines_count (p ++ typed t ++ [x]))).
  { replace (lines_count (p ++ typed t ++ [x])) with (lines_count (p ++ typed t ++ [x]) + 0) by lia. constructor. }
  pose proof (lines_range _ _ B2 G2).
  rewrite (addr_denotes compile _ _ _ _ B2 G2 D2) by (unfold min_int64; lia). cbn [obind].
  eexists. split; [reflexivity|]. exact B2.
Qed.

(* ---- invalid addresses ---- *)
Lemma zero_line_crashes : forall fs o ed b t ps, (exists ls, getLines ed = Val ls) ->
  (exists n, addrLine compile ed b = Val n) ->
  process fs o ed (cmd_at ctprint (num_addr 0) b t ps) = Crashes.
Proof.
  intros fs o ed b t ps [[ls k] G] [n E]. unfold processCommand. rewrite no_default by reflexivity.
  cbn [cmd_at c_typ c_start c_end]. rewrite addr_num_line by (unfold min_int64, max_int64; lia). cbn [obind].
  rewrite E. cbn [obind]. unfold Print. rewrite G. cbn [obind].
  destruct ((0 <=? wrap64 (0 - 1)) && _ && _) eqn:Q; auto. rewrite wrap64_id in Q by (unfold min_int64, max_int64; lia).
  cbn in Q. discriminate.
Qed.
Lemma number_past_crashes : forall fs o ed ls n t ps, buffer ed ls -> good ls ->
  lines_count ls < n < max_int64 ->
  process fs o ed (cmd_at ctnumber (num_addr n) (num_addr n) t ps) = Crashes.
Proof.
  intros fs o ed ls n t ps H G N. unfold processCommand. rewrite no_default by reflexivity.
  cbn [cmd_at c_typ c_start c_end].
  assert (0 <= lines_count ls) by (unfold lines_count; lia).
  rewrite addr_num_line by (unfold min_int64; lia). cbn [obind].
  unfold number. rewrite (getLines_good ed ls); auto. cbn [obind].
  replace (Z.to_nat (n + 1 - n)) with 1%nat by lia. cbn [number_lines]. unfold lines_count in *.
  destruct ((1 <=? n) && (n <=? Z.of_nat (List.length ls))) eqn:E; auto. lia.
Qed.

(* ---- the zero value of Itor ---- *)
Lemma zero_append_once : forall fs o t n, 0 <= n < max_int64 - 1 ->
  exists ed', process fs o zero_itor (cmd_at ctappend (num_addr n) zero_address t []) = Val ([], ed', []) /\
    pt_string (e_pt ed') = Ok (t ++ [nl]) /\
    (forall fs' o' a b t' ps x, x = ctappend \/ x = ctinsert -> addrLine compile ed' a <> Hangs -> is_null a = false ->
       process fs' o' ed' (cmd_at x a b t' ps) = Crashes).
Proof.
  intros fs o t n N. unfold processCommand at 1. rewrite no_default by reflexivity.
  cbn [cmd_at c_typ c_start c_end c_text]. rewrite addr_num_line by (unfold min_int64, max_int64 in *; lia).
  cbn [obind]. rewrite wrap64_id by (unfold min_int64; lia).
  unfold insertBeforeLine, getLineAddr, getLines. cbn [zero_itor e_pt zero_table pt_string head total_len fold_right].
  change (pt_string zero_table) with (@Ok bytes []). cbn [of_res obind].
  change (text_lines []) with (@Val (list bytes * nat) ([], O)). cbn [obind].
  replace (line_addr [] (n + 1)) with 0 by (unfold line_addr; cbn [List.length]; destruct (_ <? _); [|rewrite firstn_nil]; reflexivity).
  unfold insert_at. cbn [zero_itor e_pt zero_table pt_insert head obind].
  eexists. split; [reflexivity|]. cbn [set_current set_pt e_pt]. split.
  - unfold pt_string. cbn [head total_len fold_right plen string_pieces].
    assert (0 < Z.of_nat (List.length (t ++ [nl]))) by (rewrite app_length; cbn; lia).
    destruct (Z.of_nat (List.length (t ++ [nl])) + 0 <? 0) eqn:E1; [lia|].
    destruct (Z.of_nat (List.length (t ++ [nl])) =? 0) eqn:E2; [lia|].
    destruct (Z.of_nat (List.length (t ++ [nl])) <? 0) eqn:E3; [lia|].
    unfold piece_read, read_at. cbn [prdr poff plen].
    destruct ((0 <=? 0) && (0 + Z.of_nat (List.length (t ++ [nl])) <=? Z.of_nat (List.length (t ++ [nl])))) eqn:E4; [|lia].
    cbn [rbind skipn Z.to_nat]. rewrite Nat2Z.id, firstn_all, List.app_nil_r. reflexivity.
  - intros fs' o' a b t' ps x X A Nn. set (ed' := set_current _ _) in *.
    assert (I : forall text at_, pt_insert (e_pt ed') text at_ = (e_pt ed', Panics)).
    { intros text at_. unfold ed', pt_insert. cbn [set_current set_pt e_pt head appendb insert_pieces].
      destruct (_ <=? _); reflexivity. }
    assert (IB : forall n0 text, insertBeforeLine ed' n0 text = Crashes).
    { intros n0 text. unfold insertBeforeLine. unfold getLineAddr.
      assert (exists r, getLines ed' = Val r \/ getLines ed' = Crashes) as [[q k] [Q|Q]].
      { unfold getLines. destruct (pt_string (e_pt ed')); cbn [of_res obind]; try (exists ([], O); auto; fail).
        unfold text_lines. destruct (scan_lines a0) as [q [|]]; [exists ([], O); auto|].
        destruct (rev q) as [|[|]]; eauto. }
      - rewrite Q. cbn [obind]. unfold insert_at. now rewrite I.
      - rewrite Q. reflexivity. }
    unfold processCommand. rewrite no_default by exact Nn.
    destruct X as [->| ->]; cbn [cmd_at c_typ c_start c_end c_text];
      destruct (addrLine compile ed' a) eqn:E; cbn [obind]; try (now elim A); auto; now rewrite IB.
Qed.
End R.
