(* Proofs for C129 and the refutations of C50, C51 and C54 that rest on it. *)
From Verif Require Import GoBase GoFacts PieceTableModel PieceTableSpec PieceTableProofs EdModel EdSpec EdProofs EdProofs2 EdExactSpec.
Local Open Scope Z_scope.

(* ---- lines ---- *)
Lemma cut_blank_cases : forall ls, (cut_blank ls = ls /\ forall p, ls <> p ++ [[]]) \/ ls = cut_blank ls ++ [[]].
Proof.
  intros ls. unfold cut_blank. destruct (rev ls) as [|[|c l] r] eqn:E.
  - left. split; auto. intros p ->. rewrite rev_app_distr in E. discriminate.
  - right. rewrite <- (rev_involutive ls), E. reflexivity.
  - left. split; auto. intros p ->. rewrite rev_app_distr in E. discriminate.
Qed.
Lemma cut_blank_snoc : forall p, cut_blank (p ++ [[]]) = p.
Proof. intros p. unfold cut_blank. rewrite rev_app_distr. cbn. apply rev_involutive. Qed.
Lemma cut_blank_length : forall ls, (List.length (cut_blank ls) <= List.length ls)%nat.
Proof.
  intros ls. destruct (cut_blank_cases ls) as [[-> _]|H]; auto. rewrite H at 2. rewrite app_length. lia.
Qed.
Lemma raw_pieces : forall s, raw_lines s = text_pieces s.
Proof.
  intros s. unfold raw_lines, text_pieces. destruct (cut_blank_cases (split_on nl s)) as [[E N]|E].
  - rewrite E. destruct (@exists_last _ (split_on nl s)) as (p&x&Ex); [apply split_on_nonempty|].
    rewrite Ex in *. rewrite last_last. destruct x; [now elim (N p)|reflexivity].
  - remember (cut_blank (split_on nl s)) as p eqn:Hp. rewrite E, last_last, removelast_last. reflexivity.
Qed.
Lemma getLines_exact : forall ed s, holds ed s -> readable s ->
  getLines ed = Val (seen s, List.length (text_pieces s)).
Proof.
  intros ed s H R. unfold getLines. rewrite (holds_string _ _ H). cbn [of_res obind].
  unfold text_lines, scan_lines. rewrite raw_pieces, scan_segs_cr by exact R.
  unfold seen, cut_blank. change without_cr with drop_cr. rewrite map_length.
  destruct (rev (map drop_cr (text_pieces s))) as [|[|c l] r]; reflexivity.
Qed.

(* the lines of a complete text *)
Lemma complete_unlines : forall s, complete s -> s = unlines (text_pieces s).
Proof.
  intros s C. unfold text_pieces.
  assert (U : forall ls x, Forall (fun l => ~ In nl l) ls -> ls <> [] ->
    join [nl] (ls ++ [x]) = unlines ls ++ x).
  { induction ls as [|l ls IH]; intros x F N; [congruence|]. inversion F; subst.
    destruct ls as [|l2 ls]; [cbn; now rewrite List.app_nil_r, <- app_assoc|].
    change (join [nl] ((l :: l2 :: ls) ++ [x])) with (l ++ [nl] ++ join [nl] ((l2 :: ls) ++ [x])).
    rewrite IH by (auto; discriminate). cbn [unlines flat_map]. now rewrite <- !app_assoc. }
  pose proof (join_split nl s) as J.
  assert (F : Forall (fun l => ~ In nl l) (split_on nl s)).
  { apply Forall_forall. intros x Hx. eapply split_on_pieces_no_sep; eauto. }
  destruct (@exists_last _ (split_on nl s)) as (p&x&Ex); [apply split_on_nonempty|]. rewrite Ex in *.
  assert (J2 : unlines p ++ x = s).
  { rewrite <- J. apply Forall_app in F as [F _]. destruct p as [|a p]; [reflexivity|]. symmetry. apply U; auto. discriminate. }
  destruct x as [|c x].
  - rewrite cut_blank_snoc. rewrite <- J2. now rewrite List.app_nil_r.
  - exfalso. destruct (@exists_last _ (c :: x)) as (q&d&Ed); [discriminate|].
    rewrite Ed in J2. apply Forall_app in F as [_ F]. inversion F as [|? ? F1 _]; subst.
    apply F1. rewrite Ed. apply in_or_app. right. left.
    apply (C (unlines p ++ q) d). now rewrite <- app_assoc.
Qed.
Lemma pieces_no_nl : forall s l, In l (text_pieces s) -> ~ In nl l.
Proof.
  intros s l H. unfold text_pieces in H. apply (split_on_pieces_no_sep nl s).
  destruct (cut_blank_cases (split_on nl s)) as [[E _]|E]; [now rewrite E in H|].
  rewrite E. apply in_or_app. now left.
Qed.
Lemma unlines_complete : forall ls, complete (unlines ls).
Proof.
  intros ls p c E. destruct ls as [|l ls]; [destruct p; discriminate|].
  destruct (@exists_last _ (l :: ls)) as (q&x&Ex); [discriminate|]. rewrite Ex, unlines_app in E.
  cbn [unlines flat_map] in E. rewrite List.app_nil_r, app_assoc in E. now apply app_inj_tail in E.
Qed.
Lemma complete_app : forall a b, complete b -> b <> [] -> complete (a ++ b).
Proof.
  intros a b C N p c E. destruct (@exists_last _ b) as (q&x&->); auto. rewrite app_assoc in E.
  apply app_inj_tail in E as [_ <-]. now apply (C q).
Qed.
Lemma complete_skipn : forall k s, complete s -> complete (skipn k s).
Proof. intros k s C p c E. apply (C (firstn k s ++ p)). now rewrite <- app_assoc, <- E, firstn_skipn. Qed.

Lemma without_cr_le : forall l, len (without_cr l) <= len l.
Proof.
  intros l. unfold without_cr. destruct (rev l) as [|c r] eqn:E; [lia|]. destruct (Ascii.eqb c cr); [|lia].
  apply (f_equal (@List.length ascii)) in E. rewrite rev_length in E. cbn in E. unfold len. rewrite rev_length. lia.
Qed.
Lemma without_cr_same : forall l, len (without_cr l) = len l -> without_cr l = l.
Proof.
  intros l. unfold without_cr. destruct (rev l) as [|c r] eqn:E; auto. destruct (Ascii.eqb c cr); auto.
  apply (f_equal (@List.length ascii)) in E. rewrite rev_length in E. cbn in E. unfold len. rewrite rev_length. lia.
Qed.
Lemma len_unlines_cons : forall l ls, len (unlines (l :: ls)) = len l + 1 + len (unlines ls).
Proof. intros. change (unlines (l :: ls)) with ((l ++ [nl]) ++ unlines ls). rewrite !len_app. change (len [nl]) with 1. lia. Qed.
Lemma seen_prefix_le : forall ls k, len (unlines (firstn k (map without_cr ls))) <= len (unlines ls).
Proof.
  induction ls as [|l ls IH]; intros k.
  - cbn [map]. rewrite firstn_nil. apply Z.le_refl.
  - destruct k as [|k]; cbn [map firstn]; rewrite !len_unlines_cons.
    + change (len (unlines [])) with 0. pose proof (len_nonneg l). pose proof (len_nonneg (unlines ls)). lia.
    + pose proof (without_cr_le l). specialize (IH k). lia.
Qed.
Lemma firstn_cut_blank : forall ls k, exists j, firstn k (cut_blank ls) = firstn j ls /\
  (cut_blank ls = ls \/ (j <= List.length (cut_blank ls))%nat).
Proof.
  intros ls k. destruct (cut_blank_cases ls) as [[E _]|E].
  - exists k. rewrite E. auto.
  - remember (cut_blank ls) as p eqn:Hp. clear Hp. subst ls.
    exists (Nat.min k (List.length p)). split; [|right; lia].
    rewrite firstn_app. replace (_ - _)%nat with O by lia. cbn [firstn]. rewrite List.app_nil_r.
    destruct (Nat.le_gt_cases k (List.length p)) as [Q|Q].
    + now rewrite Nat.min_l.
    + rewrite Nat.min_r by lia. now rewrite !firstn_all2 by lia.
Qed.
Lemma start_nonneg : forall s n, 0 <= line_start s n.
Proof. intros. apply len_nonneg. Qed.
Lemma start_le : forall s n, complete s -> line_start s n <= len s.
Proof.
  intros s n C. rewrite (complete_unlines s C) at 2. unfold line_start, upto, seen.
  destruct (firstn_cut_blank (map without_cr (text_pieces s)) (Z.to_nat (n - 1))) as (j&->&_).
  apply seen_prefix_le.
Qed.
Lemma start_mono : forall s m n, m <= n -> line_start s m <= line_start s n.
Proof.
  intros s m n H. unfold line_start. destruct (Z.leb_spec 0 (m - 1)).
  - rewrite <- (upto_upto (seen s) (m - 1) (n - 1)) by lia.
    rewrite <- (upto_after (upto (seen s) (n - 1)) (m - 1)) at 2. rewrite unlines_app, len_app.
    pose proof (len_nonneg (unlines (after (upto (seen s) (n - 1)) (m - 1)))). lia.
  - unfold upto. replace (Z.to_nat (m - 1)) with O by lia. cbn [firstn unlines flat_map].
    change (len []) with 0. apply len_nonneg.
Qed.
(* if the editor believes a line to start at the very end, there is no \r before it *)
Lemma full_prefix : forall ls k, len (unlines (firstn k (map without_cr ls))) = len (unlines ls) ->
  forall j, (j <= k)%nat -> firstn j (map without_cr ls) = firstn j ls.
Proof.
  induction ls as [|l ls IH]; intros k E j J; cbn [map]; [now rewrite !firstn_nil|].
  destruct k as [|k].
  { assert (j = O) by lia. subst. reflexivity. }
  cbn [map firstn] in E. rewrite !len_unlines_cons in E.
  pose proof (without_cr_le l). pose proof (seen_prefix_le ls k).
  destruct j as [|j]; [reflexivity|]. cbn [firstn]. rewrite without_cr_same by lia.
  rewrite (IH k); auto; lia.
Qed.
Lemma start_at_end : forall s m n, complete s -> m <= n -> line_start s n = len s ->
  complete (firstn (Z.to_nat (line_start s m)) s).
Proof.
  intros s m n C M E. rewrite (complete_unlines s C) in E at 2.
  unfold line_start, upto in *. unfold seen in *.
  set (v := map without_cr (text_pieces s)) in *.
  destruct (firstn_cut_blank v (Z.to_nat (n - 1))) as (j&Ej&Bj). rewrite Ej in E.
  destruct (firstn_cut_blank v (Z.to_nat (m - 1))) as (i&Ei&Bi). rewrite Ei.
  assert (P : firstn i v = firstn i (text_pieces s)).
  { destruct (Nat.le_gt_cases i j) as [Q|Q]; [apply (full_prefix _ j); auto|].
    (* i > j: then the lines up to j are all *)
    assert (L : (List.length (text_pieces s) <= j)%nat).
    { destruct (Nat.le_gt_cases (List.length (text_pieces s)) j) as [|K]; auto. exfalso.
      assert (Q2 : firstn j v = firstn j (text_pieces s)) by (apply (full_prefix _ j); auto).
      rewrite Q2 in E. rewrite <- (firstn_skipn j (text_pieces s)) in E at 2.
      rewrite unlines_app, len_app in E.
      destruct (skipn j (text_pieces s)) as [|x r] eqn:S.
      - apply (f_equal (@List.length bytes)) in S. rewrite skipn_length in S. cbn in S. lia.
      - rewrite len_unlines_cons in E. pose proof (len_nonneg x). pose proof (len_nonneg (unlines r)). lia. }
    assert (F : forall k, (List.length (text_pieces s) <= k)%nat -> firstn k v = v /\ firstn k (text_pieces s) = text_pieces s).
    { intros k K. unfold v. rewrite !firstn_all2 by (rewrite ?map_length; lia). auto. }
    destruct (F i) as [-> ->]; [lia|]. pose proof (full_prefix (text_pieces s) j) as FP. fold v in FP.
    specialize (FP E j (le_n _)). destruct (F j L) as [Fa Fb]. now rewrite Fa, Fb in FP. }
  rewrite P. rewrite (complete_unlines s C) at 2. rewrite <- (firstn_skipn i (text_pieces s)) at 2.
  rewrite unlines_app. unfold len. rewrite Nat2Z.id, firstn_app, Nat.sub_diag, firstn_all.
  cbn [firstn]. rewrite List.app_nil_r. apply unlines_complete.
Qed.

(* edits keep a text complete *)
Lemma exact_insert_complete : forall s n t, complete s -> complete (exact_insert s n t).
Proof.
  intros s n t C. unfold exact_insert, splice.
  destruct (skipn (Z.to_nat (line_start s n)) s) as [|c r] eqn:E.
  - rewrite List.app_nil_r. apply complete_app; [|destruct t; discriminate].
    intros p c Q. now apply app_inj_tail in Q.
  - rewrite app_assoc. apply complete_app; [|discriminate]. rewrite <- E. now apply complete_skipn.
Qed.
Lemma exact_delete_complete : forall s m n, complete s -> m <= n + 1 -> complete (exact_delete s m n).
Proof.
  intros s m n C M. unfold exact_delete, cut_out.
  replace (line_start s m + (line_start s (n + 1) - line_start s m)) with (line_start s (n + 1)) by lia.
  pose proof (start_le s (n + 1) C). pose proof (start_nonneg s (n + 1)).
  destruct (skipn (Z.to_nat (line_start s (n + 1))) s) as [|c r] eqn:E.
  - rewrite List.app_nil_r. apply (start_at_end s m (n + 1)); auto.
    apply (f_equal (@List.length ascii)) in E. rewrite skipn_length in E. cbn in E. unfold len in *. lia.
  - apply complete_app; [|discriminate]. rewrite <- E. now apply complete_skipn.
Qed.
Lemma exact_edit_complete : forall s c, complete s -> exact_valid s c -> complete (exact_edit s c).
Proof.
  intros s c C (_&_&V). destruct c; cbn [exact_edit] in *; auto using exact_insert_complete.
  - apply exact_insert_complete, exact_delete_complete; auto. lia.
  - apply exact_delete_complete; auto. lia.
Qed.

(* ---- commands ---- *)
Lemma addr_exact : forall ed s n, holds ed s -> readable s -> getLineAddr ed n = Val (line_start s n).
Proof.
  intros ed s n H R. unfold getLineAddr. rewrite (getLines_exact _ s); auto. cbn [obind].
  now rewrite line_addr_spec.
Qed.
Lemma insert_exact : forall ed s n t, holds ed s -> readable s -> complete s -> len s + len t + 1 <= max_int64 ->
  exists pt, insertBeforeLine ed n t = Val (set_pt ed pt) /\ table_for pt (exact_insert s n t).
Proof.
  intros ed s n t H R C F. unfold insertBeforeLine. rewrite (addr_exact _ s); auto. cbn [obind]. unfold insert_at.
  destruct (table_for_ins (e_pt ed) s (t ++ [nl]) (line_start s n)) as (pt&E&T); auto.
  - split.
    + pose proof (start_nonneg s n). pose proof (start_le s n C). lia.
    + rewrite len_app. change (len [nl]) with 1. lia.
  - rewrite E. exists pt. split; auto.
Qed.
Lemma delete_exact : forall ed s m n, holds ed s -> readable s -> complete s -> 1 <= m <= n + 1 -> n < max_int64 ->
  exists pt, Delete ed m n = Val (set_pt ed pt) /\ table_for pt (exact_delete s m n).
Proof.
  intros ed s m n H R C M N. unfold Delete. rewrite (addr_exact _ s); auto. cbn [obind].
  rewrite (wrap64_id (n + 1)) by (unfold min_int64; lia). rewrite (addr_exact _ s); auto. cbn [obind].
  eexists. split; [reflexivity|]. apply table_for_del; auto. cbn.
  pose proof (start_nonneg s m). pose proof (start_le s (n + 1) C). pose proof (start_mono s m (n + 1)). lia.
Qed.
Lemma cut_le : forall s m n, complete s -> m <= n + 1 -> len (exact_delete s m n) <= len s.
Proof.
  intros s m n C M. unfold exact_delete. pose proof (start_nonneg s m). pose proof (start_le s (n + 1) C).
  pose proof (start_mono s m (n + 1) M). rewrite cut_out_len; lia.
Qed.

Section R.
Variable compile : bytes -> option (bytes -> bool).
Variable capacity : nat -> nat.
Variable errtext : bytes.
Hypothesis capacity_ok : forall n, (n <= capacity n)%nat.
Notation process := (processCommand compile capacity errtext).

Lemma print_exact : forall ed s m n, holds ed s -> readable s -> 1 <= m <= n -> n <= lines_count (seen s) ->
  n <= max_int64 -> Print capacity ed m n = Val (join [nl] (between (seen s) m n)).
Proof.
  clear compile errtext.
  intros ed s m n H R M N X. unfold Print. rewrite (getLines_exact _ s); auto. cbn [obind].
  pose proof (capacity_ok (List.length (text_pieces s))) as K.
  assert (L : (List.length (seen s) <= List.length (text_pieces s))%nat).
  { unfold seen. pose proof (cut_blank_length (map without_cr (text_pieces s))) as Q. now rewrite map_length in Q. }
  rewrite wrap64_id by (unfold min_int64; lia). unfold lines_count in *.
  destruct ((0 <=? m - 1) && (m - 1 <=? n) && (n <=? Z.of_nat (capacity (List.length (text_pieces s))))) eqn:E; [|lia].
  f_equal. f_equal. unfold between. replace (n - (m - 1)) with (n - m + 1) by lia.
  rewrite skipn_app, firstn_app. rewrite skipn_length.
  replace (Z.to_nat (n - m + 1) - (List.length (seen s) - Z.to_nat (m - 1)))%nat with O by lia.
  cbn [firstn]. now rewrite List.app_nil_r.
Qed.
Lemma number_exact : forall ed s m n, holds ed s -> readable s -> 1 <= m <= n -> n <= lines_count (seen s) ->
  number ed m n = Val (numbered m (between (seen s) m n)).
Proof.
  clear capacity_ok compile capacity errtext.
  intros ed s m n H R M N. unfold number. rewrite (getLines_exact _ s); auto. cbn [obind].
  rewrite number_lines_ok by (unfold lines_count in *; lia). unfold between.
  replace (n + 1 - m) with (n - m + 1) by lia. reflexivity.
Qed.
Lemma seen_count : forall s, len s <= max_int64 -> lines_count (seen s) <= max_int64.
Proof.
  clear capacity_ok compile capacity errtext.
  intros s L. unfold lines_count.
  assert (Q : (List.length (seen s) <= List.length (split_on nl s) - 1)%nat \/ (List.length (split_on nl s) <= 1)%nat \/
              (List.length (seen s) <= List.length (split_on nl s))%nat).
  { right; right. unfold seen. etransitivity; [apply cut_blank_length|]. rewrite map_length. apply cut_blank_length. }
  assert (S1 : forall b, (List.length (split_on nl b) <= S (List.length b))%nat).
  { clear. induction b as [|c b IH]; cbn; auto. destruct (Ascii.eqb c nl); cbn; [lia|].
    destruct (split_on nl b); cbn in *; lia. }
  assert (S2 : (List.length (seen s) <= List.length s)%nat).
  { unfold seen. etransitivity; [apply cut_blank_length|]. rewrite map_length. unfold text_pieces.
    specialize (S1 s). destruct (cut_blank_cases (split_on nl s)) as [[E N]|E].
    - rewrite E. destruct (Nat.le_gt_cases (List.length (split_on nl s)) (List.length s)) as [|K]; auto. exfalso.
      (* as many pieces as bytes plus one: every byte is a newline *)
      assert (A : forall b, (List.length b < List.length (split_on nl b))%nat -> split_on nl b = repeat [] (S (List.length b))).
      { clear. induction b as [|c b IH]; intros K; cbn in *; auto. destruct (Ascii.eqb c nl).
        - rewrite IH; auto. cbn in K. lia.
        - destruct (split_on nl b) as [|x r] eqn:Q; cbn in *; [lia|].
          assert (P : (List.length (x :: r) <= S (List.length b))%nat).
          { rewrite <- Q. clear. induction b as [|d b IH]; cbn; auto. destruct (Ascii.eqb d nl); cbn; [lia|]. destruct (split_on nl b); cbn in *; lia. }
          cbn in P. lia. }
      apply (N (repeat [] (List.length s))). rewrite A by lia. clear. induction (List.length s); cbn in *; auto. now rewrite <- IHn.
    - pose proof (f_equal (@List.length bytes) E) as E2. rewrite app_length in E2. cbn in E2. lia. }
  unfold len in L. lia.
Qed.

Lemma exact_step : forall fs o ed s c, holds ed s -> complete s -> exact_valid s c ->
  exists ed', process fs o ed (concrete c) = Val ([], ed', exact_reply s c) /\ holds ed' (exact_edit s c).
Proof.
  intros fs o ed s c H C (R&F&V). pose proof (holds_len _ _ H) as HL. pose proof (seen_count s HL) as SC.
  destruct c as [n t|n t|m n t|m n|m n|m n|n]; cbn [concrete text_of] in *;
    unfold processCommand; rewrite no_default by reflexivity; cbn [cmd_at c_typ c_start c_end c_text];
    rewrite ?addr_num_line by (unfold min_int64; lia); cbn [obind].
  - rewrite (wrap64_id (n + 1)) by (unfold min_int64; lia).
    destruct (insert_exact ed s (n + 1) t) as (pt&E&T); auto. rewrite E. cbn [obind].
    eexists. split; [reflexivity|]. exact T.
  - destruct (insert_exact ed s n t) as (pt&E&T); auto. rewrite E. cbn [obind].
    eexists. split; [reflexivity|]. exact T.
  - destruct V as (M&N&R2).
    destruct (delete_exact ed s m n) as (pt&E&T); auto; try lia. rewrite E. cbn [obind].
    rewrite addr_num_line by (unfold min_int64; lia). cbn [obind].
    destruct (insert_exact (set_pt ed pt) (exact_delete s m n) m t) as (pt2&E2&T2); auto.
    { apply exact_delete_complete; auto. lia. }
    { pose proof (cut_le s m n C). lia. }
    rewrite E2. cbn [obind]. rewrite addr_num_line by (unfold min_int64; lia). cbn [obind].
    eexists. split; [reflexivity|]. exact T2.
  - destruct V as (M&N).
    destruct (delete_exact ed s m n) as (pt&E&T); auto; try lia. rewrite E. cbn [obind].
    rewrite addr_num_line by (unfold min_int64; lia). cbn [obind].
    eexists. split; [reflexivity|]. exact T.
  - rewrite (print_exact ed s) by (auto; lia). cbn [obind]. eauto.
  - rewrite (number_exact ed s) by (auto; lia). cbn [obind]. eauto.
  - eauto.
Qed.
Lemma exact_history_ok : forall h fs o k ed s, holds ed s -> complete s -> exact_history s h ->
  exists ed', command_loop compile capacity errtext fs o k ed (map concrete h) =
      (exact_printed s h, Val (fs, ed')) /\ holds ed' (exact_final s h).
Proof.
  induction h as [|c h IH]; intros fs o k ed s H C V; cbn [map command_loop exact_printed exact_final].
  - eauto.
  - destruct V as (Vc&V).
    destruct (exact_step fs (o k) ed s c H C Vc) as (ed1&E&B).
    destruct (IH fs o (S k) ed1 _ B (exact_edit_complete s c C Vc) V) as (ed2&E2&B2).
    assert (Tq : c_typ (concrete c) <> ctquit) by (destruct c; discriminate).
    exists ed2. split; auto. rewrite E. cbn [final last]. rewrite E2.
    destruct (c_typ (concrete c)); try reflexivity. now elim Tq.
Qed.
End R.

(* ---- ordinary lines ---- *)
Lemma pieces_unlines : forall ls, (forall l, In l ls -> ~ In nl l) -> text_pieces (unlines ls) = ls.
Proof. intros ls F. rewrite <- raw_pieces. now apply raw_lines_unlines. Qed.
Lemma seen_ordinary : forall ls, Forall ed_line ls -> seen (unlines ls) = cut_blank ls.
Proof.
  intros ls F. unfold seen. rewrite pieces_unlines.
  - change without_cr with drop_cr. now rewrite map_drop_ed.
  - intros l Hl. rewrite Forall_forall in F. now apply F.
Qed.
Lemma cut_hidden : forall ls, ls = cut_blank ls ++ hidden ls.
Proof.
  intros ls. unfold cut_blank, hidden. destruct (rev ls) as [|[|c l] r] eqn:E; rewrite ?List.app_nil_r; auto.
  rewrite <- (rev_involutive ls), E. reflexivity.
Qed.
Lemma line_insert_exact : forall ls n t, Forall ed_line ls ->
  exact_insert (unlines ls) n t = unlines (line_insert ls n t).
Proof.
  intros ls n t F. unfold exact_insert, line_start. rewrite seen_ordinary by auto.
  rewrite (cut_hidden ls) at 1. rewrite <- (upto_after (cut_blank ls) (n - 1)) at 1.
  rewrite <- app_assoc, unlines_app, splice_at. unfold line_insert. rewrite !unlines_app, unlines_typed.
  reflexivity.
Qed.
Lemma line_delete_exact : forall ls m n, Forall ed_line ls -> 1 <= m <= n + 1 ->
  exact_delete (unlines ls) m n = unlines (line_delete ls m n).
Proof.
  intros ls m n F M. unfold exact_delete, line_start. rewrite seen_ordinary by auto.
  rewrite (cut_hidden ls) at 1. set (p := cut_blank ls) in *. unfold line_delete. fold p.
  replace (n + 1 - 1) with n by lia.
  pose proof (upto_after p (m - 1)) as U. rewrite (after_upto p (m - 1) n) in U by lia.
  set (mid := skipn (Z.to_nat (m - 1)) (upto p n)) in *.
  assert (Un : unlines (upto p n) = unlines (upto p (m - 1)) ++ unlines mid).
  { rewrite <- unlines_app. unfold mid. rewrite <- (upto_upto p (m - 1) n) by lia.
    unfold upto at 2. now rewrite firstn_skipn. }
  rewrite Un, len_app. replace (len (unlines (upto p (m - 1))) + len (unlines mid) - len (unlines (upto p (m - 1))))
    with (len (unlines mid)) by lia.
  rewrite <- U at 1. rewrite <- !app_assoc. rewrite (unlines_app (upto p (m - 1))), (unlines_app mid), cut_at.
  now rewrite !unlines_app.
Qed.
Lemma Forall_upto : forall (P : bytes -> Prop) ls n, Forall P ls -> Forall P (upto ls n).
Proof. intros P ls n F. rewrite <- (upto_after ls n) in F. now apply Forall_app in F. Qed.
Lemma Forall_after : forall (P : bytes -> Prop) ls n, Forall P ls -> Forall P (after ls n).
Proof. intros P ls n F. rewrite <- (upto_after ls n) in F. now apply Forall_app in F. Qed.
Lemma line_delete_ordinary : forall ls m n, Forall ed_line ls -> Forall ed_line (line_delete ls m n).
Proof.
  intros ls m n F. unfold line_delete. rewrite (cut_hidden ls) in F. apply Forall_app in F as [F1 F2].
  rewrite !Forall_app. auto using Forall_upto, Forall_after.
Qed.
Lemma readable_ordinary : forall ls, Forall ed_line ls -> readable (unlines ls).
Proof.
  intros ls F. unfold readable. rewrite pieces_unlines; [now apply short_ed|].
  intros l Hl. rewrite Forall_forall in F. now apply F.
Qed.

Section L.
Variable compile : bytes -> option (bytes -> bool).
Variable capacity : nat -> nat.
Variable errtext : bytes.

Lemma line_edit_ok : forall fs o ed ls c, buffer ed ls -> Forall ed_line ls ->
  match c with Append n _ | Insert_ n _ => 0 <= n < max_int64
             | Change m n _ | Delete_ m n => 1 <= m <= n /\ n < max_int64 | _ => False end ->
  len (unlines ls) + len (text_of c) + 1 <= max_int64 ->
  exists ed', processCommand compile capacity errtext fs o ed (concrete c) = Val ([], ed', []) /\ buffer ed' (line_edit ls c).
Proof.
  intros fs o ed ls c H F V L.
  assert (E : exact_edit (unlines ls) c = unlines (line_edit ls c)).
  { destruct c; cbn [exact_edit line_edit] in *; auto using line_insert_exact.
    - rewrite line_delete_exact by (auto; lia). apply line_insert_exact, line_delete_ordinary; auto.
    - apply line_delete_exact; auto. lia. }
  assert (X : exact_valid (unlines ls) c).
  { split; [now apply readable_ordinary|]. split; auto. destruct c; auto; try contradiction.
    destruct V as [V1 V2]. split; auto. split; auto. rewrite line_delete_exact by (auto; lia).
    apply readable_ordinary, line_delete_ordinary; auto. }
  unfold buffer in *. rewrite <- E.
  assert (RP : exact_reply (unlines ls) c = []) by (destruct c; try reflexivity; contradiction).
  destruct (exact_step compile (fun n => Nat.max n (capacity n)) errtext (fun n => Nat.le_max_l n (capacity n)) fs o ed (unlines ls) c H (unlines_complete ls) X) as (ed'&P&B).
  exists ed'. split; auto. rewrite RP in P. refine (eq_trans _ P).
  destruct c; try contradiction; reflexivity.
Qed.
End L.

(* ---- a blank last line ---- *)
Lemma shifted : forall (l : list bytes) x, l ++ [x] = x :: l -> Forall (eq x) l.
Proof.
  induction l as [|y l IH]; intros x E; constructor; cbn in E; injection E as E1 E2; auto.
  subst y. now apply IH.
Qed.
Lemma typed_all_blank : forall t, Forall (eq []) (typed t) -> forall c, In c t -> c = nl.
Proof.
  unfold typed. induction t as [|d t IH]; intros F c H; [contradiction|].
  cbn [split_on] in F. destruct (Ascii.eqb d nl) eqn:E.
  - apply Ascii.eqb_eq in E. inversion F; subst. destruct H as [<-|H]; auto.
  - pose proof (split_on_nonempty nl t) as N. destruct (split_on nl t) as [|x r]; [congruence|].
    inversion F as [|? ? F1]. discriminate.
Qed.
Lemma blank_moves : forall p t, (exists c, In c t /\ c <> nl) -> p ++ typed t ++ [[]] <> p ++ [] :: typed t.
Proof.
  intros p t (c&H&N) E. apply app_inv_head in E. apply N. apply (typed_all_blank t); auto. now apply shifted.
Qed.
Lemma hidden_snoc : forall p, hidden (p ++ [[]]) = [[]].
Proof. intros. unfold hidden. rewrite rev_app_distr. reflexivity. Qed.
Lemma hidden_good : forall ls : list bytes, (forall p, ls <> p ++ [[]]) -> hidden ls = [] /\ cut_blank ls = ls.
Proof.
  intros ls N. unfold hidden, cut_blank. destruct (rev ls) as [|[|c l] r] eqn:R; auto.
  exfalso. apply (N (rev r)). rewrite <- (rev_involutive ls), R. reflexivity.
Qed.
Lemma line_insert_blank : forall (p : list bytes) n t, lines_count p < n -> line_insert (p ++ [[]]) n t = p ++ typed t ++ [[]].
Proof.
  intros p n t L. unfold line_insert. rewrite cut_blank_snoc, hidden_snoc. unfold upto, after, lines_count in *.
  rewrite firstn_all2, skipn_all2 by lia. reflexivity.
Qed.
Lemma line_delete_last : forall (p : list bytes) (x : bytes), x <> [] -> line_delete (p ++ [[]; x]) (lines_count p + 2) (lines_count p + 2) = p ++ [[]].
Proof.
  intros p x N. unfold line_delete. destruct (hidden_good (p ++ [[]; x])) as [-> ->].
  { intros q E. change ([[]; x]) with ([[]] ++ [x]) in E. rewrite app_assoc in E. apply app_inj_tail in E as [_ E]. congruence. }
  unfold upto, after, lines_count. rewrite List.app_nil_r.
  replace (Z.to_nat (Z.of_nat (List.length p) + 2)) with (List.length p + 2)%nat by lia.
  replace (Z.to_nat (Z.of_nat (List.length p) + 2 - 1)) with (List.length p + 1)%nat by lia.
  rewrite (skipn_all2 (n := (List.length p + 2)%nat)) by (rewrite app_length; cbn; lia).
  rewrite List.app_nil_r, firstn_app. replace (List.length p + 1 - List.length p)%nat with 1%nat by lia.
  rewrite firstn_all2 by lia. reflexivity.
Qed.
Lemma ed_line_nil : ed_line [].
Proof. split; [easy|]. split; [destruct p; discriminate|]. reflexivity. Qed.

(* ---- an open last line ---- *)
Lemma delete_past_end_behind : forall content cc t p n,
  len content + len t <= max_int64 -> 0 <= p <= len content -> t <> [] -> len content + len t < p + len t + n <= max_int64 ->
  exists pt, pt_insert (new_piece_table content cc (len content)) t p = (pt, Returned) /\
    pt_string (pt_delete pt n (p + len t)) = Ok (splice content t p).
Proof.
  intros content cc t p n L P T Nn. pose proof (len_nonneg content).
  assert (LT : 0 < len t) by (destruct t; [congruence|]; rewrite len_cons; pose proof (len_nonneg t); lia).
  unfold pt_insert, new_piece_table. cbn [head appendb insert_pieces plen orig closable closed].
  rewrite Z.add_0_l. replace (p <=? len content) with true by lia.
  eexists. split; [reflexivity|].
  unfold pt_delete. rewrite wrap64_id by (unfold min_int64; lia). cbn [head delete_pieces plen poff prdr app].
  rewrite !Z.add_0_l, Z.sub_diag, !Z.sub_0_r. fold (len t).
  replace (p + len t <=? p) with false by lia. replace (p + len t <=? p + len t) with true by lia.
  replace (p + len t + n <=? p + len t) with false by lia.
  cbn [delete_rest plen].
  replace (p + len t + n <=? p + len t + (len content - p)) with false by lia.
  rewrite pt_string_ok; cbn [closed head denote flat_map pbytes plen poff prdr rdr_content orig]; auto.
  - rewrite List.app_nil_r. unfold splice. do 2 f_equal. f_equal.
    + cbn [app List.length]. replace (p + len t - p) with (len t) by lia. apply sub_all.
    + unfold pbytes, sub. cbn [plen poff prdr rdr_content orig].
      rewrite firstn_all2; auto. rewrite skipn_length. unfold len. lia.
  - repeat (apply Forall_cons); auto; unfold pok; cbn [plen poff prdr rdr_content orig]; unfold len in *; cbn [List.length app]; lia.
Qed.
Lemma process_delete : forall compile capacity errtext fs o ed m n, 0 <= m <= max_int64 -> 0 <= n <= max_int64 ->
  processCommand compile capacity errtext fs o ed (cmd_at ctdelete (num_addr m) (num_addr n) [] []) =
  obind (Delete ed m n) (fun ed1 => Val ([], set_current ed1 m, [])).
Proof.
  intros. unfold processCommand. rewrite no_default by reflexivity. cbn [cmd_at c_typ c_start c_end].
  rewrite !addr_num_line by (unfold min_int64; lia). cbn [obind].
  destruct (Delete ed m n) as [ed1| |]; cbn [obind]; auto. rewrite addr_num_line by (unfold min_int64; lia). reflexivity.
Qed.
Lemma delete_open_behind : forall compile capacity errtext fs o k ed cc ls x t,
  e_pt ed = new_piece_table (unlines ls ++ x) cc (len (unlines ls ++ x)) ->
  Forall ed_line (ls ++ typed t ++ [x]) -> x <> [] -> len (unlines ls ++ x) + len t + 2 <= max_int64 ->
  exists ed', command_loop compile capacity errtext fs o k ed
      (map concrete [Insert_ (lines_count ls + 1) t; Delete_ (lines_count ls + lines_count (typed t) + 1) (lines_count ls + lines_count (typed t) + 1)])
    = ([[nl]; [nl]], Val (fs, ed')) /\
  pt_string (e_pt ed') = Ok (unlines (ls ++ typed t) ++ x).
Proof.
  intros compile capacity errtext fs o k ed cc ls x t E F Ne L.
  set (s := unlines ls ++ x) in *.
  assert (H : holds ed s) by (eapply fresh_holds; eauto; pose proof (len_nonneg t); lia).
  assert (Fo : Forall ed_line (ls ++ [x])).
  { rewrite !Forall_app in F. apply Forall_app. tauto. }
  pose proof (lines_le_len ls) as LL. pose proof (lines_le_len (typed t)) as LT.
  assert (LT2 : len (unlines (typed t)) = len t + 1) by (rewrite unlines_typed, len_app; reflexivity).
  assert (Ls : len s = len (unlines ls) + len x) by (unfold s; apply len_app).
  assert (0 < len x) by (destruct x; [congruence|]; rewrite len_cons; pose proof (len_nonneg x); lia).
  pose proof (len_nonneg t).
  set (n := lines_count ls + 1).
  assert (NN : 0 <= n < max_int64) by (unfold n, lines_count in *; lia).
  assert (A1 : getLineAddr ed n = Val (len (unlines ls))).
  { unfold getLineAddr. rewrite (getLines_open ed ls x); auto. cbn [obind]. rewrite line_addr_spec.
    unfold n. replace (Z.to_nat (lines_count ls + 1 - 1)) with (List.length ls) by (unfold lines_count; lia).
    rewrite firstn_app, Nat.sub_diag, firstn_all. cbn [firstn]. now rewrite List.app_nil_r. }
  set (m := lines_count ls + lines_count (typed t) + 1).
  destruct (delete_past_end_behind s cc (t ++ [nl]) (len (unlines ls)) (len x + 1)) as (pt&Ei&Ed).
  { rewrite len_app. change (len [nl]) with 1. lia. }
  { pose proof (len_nonneg (unlines ls)). lia. }
  { destruct t; discriminate. }
  { rewrite len_app. change (len [nl]) with 1. lia. }
  assert (Sp : splice s (t ++ [nl]) (len (unlines ls)) = unlines (ls ++ typed t) ++ x).
  { unfold s. rewrite splice_at, unlines_app, unlines_typed. now rewrite <- !app_assoc. }
  rewrite Sp in Ed.
  set (ed1 := set_pt ed pt).
  assert (T1 : table_for pt (unlines (ls ++ typed t) ++ x)).
  { destruct (table_for_ins (e_pt ed) s (t ++ [nl]) (len (unlines ls)) H) as (pt'&E1&T).
    - cbn. rewrite len_app. change (len [nl]) with 1. pose proof (len_nonneg (unlines ls)). lia.
    - rewrite E, Ei in E1. injection E1 as <-. now rewrite Sp in T. }
  assert (P1 : insertBeforeLine ed n t = Val ed1).
  { unfold insertBeforeLine. rewrite A1. cbn [obind]. unfold insert_at. now rewrite E, Ei. }
  assert (X1 : exists r, processCommand compile capacity errtext fs (o k) ed (concrete (Insert_ n t)) = Val ([], r, []) /\ e_pt r = pt).
  { cbn [concrete]. unfold processCommand. rewrite no_default by reflexivity. cbn [cmd_at c_typ c_start c_end c_text].
    rewrite addr_num_line by (unfold min_int64; lia). cbn [obind]. rewrite P1. cbn [obind].
    eexists. split; reflexivity. }
  destruct X1 as (r&X1&Pr).
  assert (Hr : holds r (unlines (ls ++ typed t) ++ x)) by (unfold holds; now rewrite Pr).
  assert (Fr : Forall ed_line ((ls ++ typed t) ++ [x])) by now rewrite <- app_assoc.
  assert (MM : 0 <= m < max_int64) by (unfold m, lines_count in *; lia).
  assert (X2 : exists r2, processCommand compile capacity errtext fs (o (S k)) r (concrete (Delete_ m m)) = Val ([], r2, []) /\
     pt_string (e_pt r2) = Ok (unlines (ls ++ typed t) ++ x)).
  { cbn [concrete]. rewrite process_delete by lia. unfold Delete, getLineAddr.
    rewrite (getLines_open r (ls ++ typed t) x); auto. cbn [obind]. rewrite !line_addr_spec, (wrap64_id (m + 1)) by
      (unfold min_int64 in *; lia).
    replace (Z.to_nat (m - 1)) with (List.length (ls ++ typed t)) by (rewrite app_length; unfold m, lines_count; lia).
    rewrite (firstn_all2 (n := Z.to_nat (m + 1 - 1))) by (rewrite !app_length; unfold m, lines_count; cbn; lia).
    rewrite firstn_app, Nat.sub_diag, firstn_all. cbn [firstn obind]. rewrite List.app_nil_r.
    eexists. split; [reflexivity|]. cbn [set_current set_pt e_pt]. rewrite Pr.
    rewrite (unlines_app (ls ++ typed t) [x]), (len_app (unlines (ls ++ typed t))).
    replace (len (unlines (ls ++ typed t)) + len (unlines [x]) - len (unlines (ls ++ typed t))) with (len x + 1).
    2:{ rewrite len_unlines_cons. change (len (unlines [])) with 0. lia. }
    replace (len (unlines (ls ++ typed t))) with (len (unlines ls) + len (t ++ [nl])); [exact Ed|].
    rewrite unlines_app, unlines_typed. symmetry. apply len_app. }
  destruct X2 as (r2&X2&Q2).
  exists r2. split; auto. cbn [map command_loop]. rewrite X1. cbn [final last concrete cmd_at c_typ].
  change (cmd_at ctdelete (num_addr m) (num_addr m) [] []) with (concrete (Delete_ m m)). rewrite X2. reflexivity.
Qed.

(* ---- commands within the lines seen ---- *)
Lemma line_insert_asked : forall ls n t, n - 1 <= lines_count (cut_blank ls) ->
  line_insert ls n t = upto ls (n - 1) ++ typed t ++ after ls (n - 1).
Proof.
  intros ls n t N. unfold line_insert. rewrite (cut_hidden ls) at 4 5. unfold upto, after, lines_count in *.
  rewrite firstn_app, skipn_app. replace (Z.to_nat (n - 1) - List.length (cut_blank ls))%nat with O by lia.
  cbn [firstn skipn]. now rewrite List.app_nil_r.
Qed.
Lemma line_delete_asked : forall ls m n, m - 1 <= lines_count (cut_blank ls) -> n <= lines_count (cut_blank ls) ->
  line_delete ls m n = upto ls (m - 1) ++ after ls n.
Proof.
  intros ls m n M N. unfold line_delete. rewrite (cut_hidden ls) at 4 5. unfold upto, after, lines_count in *.
  rewrite firstn_app, skipn_app. replace (Z.to_nat (m - 1) - List.length (cut_blank ls))%nat with O by lia.
  replace (Z.to_nat n - List.length (cut_blank ls))%nat with O by lia.
  cbn [firstn skipn]. now rewrite List.app_nil_r.
Qed.
Lemma line_edit_asked : forall ls c,
  match c with
  | Append n _ => n <= lines_count (cut_blank ls)
  | Insert_ n _ => n - 1 <= lines_count (cut_blank ls)
  | Delete_ m n => 1 <= m <= n /\ n <= lines_count (cut_blank ls)
  | Change m n _ => 1 <= m <= n /\ n <= lines_count (cut_blank ls) /\
                    (n < lines_count ls \/ forall p, upto ls (m - 1) <> p ++ [[]])
  | _ => True
  end -> line_edit ls c = aedit ls c.
Proof.
  intros ls [n t|n t|m n t|m n|m n|m n|n] V; cbn [line_edit aedit]; auto.
  - rewrite line_insert_asked by lia. now replace (n + 1 - 1) with n by lia.
  - now apply line_insert_asked.
  - destruct V as (M&N&D). rewrite line_delete_asked by lia.
    assert (CL : lines_count (cut_blank ls) <= lines_count ls) by (pose proof (cut_blank_length ls); unfold lines_count; lia).
    assert (U : List.length (upto ls (m - 1)) = Z.to_nat (m - 1)) by (unfold upto, lines_count in *; rewrite firstn_length; lia).
    set (d := upto ls (m - 1) ++ after ls n).
    rewrite line_insert_asked.
    + assert (A1 : forall u v : list bytes, firstn (List.length u) (u ++ v) = u).
      { clear. intros u v. rewrite firstn_app, Nat.sub_diag, firstn_all. cbn [firstn]. apply List.app_nil_r. }
      assert (A2 : forall u v : list bytes, skipn (List.length u) (u ++ v) = v).
      { clear. intros u v. rewrite skipn_app, Nat.sub_diag, skipn_all. reflexivity. }
      f_equal; [|f_equal].
      * change (upto d (m - 1)) with (firstn (Z.to_nat (m - 1)) d). rewrite <- U. apply A1.
      * change (after d (m - 1)) with (skipn (Z.to_nat (m - 1)) d). rewrite <- U. apply A2.
    + destruct D as [D|D].
      * assert (Ld : (Z.to_nat (m - 1) < List.length d)%nat) by
          (unfold d, after, lines_count in *; rewrite app_length, skipn_length, U; lia).
        pose proof (f_equal (@List.length bytes) (cut_hidden d)) as Q. rewrite app_length in Q.
        assert (List.length (hidden d) <= 1)%nat by (unfold hidden; destruct (rev d) as [|[|] ]; cbn; lia).
        unfold lines_count. lia.
      * destruct (Z.eq_dec n (lines_count ls)) as [->|Ne].
        -- assert (Ed : d = upto ls (m - 1)).
           { unfold d, after, lines_count. rewrite Nat2Z.id, skipn_all. apply List.app_nil_r. }
           rewrite Ed. destruct (hidden_good (upto ls (m - 1)) D) as [_ ->]. unfold lines_count. rewrite U. lia.
        -- assert (Ld : (Z.to_nat (m - 1) < List.length d)%nat) by
             (unfold d, after, lines_count in *; rewrite app_length, skipn_length, U; lia).
           pose proof (f_equal (@List.length bytes) (cut_hidden d)) as Q. rewrite app_length in Q.
           assert (List.length (hidden d) <= 1)%nat by (unfold hidden; destruct (rev d) as [|[|] ]; cbn; lia).
           unfold lines_count. lia.
  - destruct V as (M&N). apply line_delete_asked; lia.
Qed.
