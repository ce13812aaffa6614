(* Proofs about pkg/ed, editing commands. *)
From Verif Require Import GoBase GoFacts NumFacts PieceTableModel PieceTableSpec PieceTableProofs EdModel EdSpec.
Local Open Scope Z_scope.

(* ---- piece tables ---- *)
Lemma run_edits_app : forall es es2 pt pt', run_edits pt es = (pt', Returned) ->
  run_edits pt (es ++ es2) = run_edits pt' es2.
Proof.
  induction es as [|e es IH]; intros es2 pt pt' H; cbn [app run_edits] in *.
  - now inversion H.
  - destruct e as [t a|n a]; auto. destruct (pt_insert pt t a) as [q []]; auto. discriminate.
Qed.
Lemma apply_edits_app : forall es es2 s, apply_edits s (es ++ es2) = apply_edits (apply_edits s es) es2.
Proof. induction es; cbn; auto. Qed.
Lemma in_range_app : forall es es2 s, edits_in_range s es -> edits_in_range (apply_edits s es) es2 ->
  edits_in_range s (es ++ es2).
Proof. induction es; cbn; intros; auto. destruct H. auto. Qed.

Lemma table_for_ins : forall pt s t a, table_for pt s -> edit_in_range s (Ins t a) ->
  exists pt', pt_insert pt t a = (pt', Returned) /\ table_for pt' (splice s t a).
Proof.
  intros pt s t a H R. destruct (table_for_inv _ _ H) as [I L].
  destruct (inv_insert pt s t a I) as (pt'&E&_); [apply R|]. exists pt'. split; auto.
  destruct H as (content&cc&n&es&H1&H2&H3&H4&H5).
  exists content, cc, n, (es ++ [Ins t a]). split; auto. split; auto.
  split; [apply in_range_app; auto; rewrite <- H5; cbn; auto|].
  split; [rewrite (run_edits_app _ _ _ _ H4); cbn; now rewrite E|].
  rewrite apply_edits_app, <- H5. reflexivity.
Qed.
Lemma table_for_del : forall pt s n a, table_for pt s -> edit_in_range s (Del n a) ->
  table_for (pt_delete pt n a) (cut_out s n a).
Proof.
  intros pt s k a H R.
  destruct H as (content&cc&n&es&H1&H2&H3&H4&H5).
  exists content, cc, n, (es ++ [Del k a]). split; auto. split; auto.
  split; [apply in_range_app; auto; rewrite <- H5; cbn; auto|].
  split; [rewrite (run_edits_app _ _ _ _ H4); cbn; auto|].
  rewrite apply_edits_app, <- H5. reflexivity.
Qed.
Lemma holds_string : forall ed s, holds ed s -> pt_string (e_pt ed) = Ok s.
Proof. intros ed s H. apply table_for_inv in H as [H _]. now apply inv_string. Qed.
Lemma holds_len : forall ed s, holds ed s -> len s <= max_int64.
Proof. intros ed s H. now apply table_for_inv in H as [_ H]. Qed.

(* ---- lines ---- *)
Lemma unlines_app : forall a b, unlines (a ++ b) = unlines a ++ unlines b.
Proof. intros. unfold unlines. apply flat_map_app. Qed.
Lemma unlines_typed : forall t, unlines (typed t) = t ++ [nl].
Proof.
  intros t. unfold typed. induction t as [|c t IH]; cbn [split_on]; auto.
  destruct (Ascii.eqb c nl) eqn:E.
  - apply Ascii.eqb_eq in E. subst. cbn [unlines flat_map app] in *. unfold unlines in IH. now rewrite IH.
  - pose proof (split_on_nonempty nl t). destruct (split_on nl t) as [|h r]; [congruence|].
    cbn [unlines flat_map app] in *. now rewrite IH.
Qed.
Lemma lines_le_len : forall ls, lines_count ls <= len (unlines ls).
Proof.
  unfold lines_count. induction ls as [|l ls IH]; [cbn; unfold len; cbn; lia|].
  change (unlines (l :: ls)) with ((l ++ [nl]) ++ unlines ls). rewrite !len_app.
  cbn [List.length]. pose proof (len_nonneg l). change (len [nl]) with 1. lia.
Qed.
Lemma sum_unlines : forall ls, sum_lines ls = len (unlines ls).
Proof.
  induction ls as [|l ls IH]; auto. cbn [sum_lines fold_right]. fold (sum_lines ls). rewrite IH.
  change (unlines (l :: ls)) with ((l ++ [nl]) ++ unlines ls). rewrite !len_app. change (len [nl]) with 1.
  unfold len. lia.
Qed.

Lemma drop_cr_ed_line : forall l, (forall p, l <> p ++ [cr]) -> drop_cr l = l.
Proof.
  intros l H. unfold drop_cr. destruct (rev l) as [|c r] eqn:E; auto.
  assert (L : l = rev r ++ [c]) by (rewrite <- (rev_involutive l), E; reflexivity).
  destruct (Ascii.eqb c cr) eqn:Ec; auto. apply Ascii.eqb_eq in Ec. subst c. now apply H in L.
Qed.
Lemma scan_segs_cr : forall ls, Forall (fun l => len l < 65536) ls -> scan_segs ls = (map drop_cr ls, false).
Proof.
  induction 1 as [|l ls L F IH]; auto. cbn [scan_segs map].
  destruct (max_token <=? N.of_nat (List.length l))%N eqn:E; [unfold max_token, len in *; lia|]. now rewrite IH.
Qed.
Lemma map_drop_ed : forall ls, Forall ed_line ls -> map drop_cr ls = ls.
Proof. induction 1 as [|l ls (A&C&D) F IH]; auto. cbn. now rewrite IH, drop_cr_ed_line. Qed.
Lemma short_ed : forall ls, Forall ed_line ls -> Forall (fun l => len l < 65536) ls.
Proof. intros. eapply Forall_impl; [|eauto]. intros l (A&C&D). auto. Qed.
Lemma scan_ed_lines : forall ls, Forall ed_line ls -> scan_lines (unlines ls) = (ls, false).
Proof.
  intros ls F. unfold scan_lines. rewrite raw_lines_unlines.
  - rewrite scan_segs_cr, map_drop_ed; auto. now apply short_ed.
  - intros x Hx. rewrite Forall_forall in F. now apply F in Hx as (?&?&?).
Qed.
Lemma text_lines_good : forall ls, good ls -> text_lines (unlines ls) = Val (ls, List.length ls).
Proof.
  intros ls [F G]. unfold text_lines. rewrite scan_ed_lines; auto.
  destruct (rev ls) as [|[|c l] r] eqn:E; auto.
  exfalso. apply (G (rev r)). rewrite <- (rev_involutive ls), E. reflexivity.
Qed.
Lemma getLines_good : forall ed ls, buffer ed ls -> good ls -> getLines ed = Val (ls, List.length ls).
Proof.
  intros ed ls H G. unfold getLines. rewrite (holds_string _ _ H). cbn. now apply text_lines_good.
Qed.

Lemma line_addr_spec : forall ls n, line_addr ls n = len (unlines (firstn (Z.to_nat (n - 1)) ls)).
Proof.
  intros ls n. unfold line_addr. destruct (Z.of_nat (List.length ls) <? n) eqn:E.
  - rewrite firstn_all2 by lia. apply sum_unlines.
  - apply sum_unlines.
Qed.
Lemma addr_good : forall ed ls n, buffer ed ls -> good ls ->
  getLineAddr ed n = Val (len (unlines (upto ls (n - 1)))).
Proof. intros. unfold getLineAddr. rewrite (getLines_good _ ls); auto. cbn. now rewrite line_addr_spec. Qed.

Lemma splice_at : forall a b t, splice (a ++ b) t (len a) = a ++ t ++ b.
Proof.
  intros. unfold splice, len. rewrite Nat2Z.id, firstn_app, skipn_app, Nat.sub_diag, firstn_all, skipn_all.
  cbn. now rewrite List.app_nil_r.
Qed.
Lemma cut_at : forall a b c, cut_out (a ++ b ++ c) (len b) (len a) = a ++ c.
Proof.
  intros. unfold cut_out, len. rewrite <- Nat2Z.inj_add, !Nat2Z.id.
  rewrite firstn_app, Nat.sub_diag, firstn_all. cbn [firstn]. rewrite List.app_nil_r.
  f_equal. rewrite skipn_app. replace (List.length a + List.length b - List.length a)%nat with (List.length b) by lia.
  rewrite (skipn_all2 a) by lia. cbn. rewrite skipn_app, Nat.sub_diag, skipn_all. reflexivity.
Qed.
Lemma upto_after : forall ls n, upto ls n ++ after ls n = ls.
Proof. intros. apply firstn_skipn. Qed.

(* insertion before line n of the buffer *)
Lemma insert_good : forall ed ls n t, buffer ed ls -> good ls ->
  len (unlines ls) + len t + 1 <= max_int64 ->
  exists pt, insertBeforeLine ed n t = Val (set_pt ed pt) /\
    table_for pt (unlines (upto ls (n - 1) ++ typed t ++ after ls (n - 1))).
Proof.
  intros ed ls n t H G F. unfold insertBeforeLine. rewrite (addr_good _ ls); auto. cbn [obind].
  unfold insert_at. pose proof (upto_after ls (n - 1)) as U.
  assert (L : len (unlines ls) = len (unlines (upto ls (n - 1))) + len (unlines (after ls (n - 1))))
    by (rewrite <- len_app, <- unlines_app, U; auto).
  destruct (table_for_ins (e_pt ed) (unlines ls) (t ++ [nl]) (len (unlines (upto ls (n - 1))))) as (pt&E&T); auto.
  { split.
    - pose proof (len_nonneg (unlines (upto ls (n - 1)))).
      pose proof (len_nonneg (unlines (after ls (n - 1)))). lia.
    - rewrite len_app. change (len [nl]) with 1. lia. }
  rewrite E. exists pt. split; auto.
  rewrite !unlines_app, unlines_typed. rewrite <- U in T at 1. rewrite unlines_app, splice_at in T. exact T.
Qed.

Lemma after_upto : forall ls m n, 0 <= m <= n -> after ls m = skipn (Z.to_nat m) (upto ls n) ++ after ls n.
Proof.
  intros ls m n H. unfold after. rewrite <- (upto_after ls n) at 1. rewrite skipn_app. f_equal.
  unfold upto, after. rewrite firstn_length.
  destruct (Nat.le_gt_cases (Z.to_nat n) (List.length ls)).
  - replace (Z.to_nat m - Nat.min (Z.to_nat n) (List.length ls))%nat with O by lia. reflexivity.
  - rewrite (skipn_all2 ls) by lia. now rewrite skipn_nil.
Qed.
Lemma upto_upto : forall ls m n, 0 <= m <= n -> upto (upto ls n) m = upto ls m.
Proof. intros. unfold upto. rewrite firstn_firstn. f_equal. lia. Qed.

Lemma good_lines_lt : forall ls, good ls -> len (unlines ls) <= max_int64 -> lines_count ls < max_int64.
Proof.
  intros ls [_ G] L. destruct ls as [|l ls]; [unfold lines_count, max_int64; cbn; lia|].
  destruct (@exists_last _ (l :: ls)) as (p&x&E); [discriminate|]. rewrite E in *.
  assert (x <> []) by (intros ->; now apply (G p)).
  pose proof (lines_le_len p) as LL. rewrite unlines_app, len_app in L. unfold lines_count in *.
  rewrite app_length. cbn [unlines flat_map List.length] in *. rewrite List.app_nil_r, len_app in L.
  change (len [nl]) with 1 in L. destruct x; [congruence|]. rewrite len_cons in L. pose proof (len_nonneg x).
  lia.
Qed.

(* deletion of lines m to n *)
Lemma delete_good : forall ed ls m n, buffer ed ls -> good ls -> 1 <= m <= n + 1 -> n <= lines_count ls ->
  exists pt, Delete ed m n = Val (set_pt ed pt) /\
    table_for pt (unlines (upto ls (m - 1) ++ after ls n)).
Proof.
  intros ed ls m n H G M N. pose proof (holds_len _ _ H) as L.
  pose proof (good_lines_lt ls G L) as LL.
  unfold Delete. rewrite (addr_good _ ls); auto. cbn [obind].
  rewrite (wrap64_id (n + 1)) by (unfold min_int64; lia).
  rewrite (addr_good _ ls); auto. cbn [obind]. replace (n + 1 - 1) with n by lia.
  eexists. split; [reflexivity|].
  pose proof (upto_after ls (m - 1)) as U. rewrite (after_upto ls (m - 1) n) in U by lia.
  set (mid := skipn (Z.to_nat (m - 1)) (upto ls n)) in *.
  assert (Un : unlines (upto ls n) = unlines (upto ls (m - 1)) ++ unlines mid).
  { rewrite <- unlines_app. unfold mid. rewrite <- (upto_upto ls (m - 1) n) by lia.
    unfold upto at 2. now rewrite firstn_skipn. }
  rewrite Un, len_app. replace (len (unlines (upto ls (m - 1))) + len (unlines mid) - len (unlines (upto ls (m - 1))))
    with (len (unlines mid)) by lia.
  unfold buffer, holds in H. rewrite <- U, !unlines_app in H.
  eapply table_for_del in H.
  - rewrite cut_at in H. rewrite unlines_app. exact H.
  - cbn. rewrite !len_app. pose proof (len_nonneg (unlines (upto ls (m - 1)))).
    pose proof (len_nonneg (unlines mid)). pose proof (len_nonneg (unlines (after ls n))). lia.
Qed.

(* ---- addresses ---- *)
Lemma uint_value_dec : forall b acc n, dec_val acc b = Some n -> (n < 2 ^ 64)%N -> uint_value acc b = Some n.
Proof.
  induction b as [|c r IH]; intros acc n H L; cbn [dec_val uint_value] in *; auto.
  destruct (digit_of c) as [d|]; [|discriminate].
  assert (M : (10 * acc + d <= n)%N).
  { clear -H. revert H. generalize (10 * acc + d)%N as a. induction r as [|c r IH]; intros a H; cbn in H.
    - injection H as <-. lia.
    - destruct (digit_of c); [|discriminate]. apply IH in H. lia. }
  destruct (2 ^ 64 <=? 10 * acc + d)%N eqn:E; [lia|]. now apply IH.
Qed.
Lemma atoi_value_atoi : forall t n, atoi t = Some n -> atoi_value t = n.
Proof.
  intros t n H. unfold atoi in H. destruct (parse_dec t) as [z|] eqn:P; [|discriminate].
  unfold in_int64 in H. destruct (_ && _) eqn:R; [|discriminate]. injection H as ->.
  unfold min_int64, max_int64 in *.
  unfold parse_dec in P. unfold atoi_value. destruct t as [|c r]; [discriminate|].
  destruct (Ascii.eqb c "-") eqn:Em.
  - destruct r as [|d r]; [discriminate|]. destruct (dec_val 0 (d :: r)) as [v|] eqn:D; [|discriminate].
    cbn [option_map] in P. injection P as <-. rewrite (uint_value_dec _ _ v D) by lia. unfold min_int64. lia.
  - destruct (Ascii.eqb c "+") eqn:Ep.
    + destruct r as [|d r]; [discriminate|]. destruct (dec_val 0 (d :: r)) as [v|] eqn:D; [|discriminate].
      cbn [option_map] in P. injection P as <-. rewrite (uint_value_dec _ _ v D) by lia. unfold max_int64. lia.
    + destruct (dec_val 0 (c :: r)) as [v|] eqn:D; [|discriminate].
      cbn [option_map] in P. injection P as <-. rewrite (uint_value_dec _ _ v D) by lia. unfold max_int64. lia.
Qed.
Lemma atoi_itoa_small : forall n, min_int64 <= n <= max_int64 -> atoi (itoa n) = Some n.
Proof. intros. apply atoi_spec. split; auto. apply numeral_itoa. Qed.

(* ---- newlines in a text ---- *)
Fixpoint newlines (b : bytes) : nat :=
  match b with [] => O | c :: r => ((if Ascii.eqb c nl then 1 else 0) + newlines r)%nat end.
Lemma newlines_app : forall a b, newlines (a ++ b) = (newlines a + newlines b)%nat.
Proof. induction a; intros; cbn; auto. rewrite IHa. lia. Qed.
Lemma typed_count : forall t, List.length (typed t) = S (newlines t).
Proof.
  unfold typed. induction t as [|c t IH]; cbn [split_on newlines]; auto.
  destruct (Ascii.eqb c nl); cbn [List.length]; [now rewrite IH|].
  destruct (split_on nl t); cbn in *; lia.
Qed.
Lemma high_not_nl : forall c lo hi, in_range lo hi c = true -> (128 <= lo)%N -> Ascii.eqb c nl = false.
Proof.
  intros c lo hi H L. destruct (Ascii.eqb_spec c nl); auto. subst. unfold in_range in H.
  change (byte_val nl) with 10%N in H. lia.
Qed.
Lemma decode_newline : forall c r, exists v w, decode_rune (c :: r) = (v, w) /\ (1 <= w <= S (List.length r))%nat /\
  newlines (firstn w (c :: r)) = if (10 =? v)%N then 1%nat else 0%nat.
Proof.
  intros c r. unfold decode_rune. destruct (byte_val c <? 128)%N eqn:E1.
  { exists (byte_val c), 1%nat. split; auto. split; [cbn; lia|]. cbn [firstn newlines].
    destruct (Ascii.eqb_spec c nl); [subst; reflexivity|].
    destruct (N.eqb_spec 10 (byte_val c)) as [Q|]; auto. elim n. unfold byte_val in Q.
    rewrite <- (ascii_N_embedding c), <- Q. reflexivity. }
  assert (Nc : Ascii.eqb c nl = false).
  { destruct (Ascii.eqb_spec c nl); auto. subst. discriminate. }
  assert (One : forall v, (10 =? v)%N = false ->
    exists v' w, (v, 1%nat) = (v', w) /\ (1 <= w <= S (List.length r))%nat /\
    newlines (firstn w (c :: r)) = if (10 =? v')%N then 1%nat else 0%nat).
  { intros v Hv. exists v, 1%nat. split; auto. split; [lia|]. cbn [firstn newlines]. now rewrite Nc, Hv. }
  assert (Err : (10 =? rune_error)%N = false) by reflexivity.
  destruct (in_range 194 223 c) eqn:E2.
  { destruct r as [|c1 r]; [now apply One|]. destruct (in_range 128 191 c1) eqn:I1; [|now apply One].
    eexists _, 2%nat. split; [reflexivity|]. split; [cbn; lia|]. cbn [firstn newlines].
    rewrite Nc, (high_not_nl _ _ _ I1) by lia. unfold in_range, cont in *.
    destruct (N.eqb_spec 10 ((byte_val c - 192) * 64 + (byte_val c1 - 128))); auto. lia. }
  destruct (in_range 224 239 c) eqn:E3.
  { destruct r as [|c1 [|c2 r]]; try now apply One. cbv zeta.
    destruct (in_range (if (byte_val c =? 224)%N then 160 else 128) _ c1) eqn:I1; [|now apply One].
    destruct (in_range 128 191 c2) eqn:I2; [|now apply One]. cbn [andb].
    eexists _, 3%nat. split; [reflexivity|]. split; [cbn; lia|]. cbn [firstn newlines].
    assert (L1 : (128 <= if (byte_val c =? 224)%N then 160 else 128)%N) by (destruct (byte_val c =? 224)%N; lia).
    rewrite Nc, (high_not_nl _ _ _ I1), (high_not_nl _ _ _ I2) by (auto; lia). unfold in_range, cont in *.
    destruct (N.eqb_spec 10 ((byte_val c - 224) * 4096 + (byte_val c1 - 128) * 64 + (byte_val c2 - 128))); auto.
    destruct (N.eqb_spec (byte_val c) 224); lia. }
  destruct (in_range 240 244 c) eqn:E4; [|now apply One].
  destruct r as [|c1 [|c2 [|c3 r]]]; try now apply One. cbv zeta.
  destruct (in_range (if (byte_val c =? 240)%N then 144 else 128) _ c1) eqn:I1; [|now apply One].
  destruct (in_range 128 191 c2) eqn:I2; [|now apply One].
  destruct (in_range 128 191 c3) eqn:I3; [|now apply One]. cbn [andb].
  eexists _, 4%nat. split; [reflexivity|]. split; [cbn; lia|]. cbn [firstn newlines].
  assert (L1 : (128 <= if (byte_val c =? 240)%N then 144 else 128)%N) by (destruct (byte_val c =? 240)%N; lia).
  rewrite Nc, (high_not_nl _ _ _ I1), (high_not_nl _ _ _ I2), (high_not_nl _ _ _ I3) by (auto; lia).
  unfold in_range, cont in *.
  destruct (N.eqb_spec 10 ((byte_val c - 240) * 262144 + (byte_val c1 - 128) * 4096 + (byte_val c2 - 128) * 64 + (byte_val c3 - 128))); auto.
  destruct (N.eqb_spec (byte_val c) 240); lia.
Qed.
Lemma range_newlines : forall fuel i b, (List.length b <= fuel)%nat ->
  List.length (filter (N.eqb 10) (map snd (range_runes_from fuel i b))) = newlines b.
Proof.
  induction fuel as [|f IH]; intros i b L.
  - destruct b; [reflexivity|cbn in L; lia].
  - destruct b as [|c r]; [reflexivity|]. cbn [range_runes_from].
    destruct (decode_newline c r) as (v&w&E&W&N). rewrite E. cbn [map snd filter].
    assert (Q : newlines (c :: r) = newlines (firstn w (c :: r) ++ skipn w (c :: r))) by now rewrite firstn_skipn.
    rewrite Q, newlines_app, N.
    rewrite <- (IH (i + w)%nat (skipn w (c :: r))).
    + destruct (10 =? v)%N; reflexivity.
    + rewrite skipn_length. cbn [List.length] in *. lia.
Qed.
Lemma linesIn_typed : forall t, linesIn t = lines_count (typed t).
Proof.
  intros. unfold linesIn, lines_count. rewrite typed_count. unfold runes_of, range_runes.
  rewrite range_newlines by lia. lia.
Qed.

Lemma lines_range : forall ed ls, buffer ed ls -> good ls -> 0 <= lines_count ls < max_int64.
Proof.
  intros ed ls H G. pose proof (good_lines_lt ls G (holds_len _ _ H)). unfold lines_count in *. lia.
Qed.

Section R.
Variable compile : bytes -> option (bytes -> bool).
Variable capacity : nat -> nat.
Variable errtext : bytes.
Hypothesis capacity_ok : forall n, (n <= capacity n)%nat.
Notation addrLine' := (addrLine compile).
Notation process := (processCommand compile capacity errtext).

Lemma addr_denotes : forall ed ls a n, buffer ed ls -> good ls -> denotes ed ls a n ->
  min_int64 <= n <= max_int64 -> addrLine' ed a = Val n.
Proof.
  clear capacity_ok capacity errtext.
  intros ed ls a n H G D R. unfold addrLine. destruct D; cbn [a_typ a_text a_offset obind].
  - rewrite (atoi_value_atoi _ n H0). now rewrite wrap64_id.
  - now rewrite wrap64_id.
  - rewrite (getLines_good _ ls); auto. cbn [obind]. fold (lines_count ls). now rewrite wrap64_id.
Qed.
Lemma denotes_start : forall ed ls a n, denotes ed ls a n -> is_null a = false.
Proof.
  clear capacity_ok compile capacity errtext. intros ed ls a n []; reflexivity. Qed.
Lemma no_default : forall cmd, is_null (c_start cmd) = false -> setDefaultAddresses cmd = cmd.
Proof.
  clear capacity_ok compile capacity errtext. intros cmd H. unfold setDefaultAddresses. now rewrite H. Qed.

(* an address not relative to the end denotes the same line whatever the buffer *)
Lemma denotes_move : forall ed ls a n pt ls', denotes ed ls a n -> not_last a ->
  denotes (set_pt ed pt) ls' a n.
Proof.
  clear capacity_ok compile capacity errtext.
  intros ed ls a n pt ls' D L. destruct D.
  - now constructor.
  - change (e_current ed) with (e_current (set_pt ed pt)). constructor.
  - now elim L.
Qed.
Lemma addr_move : forall ed a n pt, addrLine' ed a = Val n -> a_typ a = lNum \/ a_typ a = lCurrent ->
  addrLine' (set_pt ed pt) a = Val n.
Proof.
  clear capacity_ok capacity errtext. intros ed a n pt H [T|T]; unfold addrLine in *; rewrite T in *; exact H. Qed.
Lemma denotes_not_last : forall ed ls a n, denotes ed ls a n -> not_last a -> a_typ a = lNum \/ a_typ a = lCurrent.
Proof.
  clear capacity_ok compile capacity errtext. intros ed ls a n [] L; cbn; auto. now elim L. Qed.

Lemma append_ok : forall fs o ed ls a b n t ps, buffer ed ls -> good ls -> denotes ed ls a n ->
  0 <= n <= lines_count ls -> len (unlines ls) + len t + 1 <= max_int64 ->
  exists ed', process fs o ed (cmd_at ctappend a b t ps) = Val ([], ed', []) /\
    buffer ed' (upto ls n ++ typed t ++ after ls n) /\
    e_current ed' = wrap64 (n + 1 + linesIn t) /\ e_filename ed' = e_filename ed.
Proof.
  clear capacity_ok.
  intros fs o ed ls a b n t ps H G D N F. pose proof (lines_range _ _ H G).
  unfold processCommand. rewrite no_default by (cbn; eapply denotes_start; eauto).
  cbn [cmd_at c_typ c_start c_text]. rewrite (addr_denotes ed ls a n) by (auto; unfold min_int64; lia).
  cbn [obind]. rewrite (wrap64_id (n + 1)) by (unfold min_int64; lia).
  destruct (insert_good ed ls (n + 1) t H G F) as (pt&E&T). rewrite E. cbn [obind].
  replace (n + 1 - 1) with n in T by lia. eexists. split; [reflexivity|]. auto.
Qed.
Lemma insert_ok : forall fs o ed ls a b n t ps, buffer ed ls -> good ls -> denotes ed ls a n ->
  0 <= n <= lines_count ls -> len (unlines ls) + len t + 1 <= max_int64 ->
  exists ed', process fs o ed (cmd_at ctinsert a b t ps) = Val ([], ed', []) /\
    buffer ed' (upto ls (n - 1) ++ typed t ++ after ls (n - 1)) /\
    e_current ed' = e_current ed /\ e_filename ed' = e_filename ed.
Proof.
  clear capacity_ok.
  intros fs o ed ls a b n t ps H G D N F. pose proof (lines_range _ _ H G).
  unfold processCommand. rewrite no_default by (cbn; eapply denotes_start; eauto).
  cbn [cmd_at c_typ c_start c_text]. rewrite (addr_denotes ed ls a n) by (auto; unfold min_int64; lia).
  cbn [obind].
  destruct (insert_good ed ls n t H G F) as (pt&E&T). rewrite E. cbn [obind].
  eexists. split; [reflexivity|]. auto.
Qed.
Lemma delete_cmd_ok : forall fs o ed ls a b m n t ps, buffer ed ls -> good ls ->
  denotes ed ls a m -> denotes ed ls b n -> 1 <= m <= n -> n <= lines_count ls ->
  not_last a ->
  exists ed', process fs o ed (cmd_at ctdelete a b t ps) = Val ([], ed', []) /\
    buffer ed' (upto ls (m - 1) ++ after ls n) /\
    e_current ed' = m /\ e_filename ed' = e_filename ed.
Proof.
  clear capacity_ok.
  intros fs o ed ls a b m n t ps H G Da Db M N L. pose proof (lines_range _ _ H G).
  unfold processCommand. rewrite no_default by (cbn; eapply denotes_start; eauto).
  cbn [cmd_at c_typ c_start c_end c_text]. pose proof (addr_denotes ed ls a m H G Da) as Ea.
  rewrite Ea by (unfold min_int64; lia).
  rewrite (addr_denotes ed ls b n) by (auto; unfold min_int64; lia). cbn [obind].
  destruct (delete_good ed ls m n H G) as (pt&E&T); auto; try lia. rewrite E. cbn [obind].
  rewrite (addr_move ed a m) by
    (eauto using denotes_not_last; apply Ea; unfold min_int64; lia).
  cbn [obind]. eexists. split; [reflexivity|]. auto.
Qed.
Lemma change_ok : forall fs o ed ls a b m n t ps, buffer ed ls -> good ls ->
  denotes ed ls a m -> denotes ed ls b n -> 1 <= m <= n -> n <= lines_count ls ->
  not_last a -> good (upto ls (m - 1) ++ after ls n) ->
  len (unlines ls) + len t + 1 <= max_int64 ->
  exists ed', process fs o ed (cmd_at ctchange a b t ps) = Val ([], ed', []) /\
    buffer ed' (upto ls (m - 1) ++ typed t ++ after ls n) /\
    e_current ed' = wrap64 (m + linesIn t) /\ e_filename ed' = e_filename ed.
Proof.
  clear capacity_ok.
  intros fs o ed ls a b m n t ps H G Da Db M N L G1 F. pose proof (lines_range _ _ H G).
  unfold processCommand. rewrite no_default by (cbn; eapply denotes_start; eauto).
  cbn [cmd_at c_typ c_start c_end c_text]. pose proof (addr_denotes ed ls a m H G Da) as Ea.
  rewrite Ea by (unfold min_int64; lia). specialize (Ea ltac:(unfold min_int64; lia)).
  rewrite (addr_denotes ed ls b n) by (auto; unfold min_int64; lia). cbn [obind].
  destruct (delete_good ed ls m n H G) as (pt&E&T); auto; try lia. rewrite E. cbn [obind].
  rewrite (addr_move ed a m) by eauto using denotes_not_last. cbn [obind].
  set (ls1 := upto ls (m - 1) ++ after ls n) in *.
  assert (Hu : upto ls1 (m - 1) = upto ls (m - 1)).
  { unfold ls1, upto. rewrite firstn_app. rewrite firstn_firstn, firstn_length. unfold lines_count in N.
    replace (Z.to_nat (m - 1) - Nat.min (Z.to_nat (m - 1)) (List.length ls))%nat with O by lia.
    cbn. rewrite List.app_nil_r. f_equal. lia. }
  assert (Ha : after ls1 (m - 1) = after ls n).
  { unfold ls1, upto, after at 1. rewrite skipn_app, firstn_length. unfold lines_count in N.
    replace (Z.to_nat (m - 1) - Nat.min (Z.to_nat (m - 1)) (List.length ls))%nat with O by lia.
    rewrite skipn_all2 by (rewrite firstn_length; lia). reflexivity. }
  destruct (insert_good (set_pt ed pt) ls1 m t) as (pt2&E2&T2); auto.
  { assert (len (unlines ls1) <= len (unlines ls)); [|lia].
    rewrite <- (upto_after ls (m - 1)), (after_upto ls (m - 1) n) by lia. unfold ls1.
    rewrite !unlines_app, !len_app. pose proof (len_nonneg (unlines (skipn (Z.to_nat (m - 1)) (upto ls n)))). lia. }
  rewrite E2. cbn [obind]. change (set_pt (set_pt ed pt) pt2) with (set_pt ed pt2).
  rewrite (addr_move ed a m) by eauto using denotes_not_last. cbn [obind].
  eexists. split; [reflexivity|]. rewrite Hu, Ha in T2. auto.
Qed.
(* ---- printing ---- *)
Lemma print_good : forall ed ls m n, buffer ed ls -> good ls -> 1 <= m <= n -> n <= lines_count ls ->
  Print capacity ed m n = Val (join [nl] (between ls m n)).
Proof.
  clear compile errtext.
  intros ed ls m n H G M N. pose proof (lines_range _ _ H G) as R. unfold Print.
  rewrite (getLines_good _ ls); auto. cbn [obind]. pose proof (capacity_ok (List.length ls)).
  rewrite wrap64_id by (unfold min_int64; lia). unfold lines_count in *.
  destruct ((0 <=? m - 1) && (m - 1 <=? n) && (n <=? Z.of_nat (capacity (List.length ls)))) eqn:E; [|lia].
  f_equal. f_equal. unfold between. replace (n - (m - 1)) with (n - m + 1) by lia.
  rewrite skipn_app, firstn_app. rewrite skipn_length.
  replace (Z.to_nat (n - m + 1) - (List.length ls - Z.to_nat (m - 1)))%nat with O by lia.
  cbn [firstn]. now rewrite List.app_nil_r.
Qed.
Lemma number_lines_ok : forall ls k m, 1 <= m -> m + Z.of_nat k <= lines_count ls + 1 ->
  number_lines ls m k = Val (numbered m (firstn k (skipn (Z.to_nat (m - 1)) ls))).
Proof.
  clear capacity_ok compile capacity errtext.
  induction k as [|k IH]; intros m M L; cbn [number_lines]; auto. unfold lines_count in *.
  destruct ((1 <=? m) && (m <=? Z.of_nat (List.length ls))) eqn:E; [|lia].
  rewrite IH by lia. cbn [obind]. f_equal.
  destruct (skipn (Z.to_nat (m - 1)) ls) as [|l r] eqn:S.
  { assert (List.length (skipn (Z.to_nat (m - 1)) ls) = O) by now rewrite S. rewrite skipn_length in *. lia. }
  cbn [firstn numbered]. 
  assert (Hd : nth (Z.to_nat (m - 1)) ls [] = l).
  { rewrite <- (firstn_skipn (Z.to_nat (m - 1)) ls), app_nth2, S; rewrite firstn_length; [|lia].
    replace (Z.to_nat (m - 1) - _)%nat with O by lia. reflexivity. }
  assert (Tl : skipn (Z.to_nat (m + 1 - 1)) ls = r).
  { replace (Z.to_nat (m + 1 - 1)) with (Z.to_nat (m - 1) + 1)%nat by lia. rewrite skipn_add, S. reflexivity. }
  now rewrite Hd, Tl.
Qed.
Lemma number_good : forall ed ls m n, buffer ed ls -> good ls -> 1 <= m <= n -> n <= lines_count ls ->
  number ed m n = Val (numbered m (between ls m n)).
Proof.
  clear capacity_ok compile capacity errtext.
  intros ed ls m n H G M N. unfold number. rewrite (getLines_good _ ls); auto. cbn [obind].
  rewrite number_lines_ok by lia. unfold between. do 3 f_equal. lia.
Qed.

Lemma printing_ok : forall fs o ed ls a b m n t ps, buffer ed ls -> good ls ->
  denotes ed ls a m -> denotes ed ls b n -> 1 <= m <= n -> n <= lines_count ls ->
  process fs o ed (cmd_at ctprint a b t ps) = Val ([], ed, join [nl] (between ls m n)) /\
  process fs o ed (cmd_at ctnumber a b t ps) = Val ([], ed, numbered m (between ls m n)).
Proof.
  intros fs o ed ls a b m n t ps H G Da Db M N. pose proof (lines_range _ _ H G).
  unfold processCommand. rewrite !no_default by (cbn; eapply denotes_start; eauto).
  cbn [cmd_at c_typ c_start c_end].
  rewrite (addr_denotes ed ls a m) by (auto; unfold min_int64; lia).
  rewrite (addr_denotes ed ls b n) by (auto; unfold min_int64; lia). cbn [obind].
  rewrite (print_good ed ls), (number_good ed ls); auto.
Qed.
Lemma line_number_ok : forall fs o ed ls a b n t ps, buffer ed ls -> good ls ->
  denotes ed ls a n -> min_int64 <= n <= max_int64 ->
  process fs o ed (cmd_at ctlineNumber a b t ps) = Val ([], ed, itoa n).
Proof.
  clear capacity_ok.
  intros fs o ed ls a b n t ps H G Da M.
  unfold processCommand. rewrite !no_default by (cbn; eapply denotes_start; eauto).
  cbn [cmd_at c_typ c_start c_end].
  rewrite (addr_denotes ed ls a n) by auto. reflexivity.
Qed.

(* p, n and = never change the editor or the files, whatever the addresses *)
Lemma printing_pure : forall fs o ed c states ed' r,
  c_typ c = ctprint \/ c_typ c = ctnumber \/ c_typ c = ctlineNumber ->
  process fs o ed c = Val (states, ed', r) -> states = [] /\ ed' = ed.
Proof.
  clear capacity_ok.
  intros fs o ed c states ed' r T H. unfold processCommand in H.
  assert (T' : c_typ (setDefaultAddresses c) = c_typ c)
    by (unfold setDefaultAddresses; destruct (is_null (c_start c)); reflexivity).
  rewrite T' in H. clear T'.
  destruct T as [T|[T|T]]; rewrite T in H.
  - destruct (addrLine' ed (c_start _)); try discriminate. cbn [obind] in H.
    destruct (addrLine' ed (c_end _)); try discriminate. cbn [obind] in H.
    destruct (Print capacity ed a a0); try discriminate. cbn [obind] in H. inversion H. auto.
  - destruct (addrLine' ed (c_start _)); try discriminate. cbn [obind] in H.
    destruct (addrLine' ed (c_end _)); try discriminate. cbn [obind] in H.
    destruct (number ed a a0); try discriminate. cbn [obind] in H. inversion H. auto.
  - destruct (addrLine' ed (c_start _)); try discriminate. cbn [obind] in H. inversion H. auto.
Qed.

(* ---- histories ---- *)
Lemma denotes_num : forall ed ls n, min_int64 <= n <= max_int64 -> denotes ed ls (num_addr n) n.
Proof.
  clear capacity_ok compile capacity errtext.
  intros. replace n with (n + 0) at 2 by lia. apply den_num. now apply atoi_itoa_small.
Qed.
Lemma num_not_last : forall n, not_last (num_addr n). Proof.
  clear capacity_ok compile capacity errtext. intros n. discriminate. Qed.
Lemma typed_len : forall a b t, len (unlines (a ++ typed t ++ b)) = len (unlines (a ++ b)) + len t + 1.
Proof.
  clear capacity_ok compile capacity errtext.
  intros. rewrite !unlines_app, unlines_typed, !len_app. change (len [nl]) with 1. lia.
Qed.
Lemma step_ok : forall fs o ed ls c, buffer ed ls -> ordinary ls c -> valid ls c ->
  len (unlines ls) + len (text_of c) + 1 <= max_int64 ->
  exists ed', process fs o ed (concrete c) = Val ([], ed', areply ls c) /\ buffer ed' (aedit ls c).
Proof.
  intros fs o ed ls c H [G Gc] V F. pose proof (lines_range _ _ H G).
  destruct c as [n t|n t|m n t|m n|m n|m n|n]; cbn [valid concrete aedit areply text_of] in *.
  - destruct (append_ok fs o ed ls (num_addr n) zero_address n t []) as (ed'&E&B&_); auto.
    + apply denotes_num. unfold min_int64; lia.
    + eauto.
  - destruct (insert_ok fs o ed ls (num_addr n) zero_address n t []) as (ed'&E&B&_); auto.
    + apply denotes_num. unfold min_int64; lia.
    + eauto.
  - destruct (change_ok fs o ed ls (num_addr m) (num_addr n) m n t []) as (ed'&E&B&_); auto;
      try (apply denotes_num; unfold min_int64; lia); try lia; try apply num_not_last. eauto.
  - destruct (delete_cmd_ok fs o ed ls (num_addr m) (num_addr n) m n [] []) as (ed'&E&B&_); auto;
      try (apply denotes_num; unfold min_int64; lia); try lia; try apply num_not_last. eauto.
  - exists ed. split; auto. apply (printing_ok fs o ed ls); auto;
      try (apply denotes_num; unfold min_int64; lia); lia.
  - exists ed. split; auto. apply (printing_ok fs o ed ls); auto;
      try (apply denotes_num; unfold min_int64; lia); lia.
  - exists ed. split; auto. apply (line_number_ok fs o ed ls); auto;
      try (apply denotes_num; unfold min_int64; lia); unfold min_int64; lia.
Qed.
Lemma history_ok : forall h fs o k ed ls, buffer ed ls -> valid_history ls h ->
  exists ed', command_loop compile capacity errtext fs o k ed (map concrete h) =
      (printed ls h, Val (fs, ed')) /\ buffer ed' (final_lines ls h).
Proof.
  induction h as [|c h IH]; intros fs o k ed ls H V; cbn [map command_loop printed final_lines].
  - eauto.
  - destruct V as (G&Vc&F&V).
    destruct (step_ok fs (o k) ed ls c H G Vc F) as (ed1&E&B).
    destruct (IH fs o (S k) ed1 _ B V) as (ed2&E2&B2).
    assert (Tq : c_typ (concrete c) <> ctquit) by (destruct c; discriminate).
    exists ed2. split; auto. rewrite E. cbn [final last]. rewrite E2.
    destruct (c_typ (concrete c)); try reflexivity. now elim Tq.
Qed.
End R.
