(* Proofs for C161 *)
From Verif Require Import GoBase PieceTableModel PieceTableSpec PieceTableProofs PieceUndoSpec.
Local Open Scope Z_scope.

Lemma splice_at : forall p r t, splice (p ++ r) t (len p) = p ++ t ++ r.
Proof.
  intros. unfold splice, len. rewrite Nat2Z.id, firstn_app_left, firstn_all, skipn_app_left, skipn_all by lia.
  reflexivity.
Qed.

Lemma cut_out_at : forall p x r, cut_out (p ++ x ++ r) (len x) (len p) = p ++ r.
Proof.
  intros. unfold cut_out, len. rewrite <- Nat2Z.inj_add, !Nat2Z.id.
  rewrite firstn_app_left, firstn_all by lia. rewrite skipn_app_right by lia.
  replace (length p + length x - length p)%nat with (length x) by lia.
  rewrite skipn_app_left, skipn_all by lia. reflexivity.
Qed.

Lemma parts_at : forall s a, 0 <= a <= len s -> exists p r, s = p ++ r /\ a = len p.
Proof.
  intros s a H. exists (firstn (Z.to_nat a) s), (skipn (Z.to_nat a) s). split.
  - symmetry. apply firstn_skipn.
  - unfold len in *. rewrite firstn_length. lia.
Qed.

(* an edit in range replaces the part [x] between [p] and [r] by [y], wherever it is moved to *)
Lemma edit_parts : forall s e, edit_in_range s e ->
  exists p x y r, s = p ++ x ++ r /\ begins e = len p /\ ends_ e = len p + len x /\ growth e = len y - len x /\
    forall p' r', apply_edit (p' ++ x ++ r') (moved (len p' - len p) e) = p' ++ y ++ r'.
Proof.
  intros s [t a|n a] H; cbn [edit_in_range begins ends_ growth moved apply_edit] in *.
  - destruct H as [H _]. destruct (parts_at s a H) as (p & r & -> & ->).
    exists p, [], t, r. cbn [app]. change (len []) with 0. repeat split; try lia.
    intros. replace (len p + (len p' - len p)) with (len p') by lia. apply splice_at.
  - destruct H as (H1 & H2 & H3). destruct (parts_at s a) as (p & r & -> & ->); [lia|].
    rewrite len_app in H3. destruct (parts_at r n) as (x & r' & -> & ->); [lia|].
    exists p, x, [], r'. change (len []) with 0. repeat split; try lia.
    intros. replace (len p + (len p' - len p)) with (len p') by lia. apply cut_out_at.
Qed.

Lemma moved_0 : forall e, moved 0 e = e.
Proof. intros [t a|n a]; cbn; now rewrite Z.add_0_r. Qed.

Lemma moved_eq : forall d e, d = 0 -> moved d e = e.
Proof. intros. subst. apply moved_0. Qed.

Lemma apply_len : forall s e, edit_in_range s e -> len (apply_edit s e) = len s + growth e.
Proof.
  intros s [t a|n a] H; cbn [edit_in_range apply_edit growth] in *.
  - now apply splice_len.
  - rewrite cut_out_len; lia.
Qed.

Lemma app_mid : forall (a b c d : bytes), len a <= len c -> a ++ b = c ++ d -> exists q, c = a ++ q /\ b = q ++ d.
Proof.
  induction a as [|x a IH]; intros b c d H E.
  - exists c. now split.
  - destruct c as [|y c]. { rewrite len_cons in H. pose proof (len_nonneg a). change (len []) with 0 in H. lia. }
    cbn in E. injection E as <- E. rewrite !len_cons in H.
    destruct (IH b c d) as (q & -> & ->); [lia|assumption|]. exists q. now split.
Qed.

Lemma edits_commute : forall s e1 e2, edit_in_range s e1 -> edit_in_range s e2 -> ends_ e1 <= begins e2 ->
  apply_edits s [e2; e1] = apply_edits s [e1; moved (growth e1) e2].
Proof.
  intros s e1 e2 H1 H2 Hle.
  destruct (edit_parts s e1 H1) as (p1 & x1 & y1 & r1 & Es & B1 & E1 & G1 & A1).
  destruct (edit_parts s e2 H2) as (p2 & x2 & y2 & r2 & Es2 & B2 & E2 & G2 & A2).
  rewrite E1, B2 in Hle. rewrite Es2 in Es. rewrite app_assoc in Es.
  destruct (app_mid (p1 ++ x1) r1 p2 (x2 ++ r2)) as (q & Ep & Er).
  { rewrite len_app. exact Hle. }
  { rewrite <- app_assoc. rewrite <- !app_assoc in Es. now symmetry. }
  subst p2 r1. cbn [apply_edits].
  specialize (A2 (p1 ++ x1 ++ q) r2) as A2a. specialize (A2 (p1 ++ y1 ++ q) r2) as A2b.
  rewrite moved_eq in A2a by (rewrite !len_app; lia).
  specialize (A1 p1 (q ++ y2 ++ r2)) as A1a. specialize (A1 p1 (q ++ x2 ++ r2)) as A1b.
  rewrite moved_eq in A1a by lia. rewrite moved_eq in A1b by lia.
  rewrite Es2. rewrite <- !app_assoc in *. rewrite A2a, A1a, A1b.
  replace (len (p1 ++ y1 ++ q) - len (p1 ++ x1 ++ q)) with (growth e1) in A2b by (rewrite !len_app; lia).
  now rewrite A2b.
Qed.

Lemma commute_in_range : forall s e1 e2, edit_in_range s e1 -> edit_in_range s e2 -> ends_ e1 <= begins e2 ->
  len s <= max_int64 -> len s + growth e1 + growth e2 <= max_int64 ->
  edits_in_range s [e2; e1] /\ edits_in_range s [e1; moved (growth e1) e2].
Proof.
  intros s e1 e2 H1 H2 Hle Hs Hg. cbn [edits_in_range].
  pose proof (apply_len s e1 H1) as L1. pose proof (apply_len s e2 H2) as L2.
  repeat split; try assumption.
  - destruct e1 as [t a|n a], e2 as [u b|m b]; cbn [edit_in_range begins ends_ growth moved] in *; rewrite ?L2;
      pose proof (len_nonneg s); try pose proof (len_nonneg t); try pose proof (len_nonneg u); lia.
  - destruct e1 as [t a|n a], e2 as [u b|m b]; cbn [edit_in_range begins ends_ growth moved] in *; rewrite ?L1;
      pose proof (len_nonneg s); try pose proof (len_nonneg t); try pose proof (len_nonneg u); lia.
Qed.

Lemma commute : forall pt s e1 e2, table_for pt s -> edit_in_range s e1 -> edit_in_range s e2 ->
  ends_ e1 <= begins e2 -> len s + growth e1 + growth e2 <= max_int64 ->
  exists pt1 pt2 s', run_edits pt [e2; e1] = (pt1, Returned) /\
    run_edits pt [e1; moved (growth e1) e2] = (pt2, Returned) /\ pt_string pt1 = Ok s' /\ pt_string pt2 = Ok s'.
Proof.
  intros pt s e1 e2 T H1 H2 Hle Hg. destruct (table_for_inv _ _ T) as [I L].
  destruct (commute_in_range s e1 e2 H1 H2 Hle L Hg) as [R1 R2].
  destruct (run_edits_inv _ _ _ I L R1) as (pt1 & E1 & I1 & _).
  destruct (run_edits_inv _ _ _ I L R2) as (pt2 & E2 & I2 & _).
  exists pt1, pt2, (apply_edits s [e2; e1]). repeat split; [exact E1|exact E2|now apply inv_string|].
  rewrite (edits_commute s e1 e2 H1 H2 Hle). now apply inv_string.
Qed.

(* --- taking back --- *)
Lemma undo_one : forall s e, edit_in_range s e -> len s <= max_int64 ->
  edit_in_range (apply_edit s e) (undo s e) /\ apply_edit (apply_edit s e) (undo s e) = s.
Proof.
  intros s [t a|n a] H Hs; cbn [edit_in_range apply_edit undo] in *.
  - destruct H as [H _]. rewrite splice_len by lia. pose proof (len_nonneg t). pose proof (len_nonneg s).
    split; [lia|]. destruct (parts_at s a H) as (p & r & -> & ->). now rewrite splice_at, cut_out_at.
  - destruct H as (H1 & H2 & H3). rewrite cut_out_len by lia.
    destruct (parts_at s a) as (p & r & -> & ->); [lia|].
    rewrite len_app in H3. destruct (parts_at r n) as (x & r' & -> & ->); [lia|].
    assert (X : firstn (Z.to_nat (len x)) (skipn (Z.to_nat (len p)) (p ++ x ++ r')) = x).
    { unfold len. rewrite !Nat2Z.id, skipn_app_right, Nat.sub_diag, skipn_O, firstn_app_left by lia.
      apply firstn_all. }
    rewrite X, cut_out_at, splice_at, !len_app in *.
    pose proof (len_nonneg p). pose proof (len_nonneg x). pose proof (len_nonneg r'). repeat split; lia.
Qed.

Lemma apply_edits_app : forall es s fs, apply_edits s (es ++ fs) = apply_edits (apply_edits s es) fs.
Proof. induction es; intros; cbn; auto. Qed.

Lemma edits_in_range_app : forall es s fs,
  edits_in_range s (es ++ fs) <-> edits_in_range s es /\ edits_in_range (apply_edits s es) fs.
Proof. induction es as [|e es IH]; intros; cbn; [tauto|]. rewrite IH. tauto. Qed.

Lemma apply_bound : forall s e, edit_in_range s e -> len s <= max_int64 -> len (apply_edit s e) <= max_int64.
Proof. intros s e H L. rewrite apply_len by assumption. destruct e; cbn in *; lia. Qed.

Lemma undo_all_ok : forall es s, edits_in_range s es -> len s <= max_int64 ->
  edits_in_range (apply_edits s es) (undo_all s es) /\ apply_edits (apply_edits s es) (undo_all s es) = s.
Proof.
  induction es as [|e es IH]; intros s H L; cbn [undo_all apply_edits].
  - now split.
  - destruct H as [H1 H2]. destruct (IH (apply_edit s e) H2 (apply_bound s e H1 L)) as [I1 I2].
    destruct (undo_one s e H1 L) as [U1 U2].
    rewrite edits_in_range_app, apply_edits_app, I2. cbn. tauto.
Qed.

Lemma run_edits_app : forall es pt fs pt1, run_edits pt es = (pt1, Returned) ->
  run_edits pt (es ++ fs) = run_edits pt1 fs.
Proof.
  induction es as [|e es IH]; intros pt fs pt1 H; cbn in *.
  - now injection H as <-.
  - destruct e as [t a|n a].
    + destruct (pt_insert pt t a) as [pt' []]; [now apply IH|discriminate].
    + now apply IH.
Qed.

Lemma table_undo : forall pt s es, table_for pt s -> edits_in_range s es ->
  exists pt1 pt2, run_edits pt es = (pt1, Returned) /\ run_edits pt1 (undo_all s es) = (pt2, Returned) /\
    pt_string pt2 = Ok s.
Proof.
  intros pt s es T R. destruct (table_for_inv _ _ T) as [I L].
  destruct (run_edits_inv _ _ _ I L R) as (pt1 & E1 & I1 & L1).
  destruct (undo_all_ok es s R L) as [U1 U2].
  destruct (run_edits_inv _ _ _ I1 L1 U1) as (pt2 & E2 & I2 & _).
  exists pt1, pt2. repeat split; try assumption. rewrite U2 in I2. now apply inv_string.
Qed.

(* --- histories --- *)
Lemma table_history : forall pt1 pt2 s es, table_for pt1 s -> table_for pt2 s -> edits_in_range s es ->
  exists pt1' pt2' s', run_edits pt1 es = (pt1', Returned) /\ run_edits pt2 es = (pt2', Returned) /\
    pt_string pt1' = Ok s' /\ pt_string pt2' = Ok s'.
Proof.
  intros pt1 pt2 s es T1 T2 R. destruct (table_for_inv _ _ T1) as [I1 L]. destruct (table_for_inv _ _ T2) as [I2 _].
  destruct (run_edits_inv _ _ _ I1 L R) as (pt1' & E1 & J1 & _).
  destruct (run_edits_inv _ _ _ I2 L R) as (pt2' & E2 & J2 & _).
  exists pt1', pt2', (apply_edits s es). repeat split; try assumption; now apply inv_string.
Qed.

Lemma table_history_differs : forall content t p n a,
  len content + len t <= max_int64 -> 0 <= a <= p -> p <= len content -> (t <> [] \/ p < len content) ->
  len content + len t < a + n <= max_int64 ->
  exists pt1 pt2 s s1 s2, table_for pt1 s /\ table_for pt2 s /\
    pt_string (pt_delete pt1 n a) = Ok s1 /\ pt_string (pt_delete pt2 n a) = Ok s2 /\ s1 <> s2.
Proof.
  intros content t p n a L A P D Hn.
  destruct (delete_past_end_inserted content false t p n a L A P Hn) as (pt1 & E1 & S1).
  exists pt1, (new_piece_table (splice content t p) false (len (splice content t p))), (splice content t p).
  assert (Hp : 0 <= p <= len content) by lia.
  pose proof (splice_len content t p Hp) as Hl. pose proof (len_nonneg content). pose proof (len_nonneg t).
  assert (W : forall b : bytes, firstn (Z.to_nat (len b)) b = b) by (intros b; unfold len; rewrite Nat2Z.id; apply firstn_all).
  eexists _, _. repeat split.
  - exists content, false, (len content), [Ins t p]. rewrite !W. repeat split; try lia; try assumption; cbn; lia.
  - exists (splice content t p), false, (len (splice content t p)), []. rewrite !W.
    cbn [edits_in_range apply_edits run_edits]. repeat split; lia.
  - exact S1.
  - apply delete_past_end_fresh; lia.
  - assert (F : firstn (Z.to_nat a) (splice content t p) = firstn (Z.to_nat a) content).
    { unfold splice. rewrite firstn_app_left; [|rewrite firstn_length; unfold len in *; lia].
      rewrite firstn_firstn. f_equal. lia. }
    rewrite F. intros E. apply (f_equal (@List.length ascii)) in E. rewrite !app_length, skipn_length in E.
    assert (length t <> 0 \/ Z.to_nat p < length content)%nat.
    { destruct D as [D|D]; [left; destruct t; [congruence|discriminate]|right; unfold len in *; lia]. }
    lia.
Qed.
