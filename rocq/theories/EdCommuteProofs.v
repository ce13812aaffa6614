(* Proofs for C163 *)
From Verif Require Import GoBase GoFacts PieceTableModel PieceTableSpec PieceTableProofs EdModel EdSpec EdProofs EdProofs2 EdCommuteSpec.
Local Open Scope Z_scope.

Lemma count_app : forall a b, lines_count (a ++ b) = lines_count a + lines_count b.
Proof. intros. unfold lines_count. rewrite app_length. lia. Qed.
Lemma upto_at : forall p r, upto (p ++ r) (lines_count p) = p.
Proof. intros. unfold upto, lines_count. rewrite Nat2Z.id, firstn_app, Nat.sub_diag, firstn_all. cbn. apply List.app_nil_r. Qed.
Lemma after_at : forall p r, after (p ++ r) (lines_count p) = r.
Proof. intros. unfold after, lines_count. rewrite Nat2Z.id, skipn_app, Nat.sub_diag, skipn_all. reflexivity. Qed.
Lemma count_upto : forall ls n, 0 <= n <= lines_count ls -> lines_count (upto ls n) = n.
Proof. intros. unfold upto, lines_count in *. rewrite firstn_length. lia. Qed.
Lemma count_typed : forall t, 1 <= lines_count (typed t).
Proof.
  intros t. unfold typed, lines_count. destruct (split_on nl t) eqn:E; [|cbn; lia].
  exfalso. destruct t; cbn in E; [discriminate|]. destruct (Ascii.eqb _ _); [discriminate|]. destruct (split_on nl t); discriminate.
Qed.

(* a valid command replaces the lines [x] between [p] and [r] by [added c], wherever it is moved to *)
Lemma cmd_parts : forall ls c, edits c -> valid ls c ->
  exists p x r, ls = p ++ x ++ r /\ from_line c = lines_count p /\ to_line c = lines_count p + lines_count x /\
    forall p' r', aedit (p' ++ x ++ r') (down (lines_count p' - lines_count p) c) = p' ++ added c ++ r'.
Proof.
  assert (G : forall ls lo hi, 0 <= lo <= hi -> hi <= lines_count ls ->
    exists p x r, ls = p ++ x ++ r /\ lo = lines_count p /\ hi = lines_count p + lines_count x).
  { intros ls lo hi H1 H2. exists (upto ls lo), (upto (after ls lo) (hi - lo)), (after (after ls lo) (hi - lo)).
    rewrite upto_after, upto_after. rewrite count_upto by lia. repeat split. rewrite count_upto; [lia|].
    unfold after, lines_count in *. rewrite skipn_length. lia. }
  intros ls c E V. destruct (G ls (from_line c) (to_line c)) as (p & x & r & -> & Hp & Hx).
  - destruct c; cbn in *; try contradiction; lia.
  - destruct c; cbn in *; try contradiction; lia.
  - exists p, x, r. repeat split; try assumption. intros p' r'.
    assert (X : to_line c = from_line c -> x = []).
    { intros Q. destruct x; [reflexivity|]. unfold lines_count in *. cbn in *. lia. }
    destruct c as [n t|n t|m n t|m n|m n|m n|n]; cbn [edits from_line to_line added down aedit] in *; try contradiction.
    + rewrite (X eq_refl) in *. cbn [app]. replace (n + (lines_count p' - lines_count p)) with (lines_count p') by lia.
      now rewrite upto_at, after_at.
    + rewrite (X eq_refl) in *. cbn [app]. replace (n + (lines_count p' - lines_count p) - 1) with (lines_count p') by lia.
      now rewrite upto_at, after_at.
    + replace (m + (lines_count p' - lines_count p) - 1) with (lines_count p') by lia.
      replace (n + (lines_count p' - lines_count p)) with (lines_count (p' ++ x)) by (rewrite count_app; lia).
      rewrite upto_at, (app_assoc p' x r'), after_at. reflexivity.
    + replace (m + (lines_count p' - lines_count p) - 1) with (lines_count p') by lia.
      replace (n + (lines_count p' - lines_count p)) with (lines_count (p' ++ x)) by (rewrite count_app; lia).
      rewrite upto_at, (app_assoc p' x r'), after_at. reflexivity.
Qed.

Lemma down_0 : forall c d, d = 0 -> down d c = c.
Proof. intros c d ->. destruct c; cbn; rewrite ?Z.add_0_r; reflexivity. Qed.

Lemma app_mid_lines : forall (a b c d : list bytes), (List.length a <= List.length c)%nat -> a ++ b = c ++ d ->
  exists q, c = a ++ q /\ b = q ++ d.
Proof.
  induction a as [|x a IH]; intros b c d H E.
  - exists c. now split.
  - destruct c as [|y c]; [cbn in H; lia|]. cbn in E. injection E as <- E. cbn in H.
    destruct (IH b c d) as (q & -> & ->); [lia|assumption|]. exists q. now split.
Qed.

Lemma lines_commute : forall ls c1 c2, edits c1 -> edits c2 -> valid ls c1 -> valid ls c2 -> to_line c1 <= from_line c2 ->
  final_lines ls [c2; c1] = final_lines ls [c1; down (longer c1) c2].
Proof.
  intros ls c1 c2 D1 D2 V1 V2 Hle.
  destruct (cmd_parts ls c1 D1 V1) as (p1 & x1 & r1 & Es & F1 & T1 & A1).
  destruct (cmd_parts ls c2 D2 V2) as (p2 & x2 & r2 & Es2 & F2 & T2 & A2).
  rewrite T1, F2 in Hle. rewrite Es2 in Es.
  destruct (app_mid_lines (p1 ++ x1) r1 p2 (x2 ++ r2)) as (q & -> & ->).
  { unfold lines_count in Hle. rewrite app_length. lia. }
  { rewrite <- app_assoc. now symmetry. }
  cbn [final_lines]. unfold longer. rewrite T1, F1.
  specialize (A2 (p1 ++ x1 ++ q) r2) as A2a. specialize (A2 (p1 ++ added c1 ++ q) r2) as A2b.
  rewrite down_0 in A2a by (rewrite !count_app; lia).
  specialize (A1 p1 (q ++ added c2 ++ r2)) as A1a. specialize (A1 p1 (q ++ x2 ++ r2)) as A1b.
  rewrite down_0 in A1a by lia. rewrite down_0 in A1b by lia.
  rewrite Es2. rewrite <- !app_assoc in *. rewrite A2a, A1a, A1b.
  replace (lines_count (p1 ++ added c1 ++ q) - lines_count (p1 ++ x1 ++ q))
    with (lines_count (added c1) - (lines_count p1 + lines_count x1 - lines_count p1)) in A2b by (rewrite !count_app; lia).
  now rewrite A2b.
Qed.

Section R.
Variable compile : bytes -> option (bytes -> bool).
Variable capacity : nat -> nat.
Variable errtext : bytes.
Hypothesis capacity_ok : forall n, (n <= capacity n)%nat.
Notation loop := (command_loop compile capacity errtext).

Lemma printed_edits : forall ls c1 c2, edits c1 -> edits c2 -> printed ls [c1; c2] = [[nl]; [nl]].
Proof. intros ls c1 c2 D1 D2. destruct c1, c2; try contradiction; reflexivity. Qed.
Lemma down_edits : forall c1 c2 ls, edits c1 -> edits c2 -> valid ls c1 -> to_line c1 <= from_line c2 ->
  edits (down (longer c1) c2).
Proof.
  intros c1 c2 ls D1 D2 V H. destruct c2; cbn in *; try contradiction; try exact I.
  assert (0 <= from_line c1) by (destruct c1; cbn in *; try contradiction; lia).
  assert (0 <= lines_count (added c1)) by (unfold lines_count; lia). unfold longer. lia.
Qed.

Lemma ed_commute : forall fs o k ed ls c1 c2, buffer ed ls -> edits c1 -> edits c2 -> valid ls c1 -> valid ls c2 ->
  to_line c1 <= from_line c2 ->
  valid_history ls [c2; c1] -> valid_history ls [c1; down (longer c1) c2] ->
  exists ed1 ed2 ls', loop fs o k ed (map concrete [c2; c1]) = ([[nl]; [nl]], Val (fs, ed1)) /\
    loop fs o k ed (map concrete [c1; down (longer c1) c2]) = ([[nl]; [nl]], Val (fs, ed2)) /\
    buffer ed1 ls' /\ buffer ed2 ls'.
Proof.
  intros fs o k ed ls c1 c2 H D1 D2 V1 V2 Hle H1 H2.
  destruct (history_ok compile capacity errtext capacity_ok _ fs o k ed ls H H1) as (ed1 & E1 & B1).
  destruct (history_ok compile capacity errtext capacity_ok _ fs o k ed ls H H2) as (ed2 & E2 & B2).
  rewrite printed_edits in E1 by assumption. rewrite printed_edits in E2 by eauto using down_edits.
  exists ed1, ed2, (final_lines ls [c2; c1]). repeat split; try assumption.
  now rewrite (lines_commute ls c1 c2).
Qed.

(* --- taking back a and i by d --- *)
Lemma ed_undo : forall fs o k ed ls n t, buffer ed ls -> 0 <= n <= lines_count ls -> good ls ->
  len (unlines ls) + len t + 2 <= max_int64 -> good (upto ls n ++ typed t ++ after ls n) ->
  exists ed', loop fs o k ed (map concrete [Append n t; Delete_ (n + 1) (n + lines_count (typed t))]) = ([[nl]; [nl]], Val (fs, ed')) /\
    buffer ed' ls.
Proof.
  intros fs o k ed ls n t H N G F G2. pose proof (count_typed t) as Ct.
  set (h := [Append n t; Delete_ (n + 1) (n + lines_count (typed t))]).
  assert (V : valid_history ls h).
  { cbn [valid_history h ordinary valid text_of aedit]. repeat split; try apply G; try apply G2; try lia.
    - rewrite !count_app, count_upto by lia. assert (0 <= lines_count (after ls n)) by (unfold lines_count; lia). lia.
    - change (len []) with 0. assert (L : len (unlines (upto ls n ++ typed t ++ after ls n)) = len (unlines ls) + len t + 1).
      { rewrite <- (upto_after ls n) at 3. rewrite !unlines_app, unlines_typed, !len_app. change (len [nl]) with 1. lia. }
      rewrite L. lia. }
  destruct (history_ok compile capacity errtext capacity_ok h fs o k ed ls H V) as (ed' & E & B).
  exists ed'. split; [exact E|].
  assert (X : final_lines ls h = ls); [|now rewrite X in B].
  cbn [final_lines h aedit]. replace (n + 1 - 1) with n by lia.
  assert (Y : upto ls n ++ typed t ++ after ls n = (upto ls n ++ typed t) ++ after ls n) by now rewrite app_assoc.
  rewrite Y at 2. replace (n + lines_count (typed t)) with (lines_count (upto ls n ++ typed t)) by (rewrite count_app, count_upto; lia).
  rewrite after_at. pose proof (upto_at (upto ls n) (typed t ++ after ls n)) as Z0.
  rewrite (count_upto ls n) in Z0 by lia. rewrite Z0. apply upto_after.
Qed.

(* --- where the order matters --- *)
Lemma ed_order_matters : forall fs o k ed ls x n, buffer ed (ls ++ [[]; x]) -> Forall ed_line (ls ++ [x]) -> x <> [] ->
  n = lines_count ls + 1 ->
  exists ed1 ed2,
    loop fs o k ed (map concrete [Delete_ (n + 1) (n + 1); Delete_ n n]) = ([[nl]; [nl]], Val (fs, ed1)) /\
    loop fs o k ed (map concrete [Delete_ n n; Delete_ n n]) = ([[nl]; [nl]], Val (fs, ed2)) /\
    buffer ed1 (ls ++ [[]]) /\ buffer ed2 ls.
Proof.
  clear capacity_ok. intros fs o k ed ls x n H F Ne En.
  apply Forall_app in F as F'. destruct F' as [F1 F2]. inversion F2 as [|? ? Fx _]. subst x0 l.
  assert (Fb : ed_line []) by (split; [auto|]; split; [intros [|]; discriminate|unfold len; cbn; lia]).
  assert (G : good (ls ++ [[]; x])).
  { split; [apply Forall_app; split; [exact F1|constructor; [exact Fb|constructor; [exact Fx|constructor]]]|].
    intros p Q. change (ls ++ [[]; x]) with (ls ++ [[]] ++ [x]) in Q. rewrite app_assoc in Q.
    apply app_inj_tail in Q as [_ Q]. congruence. }
  assert (G2 : good (ls ++ [x])).
  { split; [exact F|]. intros p Q. apply app_inj_tail in Q as [_ Q]. congruence. }
  pose proof (lines_range _ _ H G) as R. assert (C : lines_count (ls ++ [[]; x]) = lines_count ls + 2) by (rewrite count_app; reflexivity).
  rewrite C in R. assert (0 <= lines_count ls) by (unfold lines_count; lia).
  assert (Un : upto (ls ++ [[]; x]) n = ls ++ [[]]).
  { subst n. change (ls ++ [[]; x]) with (ls ++ [[]] ++ [x]). rewrite app_assoc.
    replace (lines_count ls + 1) with (lines_count (ls ++ [[]])) by (rewrite count_app; reflexivity). apply upto_at. }
  (* the last line first *)
  destruct (delete_cmd_ok compile capacity errtext fs (o k) ed (ls ++ [[]; x]) (num_addr (n + 1)) (num_addr (n + 1)) (n + 1) (n + 1) [] [] H G)
    as (e1 & E1 & B1 & _); try (apply denotes_num; unfold min_int64; lia); try lia; [intros; discriminate|].
  replace (n + 1 - 1) with n in B1 by lia. rewrite Un in B1.
  replace (n + 1) with (lines_count ((ls ++ [[]; x]) ++ [])) in B1 at 1 by (rewrite List.app_nil_r; lia).
  rewrite <- (List.app_nil_r (ls ++ [[]; x])) in B1 at 1.
  assert (B1' : buffer e1 (ls ++ [[]])).
  { rewrite List.app_nil_r in B1. unfold after in B1. rewrite skipn_all2 in B1 by (unfold lines_count; lia).
    now rewrite List.app_nil_r in B1. }
  destruct (delete_blank_last compile capacity errtext fs (o (S k)) e1 ls n [] [] B1' F1 En ltac:(lia)) as (e1' & E1' & B1'').
  (* the blank line first *)
  destruct (delete_cmd_ok compile capacity errtext fs (o k) ed (ls ++ [[]; x]) (num_addr n) (num_addr n) n n [] [] H G)
    as (e2 & E2 & B2 & _); try (apply denotes_num; unfold min_int64; lia); try lia; [intros; discriminate|].
  assert (B2' : buffer e2 (ls ++ [x])).
  { replace (n - 1) with (lines_count ls) in B2 by lia. rewrite upto_at in B2.
    change (ls ++ [[]; x]) with (ls ++ [[]] ++ [x]) in B2. rewrite app_assoc in B2.
    subst n. replace (lines_count ls + 1) with (lines_count (ls ++ [[]])) in B2 by (rewrite count_app; reflexivity).
    now rewrite after_at in B2. }
  destruct (delete_cmd_ok compile capacity errtext fs (o (S k)) e2 (ls ++ [x]) (num_addr n) (num_addr n) n n [] [] B2' G2)
    as (e2' & E2' & B2'' & _); try (apply denotes_num; unfold min_int64; lia); try lia;
    [rewrite count_app; unfold lines_count at 2; cbn; lia|intros; discriminate|].
  exists e1', e2'. cbn [map concrete command_loop cmd_at c_typ].
  unfold cmd_at in *. rewrite E1, E2. change (final fs []) with fs. rewrite E1', E2'. change (final fs []) with fs. repeat split; try assumption.
  replace (n - 1) with (lines_count ls) in B2'' by lia. rewrite upto_at in B2''.
  replace (after (ls ++ [x]) n) with ([] : list bytes) in B2''; [now rewrite List.app_nil_r in B2''|].
  symmetry. apply skipn_all2. rewrite app_length. subst n. unfold lines_count. cbn [List.length].
  change (@List.length (list ascii) ls) with (@List.length bytes ls). lia.
Qed.
End R.
