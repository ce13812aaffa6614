(* Proofs for C72 and C162: addresses outside the buffer *)
From Verif Require Import GoBase GoFacts PieceTableModel PieceTableSpec PieceTableProofs EdModel EdSpec EdProofs EdProofs2.
Local Open Scope Z_scope.

Lemma upto_past : forall ls n, lines_count ls <= n -> upto ls n = ls.
Proof. intros. unfold upto, lines_count in *. apply firstn_all2. lia. Qed.
Lemma after_past : forall ls n, lines_count ls <= n -> after ls n = [].
Proof. intros. unfold after, lines_count in *. apply skipn_all2. lia. Qed.
Lemma upto_neg : forall ls n, n <= 0 -> upto ls n = [].
Proof. intros. unfold upto. replace (Z.to_nat n) with O by lia. reflexivity. Qed.
Lemma after_neg : forall ls n, n <= 0 -> after ls n = ls.
Proof. intros. unfold after. replace (Z.to_nat n) with O by lia. reflexivity. Qed.

Lemma upto_clamp : forall ls n, upto ls n = upto ls (Z.max 0 (Z.min n (lines_count ls))).
Proof.
  intros. assert (0 <= lines_count ls) by (unfold lines_count; lia).
  destruct (Z.le_gt_cases n 0); [rewrite !upto_neg by lia; reflexivity|].
  destruct (Z.le_gt_cases (lines_count ls) n); [rewrite !upto_past by lia; reflexivity|]. f_equal. lia.
Qed.
Lemma after_clamp : forall ls n, after ls n = after ls (Z.max 0 (Z.min n (lines_count ls))).
Proof.
  intros. assert (0 <= lines_count ls) by (unfold lines_count; lia).
  destruct (Z.le_gt_cases n 0); [rewrite !after_neg by lia; reflexivity|].
  destruct (Z.le_gt_cases (lines_count ls) n); [rewrite !after_past by lia; reflexivity|]. f_equal. lia.
Qed.

Lemma delete_any : forall ed ls m n, buffer ed ls -> good ls -> 0 <= m <= n -> n < max_int64 ->
  exists pt, Delete ed m n = Val (set_pt ed pt) /\ table_for pt (unlines (upto ls (m - 1) ++ after ls n)).
Proof.
  intros ed ls m n H G M N. pose proof (lines_range _ _ H G) as R.
  set (m' := Z.max 0 (Z.min (m - 1) (lines_count ls)) + 1). set (n' := Z.max 0 (Z.min n (lines_count ls))).
  assert (E : Delete ed m n = Delete ed m' n').
  { unfold Delete. rewrite !(addr_good _ ls) by assumption. cbn [obind].
    rewrite (wrap64_id (n + 1)) by (unfold min_int64; lia). rewrite (wrap64_id (n' + 1)) by (unfold min_int64, n'; lia).
    replace (n + 1 - 1) with n by lia. replace (n' + 1 - 1) with n' by lia. unfold m' at 1 2.
    rewrite !Z.add_simpl_r. unfold n'. rewrite <- !upto_clamp. reflexivity. }
  destruct (delete_good ed ls m' n' H G) as (pt & D & T); [unfold m', n'; lia|unfold n'; lia|].
  exists pt. rewrite E. split; [exact D|]. revert T. unfold m', n'. rewrite Z.add_simpl_r.
  now rewrite <- upto_clamp, <- after_clamp.
Qed.

Section R.
Variable compile : bytes -> option (bytes -> bool).
Variable capacity : nat -> nat.
Variable errtext : bytes.
Notation process := (processCommand compile capacity errtext).

Lemma edit_anywhere : forall fs o ed ls c, buffer ed ls -> good ls ->
  match c with
  | Append n _ | Insert_ n _ => 0 <= n < max_int64
  | Delete_ m n => 0 <= m <= n /\ n < max_int64
  | Change m n _ => 0 <= m <= n /\ n < max_int64 /\ good (upto ls (m - 1) ++ after ls n)
  | _ => False
  end -> len (unlines ls) + len (text_of c) + 1 <= max_int64 ->
  exists ed', process fs o ed (concrete c) = Val ([], ed', []) /\ buffer ed' (aedit ls c).
Proof.
  intros fs o ed ls c H G V F. pose proof (lines_range _ _ H G) as R.
  unfold processCommand. destruct c as [n t|n t|m n t|m n|m n|m n|n]; try contradiction;
    rewrite no_default by reflexivity; cbn [concrete cmd_at c_typ c_start c_end c_text aedit text_of] in *.
  - rewrite addr_num_line by (unfold min_int64; lia). cbn [obind]. rewrite (wrap64_id (n + 1)) by (unfold min_int64; lia).
    destruct (insert_good ed ls (n + 1) t H G F) as (pt & E & T). rewrite E. cbn [obind].
    replace (n + 1 - 1) with n in T by lia. eexists. split; [reflexivity|]. exact T.
  - rewrite addr_num_line by (unfold min_int64; lia). cbn [obind].
    destruct (insert_good ed ls n t H G F) as (pt & E & T). rewrite E. cbn [obind].
    eexists. split; [reflexivity|]. exact T.
  - destruct V as (M & N & G1). rewrite !addr_num_line by (unfold min_int64; lia). cbn [obind].
    destruct (delete_any ed ls m n H G M N) as (pt & E & T). rewrite E. cbn [obind].
    rewrite !addr_num_line by (unfold min_int64; lia). cbn [obind].
    set (ls1 := upto ls (m - 1) ++ after ls n) in *.
    assert (X : upto ls1 (m - 1) = upto ls (m - 1) /\ after ls1 (m - 1) = after ls n).
    { unfold ls1. destruct (Z.le_gt_cases (m - 1) (lines_count ls)) as [L|L].
      - unfold upto, after, lines_count in *. rewrite firstn_app, skipn_app, firstn_firstn, firstn_length, Nat.min_id.
        replace (Z.to_nat (m - 1) - Nat.min (Z.to_nat (m - 1)) (List.length ls))%nat with O by lia.
        rewrite (skipn_all2 (firstn (Z.to_nat (m - 1)) ls)) by (rewrite firstn_length; lia). cbn. now rewrite List.app_nil_r.
      - rewrite (after_past ls n), (upto_past ls (m - 1)), List.app_nil_r by lia.
        rewrite upto_past, after_past by lia. auto. }
    destruct X as [X1 X2].
    destruct (insert_good (set_pt ed pt) ls1 m t) as (pt2 & E2 & T2); [exact T|exact G1| |].
    { assert (len (unlines ls1) <= len (unlines ls)); [|lia].
      unfold ls1. destruct (Z.le_gt_cases m 0) as [L|L].
      - rewrite upto_neg by lia. cbn [app]. rewrite <- (upto_after ls n) at 2. rewrite unlines_app, len_app.
        pose proof (len_nonneg (unlines (upto ls n))). lia.
      - assert (Y : ls = upto ls (m - 1) ++ skipn (Z.to_nat (m - 1)) (upto ls n) ++ after ls n)
          by (rewrite <- after_upto by lia; symmetry; apply upto_after).
        apply (f_equal (fun l => len (unlines l))) in Y. rewrite !unlines_app, !len_app in *. pose proof (len_nonneg (unlines (skipn (Z.to_nat (m - 1)) (upto ls n)))). lia. }
    rewrite E2. cbn [obind]. rewrite addr_num_line by (unfold min_int64; lia). cbn [obind].
    eexists. split; [reflexivity|]. rewrite X1, X2 in T2. exact T2.
  - destruct V as (M & N). rewrite !addr_num_line by (unfold min_int64; lia). cbn [obind].
    destruct (delete_any ed ls m n H G M N) as (pt & E & T). rewrite E. cbn [obind].
    rewrite !addr_num_line by (unfold min_int64; lia). cbn [obind].
    eexists. split; [reflexivity|]. exact T.
Qed.

(* ---- p and n ---- *)
Lemma padded : forall ls m n k, 1 <= m -> m - 1 <= n -> n <= Z.of_nat k ->
  firstn (Z.to_nat (n - (m - 1))) (skipn (Z.to_nat (m - 1)) (ls ++ repeat [] (k - List.length ls))) =
  between ls m n ++ repeat [] (Z.to_nat (n - Z.max (m - 1) (lines_count ls))).
Proof.
  intros ls m n k M L K. unfold between, lines_count. replace (n - (m - 1)) with (n - m + 1) by lia.
  rewrite skipn_app, firstn_app, skipn_length. f_equal.
  assert (R : forall a b, skipn a (repeat ([] : bytes) b) = repeat [] (b - a)).
  { induction a; intros b; [now rewrite Nat.sub_0_r|]. destruct b; [reflexivity|]. cbn. apply IHa. }
  assert (R2 : forall a b, firstn a (repeat ([] : bytes) b) = repeat [] (Nat.min a b)).
  { induction a; intros b; [reflexivity|]. destruct b; [reflexivity|]. cbn. now rewrite IHa. }
  rewrite R, R2. f_equal. change (@List.length (list ascii) ls) with (@List.length bytes ls). lia.
Qed.

Lemma print_any : forall fs o ed ls m n t ps, buffer ed ls -> good ls ->
  0 <= m <= max_int64 -> 0 <= n <= max_int64 ->
  process fs o ed (cmd_at ctprint (num_addr m) (num_addr n) t ps) =
  if (1 <=? m) && (m - 1 <=? n) && (n <=? Z.of_nat (capacity (List.length ls)))
  then Val ([], ed, join [nl] (between ls m n ++ repeat [] (Z.to_nat (n - Z.max (m - 1) (lines_count ls)))))
  else Crashes.
Proof.
  intros fs o ed ls m n t ps H G M N. unfold processCommand. rewrite no_default by reflexivity.
  cbn [cmd_at c_typ c_start c_end]. rewrite !addr_num_line by (unfold min_int64; lia). cbn [obind].
  unfold Print. rewrite (getLines_good ed ls) by assumption. cbn [obind].
  rewrite wrap64_id by (unfold min_int64; lia).
  replace (0 <=? m - 1) with (1 <=? m) by lia.
  destruct ((1 <=? m) && (m - 1 <=? n) && (n <=? Z.of_nat (capacity (List.length ls)))) eqn:E; [|reflexivity].
  cbn [obind]. rewrite padded by lia. reflexivity.
Qed.

Lemma number_lines_crash : forall ls k m, 1 <= m -> lines_count ls < m + Z.of_nat k - 1 -> (0 < k)%nat ->
  number_lines ls m k = Crashes.
Proof.
  induction k as [|k IH]; intros m M L K; [lia|]. cbn [number_lines]. unfold lines_count in *.
  destruct ((1 <=? m) && (m <=? Z.of_nat (List.length ls))) eqn:E; [|reflexivity].
  rewrite IH by lia. reflexivity.
Qed.

Lemma number_any : forall fs o ed ls m n t ps, buffer ed ls -> good ls ->
  0 <= m <= max_int64 -> 0 <= n <= max_int64 ->
  process fs o ed (cmd_at ctnumber (num_addr m) (num_addr n) t ps) =
  if n <? m then Val ([], ed, [])
  else if (1 <=? m) && (n <=? lines_count ls) then Val ([], ed, numbered m (between ls m n)) else Crashes.
Proof.
  intros fs o ed ls m n t ps H G M N. unfold processCommand. rewrite no_default by reflexivity.
  cbn [cmd_at c_typ c_start c_end]. rewrite !addr_num_line by (unfold min_int64; lia). cbn [obind].
  unfold number. rewrite (getLines_good ed ls) by assumption. cbn [obind].
  destruct (n <? m) eqn:E.
  - replace (Z.to_nat (n + 1 - m)) with O by lia. reflexivity.
  - destruct ((1 <=? m) && (n <=? lines_count ls)) eqn:E2.
    + rewrite number_lines_ok by lia. cbn [obind]. unfold between. do 5 f_equal. lia.
    + destruct (Z.leb_spec 1 m).
      * rewrite number_lines_crash by lia. reflexivity.
      * replace (Z.to_nat (n + 1 - m)) with (S (Z.to_nat (n - m))) by lia. cbn [number_lines].
        replace (1 <=? m) with false by lia. reflexivity.
Qed.
End R.
