(* Proofs for C54: deleting to the end of a text whose last line lacks its newline *)
From Verif Require Import GoBase GoFacts PieceTableModel PieceTableSpec PieceTableProofs PieceSeamSpec PieceSeamProofs
  EdModel EdSpec EdProofs EdProofs2.
Local Open Scope Z_scope.

Section R.
Variable compile : bytes -> option (bytes -> bool).
Variable capacity : nat -> nat.
Variable errtext : bytes.
Notation process := (processCommand compile capacity errtext).

Lemma delete_open_any : forall fs o ed content cc k es ls x m n t ps,
  0 <= k <= len content -> k <= max_int64 -> edits_in_range (firstn (Z.to_nat k) content) es ->
  run_edits (new_piece_table content cc k) es = (e_pt ed, Returned) ->
  apply_edits (firstn (Z.to_nat k) content) es = unlines ls ++ x ->
  Forall ed_line (ls ++ [x]) -> x <> [] -> len (unlines ls ++ x) < max_int64 ->
  1 <= m <= n -> n = lines_count ls + 1 ->
  let a := len (unlines (upto ls (m - 1))) in
  exists ed', process fs o ed (cmd_at ctdelete (num_addr m) (num_addr n) t ps) = Val ([], ed', []) /\
    (exists j, first_from (seams k es) a j /\
       pt_string (e_pt ed') = Ok (unlines (upto ls (m - 1)) ++ skipn (Z.to_nat j) (unlines ls ++ x))) /\
    (pt_string (e_pt ed') = Ok (unlines (upto ls (m - 1))) <->
     forall b, In b (seams k es) -> ~ (a <= b < len (unlines ls ++ x))).
Proof.
  intros fs o ed content cc k es ls x m n t ps K1 K2 R E Es F Ne L M En a.
  assert (H : holds ed (unlines ls ++ x)) by (exists content, cc, k, es; auto).
  pose proof (lines_le_len ls) as LL. pose proof L as L'. rewrite len_app in L'.
  assert (0 < len x) by (destruct x; [congruence|]; rewrite len_cons; pose proof (len_nonneg x); lia).
  assert (Rn : min_int64 <= n <= max_int64) by (unfold min_int64, lines_count in *; lia).
  assert (Rm : min_int64 <= m <= max_int64) by (unfold min_int64 in *; lia).
  assert (Ua : upto (ls ++ [x]) (m - 1) = upto ls (m - 1)).
  { unfold upto. rewrite firstn_app. replace (Z.to_nat (m - 1) - List.length ls)%nat with O by (unfold lines_count in *; lia).
    apply List.app_nil_r. }
  assert (Un : firstn (Z.to_nat n) (ls ++ [x]) = ls ++ [x])
    by (apply firstn_all2; rewrite app_length; unfold lines_count in *; cbn; lia).
  assert (Pre : unlines ls ++ x = unlines (upto ls (m - 1)) ++ (unlines (after ls (m - 1)) ++ x)).
  { rewrite app_assoc, <- unlines_app, upto_after. reflexivity. }
  assert (La : 0 <= a <= len (unlines ls ++ x)).
  { rewrite Pre, len_app. fold a. pose proof (len_nonneg (unlines (after ls (m - 1)) ++ x)).
    pose proof (len_nonneg (unlines (upto ls (m - 1)))). unfold a. lia. }
  assert (Fa : firstn (Z.to_nat a) (unlines ls ++ x) = unlines (upto ls (m - 1))).
  { rewrite Pre. unfold a, len. rewrite Nat2Z.id. rewrite firstn_app_left, firstn_all by lia. reflexivity. }
  set (d := len (unlines (ls ++ [x])) - a).
  assert (Ld : len (unlines ls ++ x) < a + d <= max_int64).
  { unfold d. rewrite unlines_app, !len_app. cbn [unlines flat_map]. rewrite List.app_nil_r, len_app.
    change (len [nl]) with 1. lia. }
  exists (set_current (set_pt ed (pt_delete (e_pt ed) d a)) m). split.
  - unfold processCommand. rewrite no_default by reflexivity. cbn [cmd_at c_typ c_start c_end].
    rewrite !addr_num_line by assumption. cbn [obind]. unfold Delete, getLineAddr.
    rewrite (getLines_open ed ls x) by assumption. cbn [obind].
    rewrite !line_addr_spec, (wrap64_id (n + 1)) by (unfold min_int64 in *; lia).
    replace (n + 1 - 1) with n by lia. rewrite Un. change (firstn (Z.to_nat (m - 1)) (ls ++ [x])) with (upto (ls ++ [x]) (m - 1)).
    rewrite Ua. cbn [obind]. rewrite addr_num_line by assumption. cbn [obind]. reflexivity.
  - cbn [set_current set_pt e_pt]. rewrite <- Es in *.
    destruct (delete_past_exact content cc k es (e_pt ed) d a K1 K2 R E La Ld) as (j & J1 & _ & J3).
    pose proof (delete_past_truncates_iff content cc k es (e_pt ed) d a K1 K2 R E La Ld) as T.
    rewrite Fa in J3, T. split; [|exact T]. exists j. split; [exact J1|exact J3].
Qed.
End R.
