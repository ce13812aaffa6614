(* C167: cmp and cksum on the same two files. *)
From Verif Require Import GoBase GoFacts CmpModel CmpSpec CmpProofs CmpProps CmpDiffSpec CmpDiffProofs CmpRecoverProofs.
From Verif Require CksumModel CksumSpec CksumProofs CksumWindowProofs CksumWindowProps.

(* both programs find this file with this content *)
Definition on_disk (w : world) (fs : bytes -> CksumModel.file_read) (f c : bytes) : Prop :=
  plain_operand f /\ opens w f = Some (c, None) /\ fs f = CksumModel.Reads c None.
(* cksum prints the same checksum and the same size for both *)
Definition same_sum (fs : bytes -> CksumModel.file_read) (f1 f2 : bytes) : Prop :=
  exists x, forall i, out (CksumModel.cksum_main fs i [f1]) = x ++ B " " ++ f1 ++ [nl] /\
    out (CksumModel.cksum_main fs i [f2]) = x ++ B " " ++ f2 ++ [nl].
(* a line of cmp -l *)
Definition l_line (k : nat) (x y : ascii) : bytes := ntoa k ++ B " " ++ octal x ++ B " " ++ octal y ++ [nl].

Lemma sum_of : forall w fs f c i, on_disk w fs f c ->
  out (CksumModel.cksum_main fs i [f]) = (utoa (CksumModel.memcrc c) ++ B " " ++ ntoa (length c)) ++ B " " ++ f ++ [nl].
Proof.
  intros w fs f c i (P&_&R). destruct (plain_not_option f P) as (_&_&D). unfold CksumModel.cksum_main. cbn [CksumModel.run_files].
  destruct (beqb f (B "-")) eqn:Q; [apply beqb_eq in Q; contradiction|]. rewrite R. cbn [CksumModel.run_files out app].
  unfold CksumModel.crc_line. now rewrite <- !app_assoc.
Qed.
Lemma no_space : forall n, ~ In " "%char (utoa n).
Proof. intros n I. apply utoa_digits in I. destruct I as [d I]. discriminate I. Qed.
Lemma same_sum_iff : forall w fs f1 f2 c1 c2, on_disk w fs f1 c1 -> on_disk w fs f2 c2 ->
  (same_sum fs f1 f2 <-> CksumModel.memcrc c1 = CksumModel.memcrc c2 /\ length c1 = length c2).
Proof.
  intros w fs f1 f2 c1 c2 D1 D2. split.
  - intros (x&H). destruct (H ([], None)) as [H1 H2]. rewrite (sum_of w fs f1 c1) in H1 by auto. rewrite (sum_of w fs f2 c2) in H2 by auto.
    apply app_inv_tail in H1, H2. rewrite <- H1 in H2. change (B " ") with [" "%char] in H2. cbn [app] in H2.
    apply first_sep in H2 as [A E]; try apply no_space. apply utoa_inj in A. apply ntoa_inj in E. auto.
  - intros [E L]. exists (utoa (CksumModel.memcrc c1) ++ B " " ++ ntoa (length c1)). intros i. split.
    + now apply (sum_of w).
    + rewrite E, L. now apply (sum_of w).
Qed.
Lemma nth_ext : forall (a b : bytes), (forall k, nth_error a k = nth_error b k) -> a = b.
Proof.
  induction a as [|x a IH]; intros [|y b] H; auto; try (specialize (H 0); discriminate).
  pose proof (H 0) as Q. injection Q as ->. f_equal. apply IH. intros k. exact (H (S k)).
Qed.
Lemma nth_skip : forall (a : bytes) n k, nth_error (skipn n a) k = nth_error a (n + k).
Proof. induction a as [|x a IH]; intros [|n] k; cbn; auto. now destruct k. Qed.
Lemma nth_first : forall (a : bytes) n k, k < n -> nth_error (firstn n a) k = nth_error a k.
Proof. induction a as [|x a IH]; intros [|n] [|k] L; cbn; auto; try lia. apply IH. lia. Qed.
(* strings that differ only at k, k+1, k+2 and k+3 have different checksums *)
Lemma near : forall c1 c2 k, length c1 = length c2 ->
  (forall j, nth_error c1 j <> nth_error c2 j -> k <= j < k + 4) -> CksumModel.memcrc c1 = CksumModel.memcrc c2 -> c1 = c2.
Proof.
  intros c1 c2 k L H E.
  assert (S : forall c : bytes, c = firstn k c ++ firstn 4 (skipn k c) ++ skipn 4 (skipn k c)).
  { intros c. now rewrite !firstn_skipn. }
  assert (A : firstn k c1 = firstn k c2).
  { apply nth_ext. intros j. destruct (Nat.lt_ge_cases j k).
    - rewrite !nth_first by auto. destruct (nth_error c1 j) as [x|] eqn:X, (nth_error c2 j) as [y|] eqn:Y; auto.
      + destruct (ascii_dec x y) as [->|N]; auto. exfalso. assert (K : nth_error c1 j <> nth_error c2 j) by congruence. apply H in K. lia.
      + exfalso. assert (K : nth_error c1 j <> nth_error c2 j) by congruence. apply H in K. lia.
      + exfalso. assert (K : nth_error c1 j <> nth_error c2 j) by congruence. apply H in K. lia.
    - rewrite !(proj2 (nth_error_None _ _)); auto; rewrite firstn_length; lia. }
  assert (Z : skipn 4 (skipn k c1) = skipn 4 (skipn k c2)).
  { apply nth_ext. intros j. rewrite !nth_skip.
    destruct (nth_error c1 (k + (4 + j))) as [x|] eqn:X, (nth_error c2 (k + (4 + j))) as [y|] eqn:Y; auto.
    - destruct (ascii_dec x y) as [->|N]; auto. exfalso.
      assert (K : nth_error c1 (k + (4 + j)) <> nth_error c2 (k + (4 + j))) by congruence. apply H in K. lia.
    - exfalso. assert (K : nth_error c1 (k + (4 + j)) <> nth_error c2 (k + (4 + j))) by congruence. apply H in K. lia.
    - exfalso. assert (K : nth_error c1 (k + (4 + j)) <> nth_error c2 (k + (4 + j))) by congruence. apply H in K. lia. }
  assert (W : firstn 4 (skipn k c1) = firstn 4 (skipn k c2)).
  { destruct (list_eq_dec ascii_dec (firstn 4 (skipn k c1)) (firstn 4 (skipn k c2))) as [Q|Q]; auto. exfalso.
    revert E. apply CksumProofs.memcrc_burst; auto. 
    exists (CksumSpec.bits (firstn k c1)), (CksumSpec.bits (firstn 4 (skipn k c1))), (CksumSpec.bits (firstn 4 (skipn k c2))),
      (CksumSpec.bits (skipn 4 (skipn k c1))).
    assert (LL : length (firstn 4 (skipn k c1)) = length (firstn 4 (skipn k c2))) by (rewrite !firstn_length, !skipn_length, L; auto).
    unfold CksumSpec.bits. rewrite <- !flat_map_app. fold CksumSpec.bits.
    split; [now rewrite <- S|]. split; [now rewrite A, Z, <- S|].
    change (length (CksumSpec.bits (firstn 4 (skipn k c1))) = length (CksumSpec.bits (firstn 4 (skipn k c2))) /\
      length (CksumSpec.bits (firstn 4 (skipn k c1))) <= 32 /\ CksumSpec.bits (firstn 4 (skipn k c1)) <> CksumSpec.bits (firstn 4 (skipn k c2))).
    rewrite !CksumProofs.bits_length, LL. split; auto. split; [rewrite firstn_length; lia|].
    intros K. apply CksumWindowProofs.bits_inj in K; auto. }
  rewrite (S c1), (S c2), A, W, Z. reflexivity.
Qed.

(* C167: files that cmp finds identical have the same checksum and size. *)
Theorem C167_identical : forall w fs f1 f2 c1 c2, on_disk w fs f1 c1 -> on_disk w fs f2 c2 ->
  fin (cmp_main w [f1; f2]) = Exit 0 -> same_sum fs f1 f2.
Proof.
  intros w fs f1 f2 c1 c2 D1 D2 H. apply (same_sum_iff w fs f1 f2 c1 c2 D1 D2).
  pose proof D1 as (P1&O1&_). pose proof D2 as (P2&O2&_).
  destruct (cmp_two w f1 f2 c1 c2 P1 P2 O1 O2) as [E _]. apply E in H. now subst.
Qed.
Print Assumptions C167_identical.
(* C167 refuted, for every file of five bytes or more: some other has its checksum and size. *)
Theorem C167_same_sum_refuted : forall c1, 5 <= length c1 -> exists c2, forall w fs f1 f2,
  on_disk w fs f1 c1 -> on_disk w fs f2 c2 -> same_sum fs f1 f2 /\ fin (cmp_main w [f1; f2]) = Exit 1.
Proof.
  intros c1 L. destruct c1 as [|x c1]; [cbn in L; lia|].
  set (x' := if Ascii.eqb x "0" then "1"%char else "0"%char).
  assert (X : x' <> x).
  { unfold x'. destruct (Ascii.eqb_spec x "0") as [->|N]; [discriminate|congruence]. }
  destruct (CksumWindowProps.C138_four_bytes [x'] (skipn 4 c1) (CksumModel.memcrc (x :: c1)) (CksumWindowProps.C138_range _)) as (v&(Lv&E)&_).
  exists ([x'] ++ v ++ skipn 4 c1). intros w fs f1 f2 D1 D2. split.
  - apply (same_sum_iff w fs f1 f2 _ _ D1 D2). split; [now rewrite E|].
    rewrite !app_length, skipn_length, Lv. cbn [length] in *. lia.
  - pose proof D1 as (P1&O1&_). pose proof D2 as (P2&O2&_).
    destruct (cmp_two w f1 f2 _ _ P1 P2 O1 O2) as [_ N]. apply N. intros Q. injection Q as Q _. now elim X.
Qed.
Print Assumptions C167_same_sum_refuted.
(* C167, what is true: if the checksum and the size are the same, cmp finds the files identical, or else cmp -l lists
   among their differences two that are four bytes or more apart. *)
Theorem C167_same_sum_partial : forall w fs f1 f2 c1 c2, on_disk w fs f1 c1 -> on_disk w fs f2 c2 -> same_sum fs f1 f2 ->
  fin (cmp_main w [f1; f2]) = Exit 0 \/
  exists i j x y x' y' mid rest, i + 4 <= j /\
    out (cmp_main w [B "-l"; f1; f2]) = l_line i x y ++ mid ++ l_line j x' y' ++ rest.
Proof.
  intros w fs f1 f2 c1 c2 D1 D2 S. apply (same_sum_iff w fs f1 f2 _ _ D1 D2) in S as [E L].
  pose proof D1 as (P1&O1&_). pose proof D2 as (P2&O2&_).
  destruct (plain_not_option f1 P1) as (I1&E1&N1), (plain_not_option f2 P2) as (I2&E2&N2).
  assert (OP : operands [B "-l"; f1; f2] = [f1; f2]). { unfold operands. cbn [filter]. rewrite I1, I2. reflexivity. }
  assert (NS : ~ In (B "-s") [B "-l"; f1; f2]).
  { intros [Q|[Q|[Q|[]]]]; [discriminate Q|subst f1; discriminate I1|subst f2; discriminate I2]. }
  assert (SE : sees w f1 f2 (c1, None) (c2, None)). { right. split; [now left|]. split; right; auto. }
  pose proof (C21_all_differences w f1 f2 [B "-l"; f1; f2] c1 c2 OP E1 E2 (or_introl eq_refl) NS SE) as OUT.
  destruct (cmp_two w f1 f2 c1 c2 P1 P2 O1 O2) as [EQ _].
  assert (ND : forall j, nth_error c1 j <> nth_error c2 j -> exists x y, In (S j, (x, y)) (differences c1 c2)).
  { intros j N. destruct (nth_error c1 j) as [x|] eqn:X, (nth_error c2 j) as [y|] eqn:Y.
    - exists x, y. apply differences_spec. exists j. repeat split; auto. congruence.
    - exfalso. apply nth_error_None in Y. assert (j < length c1) by (apply nth_error_Some; congruence). lia.
    - exfalso. apply nth_error_None in X. assert (j < length c2) by (apply nth_error_Some; congruence). lia.
    - now elim N. }
  pose proof (differences_sorted c1 c2) as SO.
  destruct (differences c1 c2) as [|[i [x y]] ds] eqn:DF.
  - left. apply EQ. apply (near c1 c2 0 L); auto. intros j N. destruct (ND j N) as (x&y&[]).
  - destruct (existsb (fun p => i + 4 <=? fst p) ds) eqn:X.
    + right. apply existsb_exists in X as ([j [x' y']]&I&G). cbn [fst] in G. apply Nat.leb_le in G.
      apply in_split in I as (d1&d2&Q). subst ds.
      set (g := fun p : nat * (ascii * ascii) => l_line (fst p) (fst (snd p)) (snd (snd p))).
      exists i, j, x, y, x', y', (flat_map g d1), (flat_map g d2). split; [exact G|]. rewrite OUT.
      change (flat_map g ((i, (x, y)) :: d1 ++ (j, (x', y')) :: d2) = g (i, (x, y)) ++ flat_map g d1 ++ g (j, (x', y')) ++ flat_map g d2).
      change (g (i, (x, y)) ++ flat_map g (d1 ++ (j, (x', y')) :: d2) = g (i, (x, y)) ++ flat_map g d1 ++ g (j, (x', y')) ++ flat_map g d2).
      rewrite flat_map_app. reflexivity.
    + left. apply EQ. apply (near c1 c2 (i - 1) L); auto. intros j N. destruct (ND j N) as (a&b&I).
      assert (I0 : exists k, i = S k).
      { assert (K : In (i, (x, y)) (differences c1 c2)) by (rewrite DF; now left).
        apply differences_spec in K as (k&->&_). eauto. }
      destruct I0 as [k ->]. destruct I as [I|I]; [injection I as -> _ _; lia|].
      cbn [map fst] in SO. apply StronglySorted_inv in SO as [_ SO]. rewrite Forall_forall in SO.
      assert (B1 : S k < S j) by (apply SO; apply in_map_iff; exists (S j, (a, b)); auto).
      assert (B2 : (S k + 4 <=? S j) = false).
      { destruct (S k + 4 <=? S j) eqn:Q; auto. rewrite <- X. symmetry. apply existsb_exists. exists (S j, (a, b)). auto. }
      apply Nat.leb_gt in B2. lia.
Qed.
Print Assumptions C167_same_sum_partial.
(* C167: so cksum tells apart all files that are different and of at most four bytes. *)
Theorem C167_short_partial : forall w fs f1 f2 c1 c2, on_disk w fs f1 c1 -> on_disk w fs f2 c2 -> length c1 <= 4 ->
  (same_sum fs f1 f2 <-> fin (cmp_main w [f1; f2]) = Exit 0).
Proof.
  intros w fs f1 f2 c1 c2 D1 D2 L. split; [|now apply (C167_identical w fs f1 f2 c1 c2)].
  intros S. apply (same_sum_iff w fs f1 f2 _ _ D1 D2) in S as [E M].
  pose proof D1 as (P1&O1&_). pose proof D2 as (P2&O2&_).
  destruct (cmp_two w f1 f2 c1 c2 P1 P2 O1 O2) as [EQ _]. apply EQ. apply (near c1 c2 0 M); auto.
  intros j N. destruct (Nat.lt_ge_cases j 4); [lia|]. elim N.
  rewrite !(proj2 (nth_error_None _ _)); auto; lia.
Qed.
Print Assumptions C167_short_partial.

Example C167_nonvacuous :
  let c2 := B "2" ++ map ascii_of_N [63; 112; 18; 236]%N in
  let w := {| opens := fun f => if beqb f (B "x") then Some (B "12345", None) else Some (c2, None);
              stdin := ([], None); both := (([], None), ([], None)) |} in
  let fs := fun f => if beqb f (B "x") then CksumModel.Reads (B "12345") None else CksumModel.Reads c2 None in
  on_disk w fs (B "x") (B "12345") /\ on_disk w fs (B "y") c2 /\ fin (cmp_main w [B "x"; B "y"]) = Exit 1 /\
  out (CksumModel.cksum_main fs ([], None) [B "x"]) = B "3288622155 5 x" ++ [nl] /\
  out (CksumModel.cksum_main fs ([], None) [B "y"]) = B "3288622155 5 y" ++ [nl].
Proof.
  intros c2 w fs. split; [split; [exists "x"%char, []; split; [reflexivity|discriminate]|split; reflexivity]|].
  split; [split; [exists "y"%char, []; split; [reflexivity|discriminate]|split; reflexivity]|].
  vm_compute. repeat split; reflexivity.
Qed.
