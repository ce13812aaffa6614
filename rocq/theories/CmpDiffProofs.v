(* Proofs for C149. *)
From Verif Require Import GoBase GoFacts CmpModel CmpSpec CmpProofs CmpProps CmpDiffSpec.
From Verif Require DiffModel DiffSpec DiffProofs DiffCmdProofs DiffProps.

Lemma raw_cons : forall l b, ~ In nl l -> raw_lines (l ++ nl :: b) = l :: raw_lines b.
Proof.
  intros l b N. unfold raw_lines. rewrite split_on_app by auto. pose proof (split_on_nonempty nl b).
  destruct (split_on nl b) as [|x r] eqn:E; [congruence|]. cbn [last removelast]. destruct r as [|y r]; [destruct x; reflexivity|]. destruct (last (y :: r) []); reflexivity.
Qed.
Lemma raw_app : forall l b, Forall short l -> raw_lines (unlines l ++ b) = l ++ raw_lines b.
Proof.
  intros l b F. induction F as [|x l [N _] F IH]; [reflexivity|].
  change (unlines (x :: l)) with ((x ++ [nl]) ++ unlines l). rewrite <- !app_assoc. cbn [app]. rewrite raw_cons by auto. now rewrite IH.
Qed.
Lemma scan_app_eq : forall l a b, Forall short l -> fst (scan_segs a) = fst (scan_segs b) -> fst (scan_segs (l ++ a)) = fst (scan_segs (l ++ b)).
Proof.
  intros l a b F E. induction F as [|x l [N L] F IH]; [exact E|]. cbn [app scan_segs].
  destruct (max_token <=? N.of_nat (List.length x))%N; [reflexivity|].
  destruct (scan_segs (l ++ a)), (scan_segs (l ++ b)). cbn in *. now rewrite IH.
Qed.
Lemma drop_added_cr : forall s, ~ In cr s -> drop_cr (s ++ [cr]) = drop_cr s.
Proof. intros s H. rewrite (drop_cr_no_cr s) by auto. unfold drop_cr. rewrite rev_app_distr. cbn. apply rev_involutive. Qed.
Lemma raw_single : forall s, ~ In nl s -> s <> [] -> raw_lines s = [s].
Proof. intros s N E. unfold raw_lines. rewrite split_on_no_sep by auto. cbn [last]. destruct s; congruence. Qed.
Lemma alike_read : forall a b, alike a b -> fst (scan_lines a) = fst (scan_lines b).
Proof.
  intros a b [l s F S1 N|l s rest F S1 N|l x1 r1 x2 r2 F L1 L2 N]; unfold scan_lines; rewrite !raw_app by auto; apply scan_app_eq; auto.
  - destruct S1 as [S1 S2]. rewrite raw_single by auto. rewrite raw_cons by auto. reflexivity.
  - destruct S1 as [S1 S2]. cbn [app]. rewrite raw_cons by auto.
    replace (s ++ cr :: nl :: rest) with ((s ++ [cr]) ++ nl :: rest) by now rewrite <- app_assoc.
    rewrite raw_cons. 2:{ rewrite in_app_iff. cbn. intuition discriminate. }
    cbn [scan_segs]. rewrite drop_added_cr by auto. unfold max_token. rewrite app_length. cbn [List.length].
    destruct (N.leb_spec 65536 (N.of_nat (List.length s))); [lia|].
    destruct (N.leb_spec 65536 (N.of_nat (List.length s + 1))); [lia|]. destruct (scan_segs (raw_lines rest)). reflexivity.
  - destruct L1 as [A1 A2], L2 as [B1 B2]. rewrite !raw_cons by auto. cbn [scan_segs]. unfold max_token.
    destruct (N.leb_spec 65536 (N.of_nat (List.length x1))); [|lia].
    destruct (N.leb_spec 65536 (N.of_nat (List.length x2))); [|lia]. reflexivity.
Qed.
Lemma alike_differ : forall a b, alike a b -> a <> b.
Proof.
  intros a b [l s F S1 N|l s rest F S1 N|l x1 r1 x2 r2 F L1 L2 N] E; apply app_inv_head in E.
  - apply (f_equal (@List.length ascii)) in E. rewrite app_length in E. cbn in E. lia.
  - apply app_inv_head in E. discriminate.
  - auto.
Qed.

Lemma differ_cases : forall a b : bytes, a <> b ->
  (exists p x y r1 r2, a = p ++ x :: r1 /\ b = p ++ y :: r2 /\ x <> y) \/ (exists x r, b = a ++ x :: r) \/ (exists x r, a = b ++ x :: r).
Proof.
  induction a as [|x a IH]; intros [|y b] N.
  - congruence.
  - right. left. now exists y, b.
  - right. right. now exists x, a.
  - destruct (ascii_dec x y) as [->|X].
    + destruct (IH b) as [(p&u&v&r1&r2&->&->&Q)|[(u&r&->)|(u&r&->)]]; [congruence|left|right; left|right; right].
      * now exists (y :: p), u, v, r1, r2.
      * now exists u, r.
      * now exists u, r.
    + left. now exists [], x, y, a, b.
Qed.
Lemma plain_not_option : forall f, plain_operand f -> is_option f = false /\ f <> [] /\ f <> B "-".
Proof.
  intros f (c&r&->&N). unfold is_option. split; [|split; [discriminate|intros E; now injection E]].
  cbn. destruct (Ascii.eqb_spec c "-"); [congruence|reflexivity].
Qed.
Lemma cmp_two : forall w f1 f2 c1 c2, plain_operand f1 -> plain_operand f2 -> opens w f1 = Some (c1, None) -> opens w f2 = Some (c2, None) ->
  (fin (cmp_main w [f1; f2]) = Exit 0 <-> c1 = c2) /\ (c1 <> c2 -> fin (cmp_main w [f1; f2]) = Exit 1).
Proof.
  intros w f1 f2 c1 c2 P1 P2 O1 O2. destruct (plain_not_option f1 P1) as (I1&E1&D1), (plain_not_option f2 P2) as (I2&E2&D2).
  assert (OP : operands [f1; f2] = [f1; f2]). { unfold operands. cbn [filter]. now rewrite I1, I2. }
  assert (NI : forall o, is_option o = true -> ~ In o [f1; f2]).
  { intros o Q [<-|[<-|[]]]; congruence. }
  assert (SE : sees w f1 f2 (c1, None) (c2, None)). { right. split; [now left|]. split; right; auto. }
  destruct (C20_first_difference w f1 f2 [f1; f2] c1 c2 OP E1 E2 (NI (B "-l") eq_refl) (NI (B "-s") eq_refl) SE) as (A&A1&A2&A3).
  assert (D : c1 <> c2 -> fin (cmp_main w [f1; f2]) = Exit 1).
  { intros N. destruct (differ_cases c1 c2 N) as [(p&x&y&r1&r2&Q1&Q2&Q3)|[(x&r&Q)|(x&r&Q)]].
    - now rewrite (A1 p x y r1 r2 Q1 Q2 Q3).
    - now rewrite (A2 x r Q).
    - now rewrite (A3 x r Q). }
  split; [|exact D]. split; intros H.
  - destruct (list_eq_dec ascii_dec c1 c2) as [|N]; [assumption|]. rewrite (D N) in H. discriminate.
  - apply A in H. now rewrite H.
Qed.
Lemma diff_parse_two : forall ae f1 f2, plain_operand f1 -> plain_operand f2 ->
  exists s, DiffModel.parse_settings ae [f1; f2] = Ok s /\ DiffModel.file1 s = f1 /\ DiffModel.file2 s = f2.
Proof.
  intros ae f1 f2 (c&r&->&N) (d&q&->&M). eexists. unfold DiffModel.parse_settings, DiffModel.parse_loop.
  assert (Z : forall x t, beqb (c :: r) ("-"%char :: x :: t) = false).
  { intros x t. cbn. destruct (Ascii.eqb_spec c "-"); [congruence|reflexivity]. }
  assert (Y : forall x t, beqb (d :: q) ("-"%char :: x :: t) = false).
  { intros x t. cbn. destruct (Ascii.eqb_spec d "-"); [congruence|reflexivity]. }
  cbn [B list_ascii_of_string]. rewrite !Z, !Y. cbn. auto.
Qed.
Lemma diff_two : forall ae w f1 f2 c1 c2, plain_operand f1 -> plain_operand f2 -> opens w f1 = Some (c1, None) -> opens w f2 = Some (c2, None) ->
  exists r, DiffModel.diff_main ae (as_files w) [f1; f2] = Some r /\ errout r = [] /\ fin r = Exit 0 /\
    (out r = [nl] <-> fst (scan_lines c1) = fst (scan_lines c2)).
Proof.
  intros ae w f1 f2 c1 c2 P1 P2 O1 O2. destruct (diff_parse_two ae f1 f2 P1 P2) as (s&E&F1&F2).
  destruct (DiffProps.C10_output_partial ae (as_files w) [f1; f2] s E) as (cs&D&M).
  eexists. split; [exact M|]. split; [reflexivity|]. split; [reflexivity|]. cbn [out].
  unfold DiffModel.read_lines in D. rewrite F1, F2 in D. unfold as_files in D. rewrite O1, O2 in D. cbn [fst] in D.
  rewrite <- (DiffProps.C08_empty_output_iff_identical _ _ _ D). split; intros H; [|now rewrite H].
  destruct (DiffModel.format cs) as [|h t]; [reflexivity|]. destruct t; discriminate H.
Qed.
