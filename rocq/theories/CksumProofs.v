From Verif Require Import GoBase GoFacts CksumModel CksumSpec.
From Coq Require Import NArith Lia List.
Local Open Scope N_scope.

(* ---------- carry-less arithmetic ---------- *)
Lemma double_shift : forall a, N.double a = N.shiftl a 1.
Proof. intros. now rewrite N.double_spec, N.shiftl_mul_pow2, N.pow_1_r, N.mul_comm. Qed.
Lemma double_lxor : forall a b, N.double (N.lxor a b) = N.lxor (N.double a) (N.double b).
Proof. intros. rewrite !double_shift. apply N.shiftl_lxor. Qed.

Lemma clmul_0 : forall b, clmul 0 b = 0.
Proof. reflexivity. Qed.
Lemma clmul_1 : forall b, clmul 1 b = b.
Proof. reflexivity. Qed.
Lemma clmul_double : forall a b, clmul (N.double a) b = N.double (clmul a b).
Proof. intros [|p] b; reflexivity. Qed.
Lemma clmul_succ_double : forall a b, clmul (N.succ_double a) b = N.lxor b (N.double (clmul a b)).
Proof. intros [|p] b; simpl; auto. now rewrite N.lxor_0_r. Qed.

Lemma lxor_swap : forall a b c d, N.lxor (N.lxor a b) (N.lxor c d) = N.lxor (N.lxor a c) (N.lxor b d).
Proof.
  intros. rewrite !N.lxor_assoc. f_equal. rewrite <- !N.lxor_assoc. f_equal. apply N.lxor_comm.
Qed.

Lemma clmul_lxor_pos : forall p q b,
  clmul (Pos.lxor p q) b = N.lxor (clmul (Npos p) b) (clmul (Npos q) b).
Proof.
  assert (X : forall a b c, N.lxor (N.lxor a b) (N.lxor a c) = N.lxor b c).
  { intros. rewrite lxor_swap, N.lxor_nilpotent. apply N.lxor_0_l. }
  induction p as [p IH|p IH|]; intros [q|q|] b; simpl Pos.lxor.
  - change (Pos.Ndouble (Pos.lxor p q)) with (N.double (Pos.lxor p q)). rewrite clmul_double, IH. simpl. now rewrite X, double_lxor.
  - change (Pos.Nsucc_double (Pos.lxor p q)) with (N.succ_double (Pos.lxor p q)).
    rewrite clmul_succ_double, IH. simpl. now rewrite double_lxor, N.lxor_assoc.
  - simpl. rewrite N.lxor_comm, <- N.lxor_assoc, N.lxor_nilpotent. now rewrite N.lxor_0_l.
  - rewrite clmul_succ_double, IH. simpl. rewrite double_lxor. rewrite <- !N.lxor_assoc. f_equal. apply N.lxor_comm.
  - rewrite clmul_double, IH. simpl. now rewrite double_lxor.
  - simpl. now rewrite N.lxor_comm.
  - simpl. now rewrite <- N.lxor_assoc, N.lxor_nilpotent, N.lxor_0_l.
  - simpl. reflexivity.
  - simpl. now rewrite N.lxor_nilpotent.
Qed.

Lemma clmul_lxor : forall a a' b, clmul (N.lxor a a') b = N.lxor (clmul a b) (clmul a' b).
Proof.
  intros [|p] [|q] b; simpl N.lxor.
  - reflexivity.
  - reflexivity.
  - simpl. now rewrite N.lxor_0_r.
  - apply clmul_lxor_pos.
Qed.

Lemma clmul_shiftl : forall n a b, clmul (N.shiftl a n) b = N.shiftl (clmul a b) n.
Proof.
  induction n as [|n IH] using N.peano_ind; intros a b.
  - now rewrite !N.shiftl_0_r.
  - rewrite !N.shiftl_succ_r, clmul_double, IH. reflexivity.
Qed.

Lemma log2_lxor_lt : forall a b, a <> 0 -> b <> 0 -> N.log2 a < N.log2 b ->
  N.log2 (N.lxor a b) = N.log2 b.
Proof.
  intros a b Ha Hb H. apply N.log2_bits_unique.
  - rewrite N.lxor_spec, N.bit_log2, N.bits_above_log2; auto.
  - intros m Hm. rewrite N.lxor_spec, !N.bits_above_log2; auto. lia.
Qed.

Lemma clmul_log2 : forall a b, a <> 0 -> b <> 0 ->
  clmul a b <> 0 /\ N.log2 (clmul a b) = N.log2 a + N.log2 b.
Proof.
  intros [|p] b Ha Hb; [congruence|]. clear Ha.
  induction p as [p [IH1 IH2]|p [IH1 IH2]|].
  - change (N.pos p~1) with (N.succ_double (N.pos p)). rewrite clmul_succ_double.
    assert (L : N.log2 (N.double (clmul (N.pos p) b)) = N.succ (N.log2 (N.pos p) + N.log2 b)).
    { rewrite N.double_spec, N.log2_double by lia. now rewrite IH2. }
    assert (D : N.double (clmul (N.pos p) b) <> 0) by (rewrite N.double_spec; lia).
    assert (E : N.log2 (N.lxor b (N.double (clmul (N.pos p) b))) = N.succ (N.log2 (N.pos p) + N.log2 b)).
    { rewrite log2_lxor_lt; auto. rewrite L. lia. }
    split.
    + intros C. rewrite C in E. simpl in E. lia.
    + rewrite E. rewrite N.succ_double_spec, N.log2_succ_double by lia. lia.
  - change (N.pos p~0) with (N.double (N.pos p)). rewrite clmul_double, !N.double_spec.
    split; [lia|]. rewrite !N.log2_double by lia. lia.
  - change (clmul 1 b) with b. split; auto.
Qed.

Lemma G_value : G = 4374732215.
Proof. reflexivity. Qed.

Lemma clmul_G_small : forall q, clmul q G < 2 ^ 32 -> q = 0.
Proof.
  intros q H. destruct (N.eq_dec q 0) as [|Hq]; auto. exfalso.
  destruct (clmul_log2 q G Hq) as [H1 H2]; [discriminate|].
  assert (N.log2 (clmul q G) < 32) by (apply N.log2_lt_pow2; [lia|auto]).
  rewrite H2 in H0. change (N.log2 G) with 32 in H0. lia.
Qed.

Lemma lxor_lt_pow2 : forall a b n, a < 2 ^ n -> b < 2 ^ n -> N.lxor a b < 2 ^ n.
Proof.
  intros a b n Ha Hb. destruct (N.eq_dec (N.lxor a b) 0) as [->|N0]; [lia|].
  destruct (N.eq_dec n 0) as [->|Hn].
  { rewrite N.pow_0_r in *. assert (a = 0) by lia. assert (b = 0) by lia. subst. simpl. lia. }
  apply N.log2_lt_pow2; [lia|].
  eapply N.le_lt_trans; [apply N.log2_lxor|].
  apply N.max_lub_lt.
  - destruct (N.eq_dec a 0) as [->|]; [simpl; lia|]. apply N.log2_lt_pow2; lia.
  - destruct (N.eq_dec b 0) as [->|]; [simpl; lia|]. apply N.log2_lt_pow2; lia.
Qed.

Lemma high_bit : forall s k n, s < 2 ^ k -> k <= n -> N.testbit s n = false.
Proof.
  intros s k n H L. destruct (N.eq_dec s 0) as [->|]; [apply N.bits_0|]. apply N.bits_above_log2.
  destruct (N.eq_dec k 0) as [->|]; [rewrite N.pow_0_r in H; lia|].
  assert (N.log2 s < k) by (apply N.log2_lt_pow2; lia). lia.
Qed.

Lemma remainder_unique : forall P R R', remainder_mod_G P R -> remainder_mod_G P R' -> R = R'.
Proof.
  intros P R R' [H1 (Q&E1)] [H2 (Q'&E2)].
  assert (E : clmul (N.lxor Q Q') G = N.lxor R R').
  { rewrite clmul_lxor. apply N.lxor_eq. rewrite lxor_swap. rewrite <- E1, <- E2. apply N.lxor_nilpotent. }
  assert (Z : N.lxor Q Q' = 0).
  { apply clmul_G_small. rewrite E. now apply lxor_lt_pow2. }
  rewrite Z, clmul_0 in E. now apply N.lxor_eq.
Qed.

(* ---------- the table ---------- *)
(* long division of p (degree < n + 32) by G *)
Fixpoint divide (n : nat) (p q : N) : N * N :=
  match n with
  | O => (q, p)
  | S k => if N.testbit p (32 + N.of_nat k)
           then divide k (N.lxor p (N.shiftl G (N.of_nat k))) (N.lxor q (N.shiftl 1 (N.of_nat k)))
           else divide k p q
  end.

Definition table_ok (i : nat) : bool :=
  let p := N.shiftl (N.of_nat i) 32 in
  let r := nth i crctab 0 in
  let '(q, _) := divide 8 p 0 in
  (r <? 2 ^ 32) && (p =? N.lxor (clmul q G) r).

Lemma table_checked : forallb table_ok (seq 0 256) = true.
Proof. vm_compute. reflexivity. Qed.

Lemma table_entry : forall i, i < 256 ->
  remainder_mod_G (N.shiftl i 32) (nth (N.to_nat i) crctab 0).
Proof.
  intros i H. pose proof table_checked as T. rewrite forallb_forall in T.
  specialize (T (N.to_nat i)). rewrite in_seq in T.
  assert (T' : table_ok (N.to_nat i) = true) by (apply T; lia). unfold table_ok in T'.
  rewrite N2Nat.id in T'. destruct (divide 8 (N.shiftl i 32) 0) as [q r].
  apply andb_prop in T' as [T1 T2]. apply N.ltb_lt in T1. apply N.eqb_eq in T2.
  split; auto. exists q. exact T2.
Qed.

Lemma land_lt : forall a k, N.land a (N.ones k) < 2 ^ k.
Proof. intros. rewrite N.land_ones. apply N.mod_upper_bound. apply N.pow_nonzero. lia. Qed.

Lemma u32_lt : forall a, u32 a < 2 ^ 32.
Proof. intros. apply (land_lt a 32). Qed.

Lemma u8_lt : forall a, u8 a < 256.
Proof. intros. apply (land_lt a 8). Qed.

Lemma crc_step_remainder : forall P s c, remainder_mod_G (N.shiftl P 32) s -> c < 256 ->
  remainder_mod_G (N.shiftl (P * 256 + c) 32) (crc_step s c).
Proof.
  intros P s c [Hs (Q&E)] Hc.
  assert (I : u8 (N.shiftr s 24) = N.shiftr s 24).
  { unfold u8. change 255 with (N.ones 8). rewrite N.land_ones. apply N.mod_small.
    rewrite N.shiftr_div_pow2. apply N.div_lt_upper_bound; [discriminate|]. exact Hs. }
  unfold crc_step. rewrite I. set (t := N.lxor (N.shiftr s 24) c).
  assert (Ht : t < 256).
  { apply (lxor_lt_pow2 _ _ 8); [|exact Hc]. rewrite <- I. apply u8_lt. }
  destruct (table_entry t Ht) as [T1 (q&T2)]. set (r := nth (N.to_nat t) crctab 0) in *.
  split.
  - apply lxor_lt_pow2; auto. apply u32_lt.
  - exists (N.lxor (N.shiftl Q 8) q). rewrite clmul_lxor, clmul_shiftl.
    assert (M : P * 256 + c = N.lxor (N.shiftl P 8) c).
    { rewrite <- N.add_nocarry_lxor.
      - rewrite N.shiftl_mul_pow2. reflexivity.
      - apply N.bits_inj. intros n. rewrite N.land_spec, N.bits_0.
        destruct (N.lt_ge_cases n 8) as [L|L].
        + now rewrite N.shiftl_spec_low.
        + replace (N.testbit c n) with false; [apply andb_false_r|]. symmetry.
          destruct (N.eq_dec c 0) as [->|]; [apply N.bits_0|]. apply N.bits_above_log2.
          assert (N.log2 c < 8) by (apply N.log2_lt_pow2; lia). lia. }
    rewrite M, N.shiftl_lxor.
    rewrite (N.shiftl_shiftl P), N.add_comm, <- N.shiftl_shiftl, E, N.shiftl_lxor.
    assert (S8 : N.shiftl s 8 = N.lxor (N.shiftl (N.shiftr s 24) 32) (u32 (N.shiftl s 8))).
    { apply N.bits_inj. intros n. rewrite N.lxor_spec. unfold u32. change 4294967295 with (N.ones 32).
      rewrite N.land_spec. destruct (N.lt_ge_cases n 32) as [L|L].
      - rewrite (N.shiftl_spec_low _ 32) by auto. rewrite N.ones_spec_low by auto. rewrite andb_true_r, xorb_false_l. reflexivity.
      - rewrite N.ones_spec_high by auto. rewrite andb_false_r, xorb_false_r.
        rewrite !N.shiftl_spec_high' by lia. rewrite N.shiftr_spec'. f_equal. lia. }
    set (D := u32 (N.shiftl s 8)) in *. rewrite S8.
    assert (T3 : N.shiftl (N.shiftr s 24) 32 = N.lxor (N.lxor (clmul q G) r) (N.shiftl c 32)).
    { rewrite <- T2. unfold t. rewrite N.shiftl_lxor, N.lxor_assoc, N.lxor_nilpotent. now rewrite N.lxor_0_r. }
    rewrite T3.
    set (A := N.shiftl (clmul Q G) 8). set (Bq := clmul q G). set (C := N.shiftl c 32).
    apply N.bits_inj. intros n. rewrite !N.lxor_spec.
    destruct (N.testbit A n), (N.testbit Bq n), (N.testbit C n), (N.testbit D n), (N.testbit r n); reflexivity.
Qed.

Lemma octets_poly_snoc : forall l o, octets_poly (l ++ [o]) = octets_poly l * 256 + o.
Proof. intros. unfold octets_poly. now rewrite fold_left_app. Qed.

Lemma crc_fold_remainder : forall l, (forall o, In o l -> o < 256) ->
  remainder_mod_G (N.shiftl (octets_poly l) 32) (fold_left crc_step l 0).
Proof.
  induction l as [|o l IH] using rev_ind; intros H.
  - split; [reflexivity|]. exists 0. reflexivity.
  - rewrite octets_poly_snoc, fold_left_app. simpl. apply crc_step_remainder.
    + apply IH. intros x Hx. apply H. apply in_or_app; auto.
    + apply H. apply in_or_app; right; left; auto.
Qed.

(* ---------- the length octets ---------- *)
Lemma octets_of_nil : forall l, octets_of 0 l -> l = [].
Proof.
  intros l (H1&H2&H3). destruct l as [|o l]; auto. exfalso.
  assert (Z : forall l, 0 = fold_right (fun o acc => o + 256 * acc) 0 l -> forall o, In o l -> o = 0).
  { clear. induction l as [|o l IH]; intros E x []; simpl in E.
    - subst. lia.
    - apply IH; auto. lia. }
  apply H3; [discriminate|]. apply (Z (o :: l) H2).
  assert (N : o :: l <> []) by discriminate.
  destruct (exists_last N) as (l'&e&->). rewrite last_last. apply in_or_app; right; left; auto.
Qed.

Lemma octets_of_cons : forall n o l, octets_of n (o :: l) ->
  n <> 0 /\ o = u8 n /\ octets_of (N.shiftr n 8) l.
Proof.
  intros n o l (H1&H2&H3).
  assert (Ho : o < 256) by (apply H1; left; auto).
  assert (E : N.shiftr n 8 = fold_right (fun o acc => o + 256 * acc) 0 l /\ u8 n = o).
  { simpl in H2. set (m := fold_right (fun o acc => o + 256 * acc) 0 l) in *.
    rewrite N.shiftr_div_pow2. unfold u8. change 255 with (N.ones 8). rewrite N.land_ones.
    change (2 ^ 8) with 256. rewrite H2. split.
    - symmetry. apply N.div_unique with o; lia.
    - symmetry. apply N.mod_unique with m; lia. }
  destruct E as [E1 E2]. split; [|split; auto].
  - intros ->. assert (o :: l = []) by (apply octets_of_nil; split; auto). discriminate.
  - split; [intros x Hx; apply H1; right; auto|]. split; auto.
    intros Hl. destruct l; [congruence|]. apply H3. discriminate.
Qed.

Lemma crc_length_fold : forall l n s fuel, octets_of n l -> (N.size_nat n <= fuel)%nat ->
  crc_length fuel n s = fold_left crc_step l s.
Proof.
  induction l as [|o l IH]; intros n s fuel H F.
  - destruct H as (_&H&_). simpl in H. subst n. destruct fuel; reflexivity.
  - destruct (octets_of_cons _ _ _ H) as (H1&H2&H3).
    destruct fuel as [|f]; [destruct n; simpl in F; [congruence|destruct p; simpl in F; lia]|].
    cbn [crc_length]. destruct (N.eqb_spec n 0) as [|_]; [congruence|].
    simpl fold_left.
    assert (U : N.land (u8 n) 255 = o).
    { rewrite H2. unfold u8. rewrite <- N.land_assoc. reflexivity. }
    rewrite U. apply IH; auto.
    assert (S : (N.size_nat (N.shiftr n 8) < N.size_nat n)%nat).
    { clear - H1. destruct n as [|p]; [congruence|].
      assert (D : forall m, (N.size_nat (N.div2 m) <= Nat.pred (N.size_nat m))%nat).
      { intros [|[q|q|]]; simpl; lia. }
      assert (D1 : forall m, (N.size_nat (N.div2 m) <= N.size_nat m)%nat) by (intros m; specialize (D m); lia).
      change 8 with (N.succ 7). rewrite <- N.add_1_l, <- N.shiftr_shiftr. 
      assert (D7 : forall k m, (N.size_nat (N.shiftr m k) <= N.size_nat m)%nat).
      { intros k m. induction k as [|k IH] using N.peano_ind; [rewrite N.shiftr_0_r; lia|].
        rewrite N.shiftr_succ_r. specialize (D1 (N.shiftr m k)). lia. }
      specialize (D7 7 (N.shiftr (N.pos p) 1)). specialize (D (N.pos p)).
      change (N.shiftr (N.pos p) 1) with (N.div2 (N.pos p)) in *.
      assert (0 < N.size_nat (N.pos p))%nat by (destruct p; simpl; lia). lia. }
    lia.
Qed.

Lemma octets_of_exists : forall n, exists l, octets_of n l.
Proof.
  intros n. induction n as [n IH] using (well_founded_induction N.lt_wf_0).
  destruct (N.eq_dec n 0) as [->|Hn].
  - exists []. split; [intros o []|]. split; [reflexivity|congruence].
  - assert (L : n / 256 < n) by (apply N.div_lt; lia).
    destruct (IH _ L) as (l&H1&H2&H3). exists (n mod 256 :: l).
    assert (M : n mod 256 < 256) by (apply N.mod_upper_bound; discriminate).
    split; [intros o [<-|Ho]; auto|]. split.
    + simpl. rewrite <- H2. rewrite N.add_comm. apply N.div_mod'.
    + intros _. destruct l as [|x l].
      * simpl. simpl in H2. pose proof (N.div_mod' n 256). rewrite H2 in H. lia.
      * change (last (n mod 256 :: x :: l) 0) with (last (x :: l) 0). apply H3. discriminate.
Qed.

Lemma fold_map_left : forall (A C D : Type) (f : C -> D -> C) (g : A -> D) l s,
  fold_left (fun s x => f s (g x)) l s = fold_left f (map g l) s.
Proof. induction l; simpl; auto. Qed.

Lemma memcrc_posix : forall b l R, octets_of (N.of_nat (length b)) l ->
  remainder_mod_G (N.shiftl (octets_poly (map N_of_ascii b ++ l)) 32) R ->
  memcrc b = complement32 R.
Proof.
  intros b l R Hl HR. unfold memcrc.
  rewrite (crc_length_fold l) by auto.
  rewrite (fold_map_left _ _ _ crc_step byte_val), <- fold_left_app.
  assert (HB : forall o, In o (map byte_val b ++ l) -> o < 256).
  { intros o Ho. apply in_app_or in Ho as [Ho|Ho]; [|now apply Hl].
    apply in_map_iff in Ho as (c&<-&_). apply byte_val_lt. }
  assert (H := crc_fold_remainder (map byte_val b ++ l) HB).
  rewrite (remainder_unique _ _ _ HR H).
  - unfold complement32.
    set (s := fold_left crc_step (map byte_val b ++ l) 0).
    assert (Hs : s < 2 ^ 32).
    { apply H. }
    change 4294967295 with (N.ones 32). change (2 ^ 32 - 1) with (N.ones 32).
    rewrite N.lxor_comm. change (N.lxor (N.ones 32) s) with (N.lxor (N.ones 32) s).
    rewrite N.sub_nocarry_ldiff.
    + apply N.bits_inj. intros n. rewrite N.lxor_spec, N.ldiff_spec.
      destruct (N.lt_ge_cases n 32) as [L|L].
      * rewrite N.ones_spec_low by auto. reflexivity.
      * rewrite N.ones_spec_high by auto. rewrite andb_false_l, xorb_false_l.
        now apply (high_bit s 32).
    + apply N.bits_inj. intros n. rewrite N.ldiff_spec, N.bits_0.
      destruct (N.lt_ge_cases n 32) as [L|L].
      * rewrite N.ones_spec_low by auto. apply andb_false_r.
      * now rewrite (high_bit s 32).
Qed.

Lemma remainder_exists : forall l, (forall o, In o l -> o < 256) ->
  exists R, remainder_mod_G (N.shiftl (octets_poly l) 32) R.
Proof. intros. eexists. now apply crc_fold_remainder. Qed.

(* ---------- error detection ---------- *)
Lemma clmul_G_odd : forall q, N.testbit (clmul q G) 0 = N.testbit q 0.
Proof.
  intros q. destruct q as [|[p|p|]]; auto.
  - change (N.pos p~1) with (N.succ_double (N.pos p)). rewrite clmul_succ_double, N.lxor_spec.
    rewrite N.double_spec, N.testbit_even_0. reflexivity.
  - change (N.pos p~0) with (N.double (N.pos p)). rewrite clmul_double, N.double_spec, N.testbit_even_0. reflexivity.
Qed.

Lemma clmul_G_shift : forall n q z, clmul q G = N.shiftl z n -> exists q', q = N.shiftl q' n /\ clmul q' G = z.
Proof.
  induction n as [|n IH] using N.peano_ind; intros q z H.
  - rewrite N.shiftl_0_r in H. exists q. now rewrite N.shiftl_0_r.
  - rewrite N.shiftl_succ_r in H.
    assert (O : N.testbit q 0 = false).
    { rewrite <- clmul_G_odd, H. rewrite N.double_spec. apply N.testbit_even_0. }
    assert (Q : exists q1, q = N.double q1).
    { destruct q as [|[p|p|]]; try discriminate; [exists 0; auto|exists (N.pos p); auto]. }
    destruct Q as (q1&->). rewrite clmul_double in H.
    apply N.double_inj in H. destruct (IH _ _ H) as (q'&->&E).
    exists q'. split; auto. now rewrite N.shiftl_succ_r.
Qed.

(* bit lists as numbers *)
Definition bits_num (l : list bool) : N := fold_left (fun acc (b : bool) => 2 * acc + (if b then 1 else 0)) l 0.

Lemma bits_num_fold : forall l a,
  fold_left (fun acc (b : bool) => 2 * acc + (if b then 1 else 0)) l a =
  a * 2 ^ N.of_nat (length l) + bits_num l.
Proof.
  induction l as [|b l IH]; intros a.
  - simpl. unfold bits_num. simpl. lia.
  - unfold bits_num. simpl fold_left. rewrite (IH (2 * a + _)), (IH (_ + _)).
    simpl length. rewrite Nat2N.inj_succ, N.pow_succ_r'. lia.
Qed.

Lemma bits_num_app : forall a b, bits_num (a ++ b) = bits_num a * 2 ^ N.of_nat (length b) + bits_num b.
Proof. intros. unfold bits_num at 1. rewrite fold_left_app. apply bits_num_fold. Qed.

Lemma bits_num_lt : forall l, bits_num l < 2 ^ N.of_nat (length l).
Proof.
  induction l as [|b l IH] using rev_ind; [reflexivity|].
  rewrite bits_num_app, app_length, Nat.add_1_r, Nat2N.inj_succ, N.pow_succ_r'. simpl length.
  change (2 ^ N.of_nat 1) with 2. unfold bits_num at 2. simpl. destruct b; lia.
Qed.

Lemma bits_num_inj : forall a b, length a = length b -> bits_num a = bits_num b -> a = b.
Proof.
  induction a as [|x a IH] using rev_ind; intros b L E.
  - destruct b; [auto|discriminate].
  - destruct b as [|y b _] using rev_ind; [rewrite app_length in L; simpl in L; lia|].
    rewrite !app_length in L. simpl in L. rewrite !bits_num_app in E. simpl length in E.
    change (2 ^ N.of_nat 1) with 2 in E. unfold bits_num at 2 4 in E. simpl in E.
    assert (bits_num a = bits_num b /\ x = y) as [E1 ->].
    { destruct x, y; split; auto; lia. }
    f_equal. apply IH; auto. lia.
Qed.

Lemma byte_bits_num : forall c, bits_num (byte_bits c) = N_of_ascii c.
Proof. intros [[] [] [] [] [] [] [] []]; reflexivity. Qed.
Lemma byte_bits_length : forall c, length (byte_bits c) = 8%nat.
Proof. reflexivity. Qed.

Lemma octets_poly_bits : forall b, octets_poly (map N_of_ascii b) = bits_num (bits b).
Proof.
  induction b as [|c b IH] using rev_ind; [reflexivity|].
  rewrite map_app. simpl map. rewrite octets_poly_snoc, IH.
  unfold bits. rewrite flat_map_app. change (flat_map byte_bits [c]) with (byte_bits c ++ []). rewrite app_nil_r, bits_num_app, byte_bits_num, byte_bits_length.
  reflexivity.
Qed.

Lemma bits_length : forall b, length (bits b) = (8 * length b)%nat.
Proof.
  induction b as [|c b IH]; auto. unfold bits in *. change (flat_map byte_bits (c :: b)) with (byte_bits c ++ flat_map byte_bits b). rewrite app_length, IH, byte_bits_length.
  simpl length. lia.
Qed.

Lemma octets_poly_app : forall a l, (forall o, In o l -> o < 256) ->
  octets_poly (a ++ l) = octets_poly a * 256 ^ N.of_nat (length l) + octets_poly l /\
  octets_poly l < 256 ^ N.of_nat (length l).
Proof.
  intros a l. induction l as [|o l IH] using rev_ind; intros H.
  - rewrite app_nil_r. simpl. unfold octets_poly at 3. simpl. change (256 ^ 0) with 1. unfold octets_poly at 3. simpl. lia.
  - rewrite app_assoc, !octets_poly_snoc. rewrite app_length. simpl length.
    rewrite Nat.add_1_r, Nat2N.inj_succ, N.pow_succ_r'.
    destruct IH as [E1 E2]; [intros x Hx; apply H, in_or_app; auto|].
    assert (Ho : o < 256) by (apply H, in_or_app; right; left; auto).
    rewrite E1. split; [lia|]. nia.
Qed.

(* xor of numbers sharing high and low parts *)
Lemma lxor_concat : forall a b x y n, x < 2 ^ n -> y < 2 ^ n ->
  N.lxor (a * 2 ^ n + x) (b * 2 ^ n + y) = N.lxor a b * 2 ^ n + N.lxor x y.
Proof.
  intros a b x y n Hx Hy.
  assert (G : forall a x, x < 2 ^ n -> a * 2 ^ n + x = N.lxor (N.shiftl a n) x).
  { clear. intros a x Hx. rewrite <- N.add_nocarry_lxor; [now rewrite N.shiftl_mul_pow2|].
    apply N.bits_inj. intros m. rewrite N.land_spec, N.bits_0.
    destruct (N.lt_ge_cases m n) as [L|L].
    - now rewrite N.shiftl_spec_low.
    - replace (N.testbit x m) with false; [apply andb_false_r|]. symmetry.
      destruct (N.eq_dec x 0) as [->|]; [apply N.bits_0|]. apply N.bits_above_log2.
      destruct (N.eq_dec n 0) as [->|]; [rewrite N.pow_0_r in Hx; lia|].
      assert (N.log2 x < n) by (apply N.log2_lt_pow2; lia). lia. }
  rewrite !G by (auto; now apply lxor_lt_pow2). rewrite lxor_swap, N.shiftl_lxor. reflexivity.
Qed.

Lemma lxor_zero_low : forall a b n, N.lxor (a * 2 ^ n) (b * 2 ^ n) = N.lxor a b * 2 ^ n.
Proof.
  intros. pose proof (lxor_concat a b 0 0 n). rewrite !N.add_0_r in H. rewrite H; [simpl; lia| |];
  assert (2 ^ n <> 0) by (apply N.pow_nonzero; lia); lia.
Qed.

(* equal-length strings with equal checksums: G divides the difference, shifted *)
Lemma memcrc_collision : forall b1 b2, length b1 = length b2 -> memcrc b1 = memcrc b2 ->
  exists q, clmul q G = N.lxor (bits_num (bits b1)) (bits_num (bits b2)).
Proof.
  intros b1 b2 L E.
  destruct (octets_of_exists (N.of_nat (length b1))) as (l&Hl).
  assert (Hl2 : octets_of (N.of_nat (length b2)) l) by now rewrite <- L.
  assert (O : forall b, (forall o, In o (map N_of_ascii b ++ l) -> o < 256)).
  { intros b o Ho. apply in_app_or in Ho as [Ho|Ho]; [|now apply Hl].
    apply in_map_iff in Ho as (c&<-&_). apply byte_val_lt. }
  destruct (remainder_exists _ (O b1)) as (R1&H1). destruct (remainder_exists _ (O b2)) as (R2&H2).
  rewrite (memcrc_posix b1 l R1 Hl H1), (memcrc_posix b2 l R2 Hl2 H2) in E.
  assert (R1 = R2).
  { unfold complement32 in E. destruct H1 as [A1 _], H2 as [A2 _]. change (2 ^ 32) with 4294967296 in *. lia. }
  subst R2. destruct H1 as [_ (Q1&E1)], H2 as [_ (Q2&E2)].
  destruct (octets_poly_app (map N_of_ascii b1) l) as [P1 PL]; [apply Hl|].
  destruct (octets_poly_app (map N_of_ascii b2) l) as [P2 _]; [apply Hl|].
  set (k := N.of_nat (length l)) in *.
  assert (P256 : 256 ^ k = 2 ^ (8 * k)) by (rewrite N.pow_mul_r; reflexivity).
  rewrite P256 in *.
  assert (D : clmul (N.lxor Q1 Q2) G =
    N.shiftl (N.lxor (bits_num (bits b1)) (bits_num (bits b2))) (8 * k + 32)).
  { rewrite clmul_lxor. 
    assert (F : N.lxor (N.lxor (clmul Q1 G) R1) (N.lxor (clmul Q2 G) R1) = N.lxor (clmul Q1 G) (clmul Q2 G)).
    { rewrite lxor_swap, N.lxor_nilpotent. apply N.lxor_0_r. }
    rewrite <- F, <- E1, <- E2, <- N.shiftl_lxor, P1, P2.
    rewrite lxor_concat by auto. rewrite N.lxor_nilpotent, N.add_0_r.
    rewrite !octets_poly_bits, <- N.shiftl_mul_pow2, N.shiftl_shiftl. reflexivity. }
  apply clmul_G_shift in D as (q&_&D). eauto.
Qed.

Lemma memcrc_burst : forall b1 b2, burst32 b1 b2 -> length b1 = length b2 -> memcrc b1 <> memcrc b2.
Proof.
  intros b1 b2 (pre&w1&w2&post&E1&E2&Lw&L32&Nw) L E.
  destruct (memcrc_collision b1 b2 L E) as (q&Q).
  rewrite E1, E2, !bits_num_app in Q. rewrite !app_length, <- Lw in Q.
  set (np := N.of_nat (length post)) in *.
  assert (D : N.lxor (bits_num pre * 2 ^ N.of_nat (length w1 + length post) + (bits_num w1 * 2 ^ np + bits_num post))
     (bits_num pre * 2 ^ N.of_nat (length w1 + length post) + (bits_num w2 * 2 ^ np + bits_num post)) =
     N.lxor (bits_num w1) (bits_num w2) * 2 ^ np).
  { assert (Bw : forall w, length w = length w1 ->
      bits_num w * 2 ^ np + bits_num post < 2 ^ N.of_nat (length w1 + length post)).
    { intros w Hw. pose proof (bits_num_lt (w ++ post)) as X. rewrite bits_num_app, app_length, Hw in X. exact X. }
    rewrite lxor_concat by (apply Bw; auto). rewrite N.lxor_nilpotent.
    rewrite lxor_concat by apply bits_num_lt. rewrite N.lxor_nilpotent. lia. }
  rewrite D, <- N.shiftl_mul_pow2 in Q.
  apply clmul_G_shift in Q as (q'&_&Q).
  assert (S : N.lxor (bits_num w1) (bits_num w2) < 2 ^ 32).
  { assert (W : forall w, length w = length w1 -> bits_num w < 2 ^ 32).
    { intros w Hw. eapply N.lt_le_trans; [apply bits_num_lt|]. apply N.pow_le_mono_r; lia. }
    apply lxor_lt_pow2; apply W; auto. }
  assert (q' = 0) by (apply clmul_G_small; now rewrite Q). subst q'. rewrite clmul_0 in Q.
  symmetry in Q. apply N.lxor_eq in Q. apply Nw. apply bits_num_inj; auto.
Qed.

(* ---------- the command ---------- *)
Lemma run_files_spec : forall fs files stdin outs,
  exists o n e, run_files fs stdin outs files = {| out := outs ++ o; errout := e; fin := Exit n |} /\
    cksum_result crc_line fs stdin files o n /\ (e = [] <-> n = 0%Z).
Proof.
  intros fs. induction files as [|f r IH]; intros stdin outs.
  - exists [], 0%Z, []. cbn [run_files]. rewrite app_nil_r. repeat split; auto. constructor.
  - assert (D : forall m e, exists e', die outs m e = {| out := outs ++ []; errout := e'; fin := Exit 1 |} /\ (e' = [] <-> 1%Z = 0%Z)).
    { intros m e. eexists. unfold die. rewrite app_nil_r. split; [reflexivity|]. split; [|discriminate].
      destruct m; discriminate. }
    cbn [run_files]. destruct (beqb f (B "-")) eqn:Ef.
    + apply beqb_eq in Ef. subst f. destruct stdin as [b [e|]].
      * destruct (D (B "couldn't read input") e) as (e'&E1&E2).
        exists [], 1%Z, e'. split; auto. split; auto. constructor.
      * destruct (IH ([], None) (outs ++ crc_line b (B "-"))) as (o&n&e&E1&E2&E3).
        exists (crc_line b (B "-") ++ o), n, e. rewrite app_assoc. split; auto. split; auto. now constructor.
    + apply beqb_neq in Ef. destruct (fs f) as [e|b [e|]] eqn:Fs.
      * destruct (D (B "couldn't open file") e) as (e'&E1&E2). exists [], 1%Z, e'. split; auto. split; auto.
        eapply ck_open_err; eauto.
      * destruct (D (B "couldn't read input") e) as (e'&E1&E2). exists [], 1%Z, e'. split; auto. split; auto.
        eapply ck_read_err; eauto.
      * destruct (IH stdin (outs ++ crc_line b f)) as (o&n&e&E1&E2&E3).
        exists (crc_line b f ++ o), n, e. rewrite app_assoc. split; auto. split; auto. now apply ck_file.
Qed.

Lemma cksum_main_spec : forall fs stdin args, exists n,
  fin (cksum_main fs stdin args) = Exit n /\
  cksum_result (fun b name => utoa (memcrc b) ++ B " " ++ ntoa (length b) ++ B " " ++ name ++ [nl])
    fs stdin (match args with [] => [B "-"] | _ => args end) (out (cksum_main fs stdin args)) n /\
  (errout (cksum_main fs stdin args) = [] <-> n = 0%Z).
Proof.
  intros. unfold cksum_main.
  destruct (run_files_spec fs (match args with [] => [B "-"] | _ => args end) stdin []) as (o&n&e&E1&E2&E3).
  exists n. rewrite E1. simpl. auto.
Qed.

Lemma cksum_result_functional : forall line fs st files o n, cksum_result line fs st files o n ->
  forall o' n', cksum_result line fs st files o' n' -> o = o' /\ n = n'.
Proof.
  induction 1; intros o' n' H'; inversion H'; subst; auto; try congruence;
    try (exfalso; match goal with H : ?x <> ?y |- _ => apply H; reflexivity end).
  - match goal with H : cksum_result _ _ ([], None) r ?x ?y |- _ = _ ++ ?x /\ _ =>
      destruct (IHcksum_result _ _ H) as [-> ->] end. auto.
  - assert (b = b0) by congruence. subst.
    match goal with H : cksum_result _ _ st r ?x ?y |- _ = _ ++ ?x /\ _ =>
      destruct (IHcksum_result _ _ H) as [-> ->] end. auto.
Qed.
