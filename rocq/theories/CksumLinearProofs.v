(* Proofs for C158. *)
From Verif Require Import GoBase CksumModel CksumSpec CksumProofs CksumLinearSpec.
Open Scope N_scope.
Notation length := List.length.

Lemma complement_lxor : forall R, R < 2 ^ 32 -> complement32 R = N.lxor R (N.ones 32).
Proof.
  intros R H. unfold complement32. change (2 ^ 32 - 1) with (N.ones 32). rewrite N.sub_nocarry_ldiff.
  - apply N.bits_inj. intros n. rewrite N.lxor_spec, N.ldiff_spec. destruct (N.lt_ge_cases n 32) as [L|L].
    + rewrite N.ones_spec_low by auto. now destruct (N.testbit R n).
    + rewrite N.ones_spec_high by auto. rewrite (high_bit R 32 n) by auto. reflexivity.
  - apply N.bits_inj. intros n. rewrite N.ldiff_spec, N.bits_0. destruct (N.lt_ge_cases n 32) as [L|L].
    + rewrite N.ones_spec_low by auto. apply andb_false_r.
    + now rewrite (high_bit R 32).
Qed.

Definition num (b : bytes) : N := bits_num (bits b).

(* the difference of two checksums is the remainder of the difference of the texts *)
Lemma diff_remainder : forall b1 b2 l, length b1 = length b2 -> octets_of (N.of_nat (length b1)) l ->
  remainder_mod_G (N.shiftl (N.lxor (num b1) (num b2)) (8 * N.of_nat (length l) + 32)) (N.lxor (memcrc b1) (memcrc b2)).
Proof.
  intros b1 b2 l L Hl. assert (Hl2 : octets_of (N.of_nat (length b2)) l) by now rewrite <- L.
  assert (O : forall b, (forall o, In o (map N_of_ascii b ++ l) -> o < 256)).
  { intros b o Ho. apply in_app_or in Ho as [Ho|Ho]; [|now apply Hl].
    apply in_map_iff in Ho as (c&<-&_). apply N_ascii_bounded. }
  destruct (remainder_exists _ (O b1)) as (R1&H1). destruct (remainder_exists _ (O b2)) as (R2&H2).
  rewrite (memcrc_posix b1 l R1 Hl H1), (memcrc_posix b2 l R2 Hl2 H2).
  destruct H1 as [A1 (Q1&E1)], H2 as [A2 (Q2&E2)]. rewrite !complement_lxor by assumption.
  rewrite lxor_swap, N.lxor_nilpotent, N.lxor_0_r. split; [now apply lxor_lt_pow2|]. exists (N.lxor Q1 Q2).
  rewrite clmul_lxor, lxor_swap, <- E1, <- E2, <- N.shiftl_lxor.
  destruct (octets_poly_app (map N_of_ascii b1) l) as [P1 PL]; [apply Hl|].
  destruct (octets_poly_app (map N_of_ascii b2) l) as [P2 _]; [apply Hl|].
  set (k := N.of_nat (length l)) in *.
  assert (P256 : 256 ^ k = 2 ^ (8 * k)) by (rewrite N.pow_mul_r; reflexivity).
  rewrite P256 in *. rewrite P1, P2, lxor_concat by auto. rewrite N.lxor_nilpotent, N.add_0_r.
  rewrite !octets_poly_bits, <- N.shiftl_mul_pow2, N.shiftl_shiftl. reflexivity.
Qed.

Lemma same_diff : forall b1 b2 c1 c2, length b1 = length b2 -> length c1 = length c2 -> length b1 = length c1 ->
  N.lxor (num b1) (num b2) = N.lxor (num c1) (num c2) ->
  N.lxor (memcrc b1) (memcrc b2) = N.lxor (memcrc c1) (memcrc c2).
Proof.
  intros b1 b2 c1 c2 L1 L2 L3 E. destruct (octets_of_exists (N.of_nat (length b1))) as (l&Hl).
  eapply remainder_unique; [apply (diff_remainder b1 b2 l L1 Hl)|]. rewrite E. apply diff_remainder; [assumption|].
  now rewrite <- L3.
Qed.

Lemma same_crc : forall b1 b2, length b1 = length b2 ->
  (memcrc b1 = memcrc b2 <-> exists q, clmul q G = N.lxor (num b1) (num b2)).
Proof.
  intros b1 b2 L. split; [now apply memcrc_collision|]. intros (q&Q).
  destruct (octets_of_exists (N.of_nat (length b1))) as (l&Hl).
  apply N.lxor_eq. eapply remainder_unique; [apply (diff_remainder b1 b2 l L Hl)|]. split; [reflexivity|].
  exists (N.shiftl q (8 * N.of_nat (length l) + 32)). now rewrite clmul_shiftl, Q, N.lxor_0_r.
Qed.

Lemma num_app : forall a b, num (a ++ b) = num a * 2 ^ N.of_nat (8 * length b) + num b /\ num b < 2 ^ N.of_nat (8 * length b).
Proof.
  intros. unfold num, bits. rewrite flat_map_app, bits_num_app. fold (bits a) (bits b).
  rewrite <- (bits_length b). split; [reflexivity|apply bits_num_lt].
Qed.

Lemma num_context : forall a x y z, length x = length y ->
  N.lxor (num (a ++ x ++ z)) (num (a ++ y ++ z)) = N.shiftl (N.lxor (num x) (num y)) (N.of_nat (8 * length z)).
Proof.
  intros a x y z L.
  destruct (num_app a (x ++ z)) as [-> H1], (num_app a (y ++ z)) as [-> H2].
  rewrite !app_length in *. rewrite <- L in *. rewrite lxor_concat by assumption. rewrite N.lxor_nilpotent, N.mul_0_l, N.add_0_l.
  destruct (num_app x z) as [-> H3], (num_app y z) as [-> H4]. rewrite lxor_concat by assumption.
  now rewrite N.lxor_nilpotent, N.add_0_r, N.shiftl_mul_pow2.
Qed.

Lemma context_diff : forall a a' x y z z', length x = length y -> length a = length a' -> length z = length z' ->
  N.lxor (memcrc (a ++ x ++ z)) (memcrc (a ++ y ++ z)) = N.lxor (memcrc (a' ++ x ++ z')) (memcrc (a' ++ y ++ z')).
Proof.
  intros a a' x y z z' Lx La Lz. apply same_diff; try (rewrite !app_length; lia).
  rewrite !num_context by assumption. now rewrite Lz.
Qed.

Lemma context_same : forall a x y z, length x = length y ->
  (memcrc (a ++ x ++ z) = memcrc (a ++ y ++ z) <-> memcrc x = memcrc y).
Proof.
  intros a x y z L. rewrite !same_crc by (rewrite ?app_length; lia). rewrite num_context by assumption. split; intros (q&Q).
  - apply clmul_G_shift in Q as (q'&_&Q). eauto.
  - exists (N.shiftl q (N.of_nat (8 * length z))). now rewrite clmul_shiftl, Q.
Qed.

(* ---- exclusive or ---- *)
Lemma xor_text_length : forall x y, length x = length y -> length (xor_text x y) = length x.
Proof. intros. unfold xor_text. rewrite map_length, combine_length. lia. Qed.

Lemma num_cons : forall c x, num (c :: x) = N_of_ascii c * 2 ^ N.of_nat (8 * length x) + num x.
Proof.
  intros. destruct (num_app [c] x) as [E _]. cbn [app] in E. rewrite E. f_equal. f_equal.
  unfold num, bits. cbn [flat_map]. rewrite List.app_nil_r. apply byte_bits_num.
Qed.

Lemma num_xor : forall x y, length x = length y -> num (xor_text x y) = N.lxor (num x) (num y).
Proof.
  induction x as [|c x IH]; intros [|d y] L; try discriminate; [reflexivity|]. cbn [List.length] in L.
  assert (L' : length x = length y) by lia. unfold xor_text. cbn [combine map]. fold (xor_text x y).
  rewrite !num_cons, xor_text_length, IH by assumption. rewrite <- L'. rewrite lxor_concat.
  - f_equal. f_equal. unfold xor_byte. apply N_ascii_embedding.
    change 256 with (2 ^ 8). apply lxor_lt_pow2; apply N_ascii_bounded.
  - apply (num_app [] x).
  - rewrite L'. apply (num_app [] y).
Qed.

Lemma affine : forall x y z, length x = length y -> length y = length z ->
  memcrc (xor_text (xor_text x y) z) = N.lxor (N.lxor (memcrc x) (memcrc y)) (memcrc z).
Proof.
  intros x y z L1 L2.
  assert (H : N.lxor (memcrc (xor_text (xor_text x y) z)) (memcrc z) = N.lxor (memcrc x) (memcrc y)).
  { assert (L3 : length (xor_text x y) = length z) by (rewrite xor_text_length by assumption; lia).
    apply same_diff; try (rewrite xor_text_length by assumption; lia).
    - lia.
    - rewrite num_xor by assumption. rewrite num_xor by assumption.
      rewrite N.lxor_assoc, N.lxor_nilpotent. apply N.lxor_0_r. }
  rewrite <- H, N.lxor_assoc, N.lxor_nilpotent. symmetry. apply N.lxor_0_r.
Qed.
