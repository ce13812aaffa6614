(* The order of x modulo the POSIX generator, for two-bit errors (C68). *)
From Verif Require Import GoBase GoFacts CksumModel CksumSpec CksumProofs.
From Coq Require Import NArith ZArith Znumtheory Lia List.
Local Open Scope N_scope.

(* ---------- carry-less multiplication is a commutative ring product ---------- *)
Lemma clmul_double_r : forall a b, clmul a (N.double b) = N.double (clmul a b).
Proof.
  intros [|p] b; [reflexivity|]. simpl. induction p as [p IH|p IH|]; simpl; auto.
  - rewrite IH. now rewrite <- double_lxor.
  - now rewrite IH.
Qed.
Lemma clmul_lxor_r : forall a b c, clmul a (N.lxor b c) = N.lxor (clmul a b) (clmul a c).
Proof.
  intros [|p] b c; [reflexivity|]. simpl. induction p as [p IH|p IH|]; simpl; auto.
  - rewrite IH, double_lxor. apply lxor_swap.
  - now rewrite IH, double_lxor.
Qed.
Lemma succ_double_lxor : forall a, N.succ_double a = N.lxor 1 (N.double a).
Proof. intros [|p]; reflexivity. Qed.
Lemma clmul_1_r : forall a, clmul a 1 = a.
Proof.
  intros [|p]; [reflexivity|]. simpl. induction p as [p IH|p IH|]; simpl; auto; rewrite IH; reflexivity.
Qed.
Lemma clmul_0_r : forall a, clmul a 0 = 0.
Proof. intros [|p]; [reflexivity|]. simpl. induction p as [p IH|p IH|]; simpl; auto; now rewrite IH. Qed.
Lemma clmul_comm : forall a b, clmul a b = clmul b a.
Proof.
  intros [|p] b; [now rewrite clmul_0_r|].
  induction p as [p IH|p IH|].
  - change (N.pos p~1) with (N.succ_double (N.pos p)). rewrite clmul_succ_double, IH.
    now rewrite succ_double_lxor, clmul_lxor_r, clmul_1_r, clmul_double_r.
  - change (N.pos p~0) with (N.double (N.pos p)). now rewrite clmul_double, IH, clmul_double_r.
  - now rewrite clmul_1_r.
Qed.
Lemma clmul_assoc : forall a b c, clmul (clmul a b) c = clmul a (clmul b c).
Proof.
  intros [|p] b c; [reflexivity|].
  induction p as [p IH|p IH|]; auto.
  - change (N.pos p~1) with (N.succ_double (N.pos p)). rewrite !clmul_succ_double, clmul_lxor, clmul_double, IH. reflexivity.
  - change (N.pos p~0) with (N.double (N.pos p)). now rewrite !clmul_double, IH.
Qed.

Lemma x_to_add : forall m n, x_to (m + n) = clmul (x_to m) (x_to n).
Proof.
  intros. unfold x_to. rewrite clmul_shiftl, clmul_1, N.shiftl_shiftl. f_equal. lia.
Qed.

(* ---------- congruence modulo G ---------- *)
Definition cong (a b : N) : Prop := exists q, N.lxor a b = clmul q G.

Lemma cong_refl : forall a, cong a a.
Proof. intros. exists 0. apply N.lxor_nilpotent. Qed.
Lemma cong_sym : forall a b, cong a b -> cong b a.
Proof. intros a b (q&H). exists q. now rewrite N.lxor_comm. Qed.
Lemma cong_trans : forall a b c, cong a b -> cong b c -> cong a c.
Proof.
  intros a b c (q&H) (q'&H'). exists (N.lxor q q'). rewrite clmul_lxor, <- H, <- H'.
  rewrite N.lxor_assoc, <- (N.lxor_assoc b b), N.lxor_nilpotent, N.lxor_0_l. reflexivity.
Qed.
Lemma cong_mul : forall a b c d, cong a b -> cong c d -> cong (clmul a c) (clmul b d).
Proof.
  assert (L : forall a b c, cong a b -> cong (clmul a c) (clmul b c)).
  { intros a b c (q&H). exists (clmul q c). rewrite <- clmul_lxor, H.
    rewrite !clmul_assoc. f_equal. apply clmul_comm. }
  intros a b c d H1 H2. apply cong_trans with (clmul b c); [now apply L|].
  rewrite (clmul_comm b c), (clmul_comm b d). now apply L.
Qed.
Lemma cong_small : forall a b, a < 2 ^ 32 -> b < 2 ^ 32 -> cong a b -> a = b.
Proof.
  intros a b Ha Hb (q&H). assert (q = 0).
  { apply clmul_G_small. rewrite <- H. now apply lxor_lt_pow2. }
  subst. now apply N.lxor_eq.
Qed.

(* ---------- reduction and powers of x ---------- *)
Lemma divide_cong : forall n p q q' r, divide n p q = (q', r) -> cong p r.
Proof.
  induction n as [|n IH]; intros p q q' r H; simpl in H.
  - inversion H; subst. apply cong_refl.
  - destruct (N.testbit p (32 + N.of_nat n)).
    + apply IH in H. eapply cong_trans; [|exact H]. exists (N.shiftl 1 (N.of_nat n)).
      rewrite clmul_shiftl, clmul_1, <- N.lxor_assoc, N.lxor_nilpotent. apply N.lxor_0_l.
    + eapply IH; eauto.
Qed.

Definition red (p : N) : N := snd (divide 33 p 0).
Lemma red_cong : forall p, cong p (red p).
Proof. intros p. unfold red. destruct (divide 33 p 0) eqn:E. eapply divide_cong; eauto. Qed.

Fixpoint powx (m : positive) : N :=
  match m with
  | xH => 2
  | xO p => let s := powx p in red (clmul s s)
  | xI p => let s := powx p in red (N.double (red (clmul s s)))
  end.

Lemma powx_cong : forall m, cong (x_to (N.pos m)) (powx m).
Proof.
  induction m as [m IH|m IH|]; simpl powx.
  - replace (N.pos m~1) with (1 + (N.pos m + N.pos m)) by lia. rewrite !x_to_add.
    eapply cong_trans; [|apply red_cong]. 
    replace (N.double (red (clmul (powx m) (powx m)))) with (clmul (x_to 1) (red (clmul (powx m) (powx m)))).
    2:{ unfold x_to. rewrite clmul_shiftl, clmul_1. symmetry. apply double_shift. }
    apply cong_mul; [apply cong_refl|]. eapply cong_trans; [|apply red_cong]. now apply cong_mul.
  - replace (N.pos m~0) with (N.pos m + N.pos m) by lia. rewrite x_to_add.
    eapply cong_trans; [|apply red_cong]. now apply cong_mul.
  - apply cong_refl.
Qed.

Definition ord : N := 4294967295.
Definition one_at (n : N) : Prop := cong (x_to n) 1.

Lemma one_at_ord : one_at ord.
Proof. unfold one_at, ord. eapply cong_trans; [apply powx_cong|]. vm_compute. exists 0. reflexivity. Qed.

Lemma not_one_at : forall m, powx m <> 1 -> powx m < 2 ^ 32 -> ~ one_at (N.pos m).
Proof.
  intros m H1 H2 H. apply H1. apply cong_small; auto; [reflexivity|].
  eapply cong_trans; [apply cong_sym, powx_cong|exact H].
Qed.

Lemma not_one_3 : ~ one_at (ord / 3).
Proof. apply (not_one_at 1431655765); [intros H; vm_compute in H; discriminate H|vm_compute; reflexivity]. Qed.
Lemma not_one_5 : ~ one_at (ord / 5).
Proof. apply (not_one_at 858993459); [intros H; vm_compute in H; discriminate H|vm_compute; reflexivity]. Qed.
Lemma not_one_17 : ~ one_at (ord / 17).
Proof. apply (not_one_at 252645135); [intros H; vm_compute in H; discriminate H|vm_compute; reflexivity]. Qed.
Lemma not_one_257 : ~ one_at (ord / 257).
Proof. apply (not_one_at 16711935); [intros H; vm_compute in H; discriminate H|vm_compute; reflexivity]. Qed.
Lemma not_one_65537 : ~ one_at (ord / 65537).
Proof. apply (not_one_at 65535); [intros H; vm_compute in H; discriminate H|vm_compute; reflexivity]. Qed.

Lemma one_at_add : forall a b, one_at a -> one_at b -> one_at (a + b).
Proof.
  intros a b Ha Hb. unfold one_at. rewrite x_to_add. apply (cong_mul _ 1 _ 1); auto.
Qed.
Lemma one_at_mul : forall k a, one_at a -> one_at (k * a).
Proof.
  intros k a H. induction k as [|k IH] using N.peano_ind.
  - rewrite N.mul_0_l. exists 0. reflexivity.
  - rewrite N.mul_succ_l. now apply one_at_add.
Qed.
Lemma one_at_sub : forall a b, one_at (a + b) -> one_at a -> one_at b.
Proof.
  intros a b Hab Ha.
  assert (H : cong (x_to (a + b)) (x_to a)) by (eapply cong_trans; [exact Hab|now apply cong_sym]).
  destruct H as (q&H). rewrite N.add_comm in H. unfold x_to in H.
  rewrite <- N.shiftl_shiftl in H. rewrite <- N.shiftl_lxor in H.
  symmetry in H. apply clmul_G_shift in H as (q'&_&H). exists q'. symmetry. exact H.
Qed.

Lemma one_at_gcd : forall b a, one_at a -> one_at b -> one_at (N.gcd a b).
Proof.
  intros b. induction b as [b IH] using (well_founded_induction N.lt_wf_0). intros a Ha Hb.
  destruct (N.eq_dec b 0) as [->|Nb].
  - rewrite N.gcd_0_r. exact Ha.
  - rewrite N.gcd_comm, <- N.gcd_mod, N.gcd_comm by auto. apply IH; auto.
    + apply N.mod_upper_bound; auto.
    + apply (one_at_sub (b * (a / b))).
      * rewrite <- N.div_mod'. exact Ha.
      * rewrite N.mul_comm. now apply one_at_mul.
Qed.

(* ---------- the proper divisors of 2^32 - 1 ---------- *)
Fixpoint trial (n : nat) (p d : Z) : bool :=
  match n with
  | O => true
  | S k => if Z.eqb (p mod d) 0 then false else trial k p (d + 1)
  end.
Lemma trial_spec : forall n p d, trial n p d = true ->
  forall e, (d <= e < d + Z.of_nat n)%Z -> (p mod e <> 0)%Z.
Proof.
  induction n as [|n IH]; intros p d H e He; [lia|]. simpl in H.
  destruct (Z.eqb_spec (p mod d) 0); [discriminate|].
  destruct (Z.eq_dec e d) as [->|]; auto. apply (IH p (d + 1)%Z H). lia.
Qed.
Lemma prime_by_trial : forall p, (1 < p)%Z -> trial (Z.to_nat (p - 2)) p 2 = true -> prime p.
Proof.
  intros p Hp H. apply prime_alt. split; auto. intros n Hn D.
  apply Zdivide_mod in D. revert D. apply (trial_spec _ _ _ H). lia.
Qed.

Lemma prime_3' : prime 3. Proof. apply prime_by_trial; [lia|vm_compute; reflexivity]. Qed.
Lemma prime_5' : prime 5. Proof. apply prime_by_trial; [lia|vm_compute; reflexivity]. Qed.
Lemma prime_17 : prime 17. Proof. apply prime_by_trial; [lia|vm_compute; reflexivity]. Qed.
Lemma prime_257 : prime 257. Proof. apply prime_by_trial; [lia|vm_compute; reflexivity]. Qed.
Lemma prime_65537 : prime 65537. Proof. apply prime_by_trial; [lia|vm_compute; reflexivity]. Qed.

Lemma not_div_rel_prime : forall p h, prime p -> ~ (p | h)%Z -> rel_prime h p.
Proof. intros p h P H. apply rel_prime_sym. now apply prime_rel_prime. Qed.

Lemma proper_divisor : forall g h : Z, (0 < g)%Z -> (1 < h)%Z -> (g * h = 4294967295)%Z ->
  exists p, In p [3; 5; 17; 257; 65537]%Z /\ (g | 4294967295 / p)%Z.
Proof.
  intros g h Hg Hh E.
  assert (D : exists p, In p [3; 5; 17; 257; 65537]%Z /\ (p | h)%Z).
  { destruct (Zdivide_dec 3 h) as [|N3]; [exists 3%Z; split; [simpl; tauto|assumption]|].
    destruct (Zdivide_dec 5 h) as [|N5]; [exists 5%Z; split; [simpl; tauto|assumption]|].
    destruct (Zdivide_dec 17 h) as [|N17]; [exists 17%Z; split; [simpl; tauto|assumption]|].
    destruct (Zdivide_dec 257 h) as [|N257]; [exists 257%Z; split; [simpl; tauto|assumption]|].
    destruct (Zdivide_dec 65537 h) as [|N65537]; [exists 65537%Z; split; [simpl; tauto|assumption]|].
    exfalso.
    assert (R : rel_prime h (3 * (5 * (17 * (257 * 65537))))).
    { repeat apply rel_prime_mult; apply not_div_rel_prime; auto;
      [apply prime_3'|apply prime_5'|apply prime_17|apply prime_257|apply prime_65537]. }
    change (3 * (5 * (17 * (257 * 65537))))%Z with 4294967295%Z in R.
    destruct R as [_ _ R]. assert (H1 : (h | 1)%Z).
    { apply R; [apply Z.divide_refl|]. exists g. lia. }
    apply Z.divide_1_r in H1. lia. }
  destruct D as (p&Hp&(k&Hk)). exists p. split; auto. exists k.
  assert (p <> 0)%Z by (simpl in Hp; intuition lia).
  symmetry. rewrite <- E, Hk. replace (g * (k * p))%Z with (k * g * p)%Z by lia. symmetry. now rewrite Z.div_mul.
Qed.

Lemma order_of_x : forall m, 0 < m < ord -> ~ one_at m.
Proof.
  intros m Hm H.
  assert (Hg := one_at_gcd ord m H one_at_ord).
  set (g := N.gcd m ord) in *.
  assert (D1 : N.divide g m) by apply N.gcd_divide_l.
  assert (D2 : N.divide g ord) by apply N.gcd_divide_r.
  destruct D2 as (h&Eh).
  assert (Lg : g <= m) by (apply N.divide_pos_le; [lia|auto]).
  assert (Pg : 0 < g).
  { destruct (N.eq_dec g 0) as [Z|]; [|lia]. rewrite Z in Eh. unfold ord in Eh. lia. }
  assert (Hh : 1 < h).
  { destruct (N.le_gt_cases h 1) as [C|C]; auto. exfalso. assert (h = 0 \/ h = 1) as [->| ->] by lia; unfold ord in *; lia. }
  destruct (proper_divisor (Z.of_N g) (Z.of_N h)) as (p&Hp&(k&Hk)).
  - lia.
  - lia.
  - unfold ord in Eh. lia.
  - assert (O : one_at (Z.to_N (4294967295 / p))).
    { rewrite Hk. rewrite Z2N.inj_mul.
      - rewrite N2Z.id. now apply one_at_mul.
      - assert (0 <= k * Z.of_N g)%Z.
        { rewrite <- Hk. apply Z.div_pos; [lia|]. simpl in Hp. intuition lia. }
        nia.
      - lia. }
    simpl in Hp. destruct Hp as [<-|[<-|[<-|[<-|[<-|[]]]]]].
    + apply not_one_3. exact O.
    + apply not_one_5. exact O.
    + apply not_one_17. exact O.
    + apply not_one_257. exact O.
    + apply not_one_65537. exact O.
Qed.

(* ---------- two-bit errors ---------- *)
Lemma bit_flip_num : forall x y : bool, x <> y -> forall l,
  N.lxor (bits_num (x :: l)) (bits_num (y :: l)) = 2 ^ N.of_nat (length l).
Proof.
  intros x y H l. change (x :: l) with ([x] ++ l). change (y :: l) with ([y] ++ l).
  rewrite !bits_num_app, lxor_concat by apply bits_num_lt. rewrite N.lxor_nilpotent, N.add_0_r.
  destruct x, y; try congruence; unfold bits_num; simpl; lia.
Qed.

Lemma memcrc_two_bits : forall b1 b2, two_bits_differ b1 b2 -> length b1 = length b2 ->
  8 * N.of_nat (length b1) < 2 ^ 32 -> memcrc b1 <> memcrc b2.
Proof.
  intros b1 b2 (pre&x&y&mid&z&w&post&E1&E2&Nx&Nz) L Sz E.
  destruct (memcrc_collision b1 b2 L E) as (q&Q).
  rewrite E1, E2 in Q.
  assert (Lm : N.of_nat (S (length mid)) < ord).
  { pose proof (bits_length b1) as BL. rewrite E1, !app_length in BL. simpl in BL. rewrite app_length in BL.
    simpl in BL. unfold ord. change (2 ^ 32) with 4294967296 in Sz. lia. }
  assert (D : N.lxor (bits_num (pre ++ x :: mid ++ z :: post)) (bits_num (pre ++ y :: mid ++ w :: post)) =
     N.lxor (2 ^ (N.of_nat (length (mid ++ z :: post)))) (2 ^ N.of_nat (length post))).
  { rewrite !bits_num_app.
    change (x :: mid ++ z :: post) with ((x :: mid) ++ z :: post).
    change (y :: mid ++ w :: post) with ((y :: mid) ++ w :: post).
    replace (length ((y :: mid) ++ w :: post)) with (length ((x :: mid) ++ z :: post)) by (rewrite !app_length; reflexivity).
    rewrite lxor_concat.
    2:{ apply bits_num_lt. }
    2:{ replace (length ((x :: mid) ++ z :: post)) with (length ((y :: mid) ++ w :: post)) by (rewrite !app_length; reflexivity).
        apply bits_num_lt. }
    rewrite N.lxor_nilpotent, N.mul_0_l, N.add_0_l, !bits_num_app.
    change (length (w :: post)) with (length (z :: post)).
    rewrite lxor_concat; [|apply bits_num_lt|change (length (z :: post)) with (length (w :: post)); apply bits_num_lt].
    rewrite (bit_flip_num x y Nx), (bit_flip_num z w Nz).
    rewrite <- N.pow_add_r.
    rewrite app_length. rewrite Nat2N.inj_add.
    assert (P : 2 ^ N.of_nat (length post) < 2 ^ (N.of_nat (length mid) + N.of_nat (length (z :: post)))).
    { apply N.pow_lt_mono_r; [lia|]. simpl length. lia. }
    apply N.add_nocarry_lxor. apply N.bits_inj. intros n. rewrite N.land_spec, N.bits_0, !N.pow2_bits_eqb.
    destruct (N.eqb_spec (N.of_nat (length mid) + N.of_nat (length (z :: post))) n);
    destruct (N.eqb_spec (N.of_nat (length post)) n); auto. exfalso. simpl length in *. lia. }
  rewrite D in Q. rewrite app_length in Q. simpl length in Q.
  replace (N.of_nat (length mid + S (length post))) with (N.of_nat (S (length mid)) + N.of_nat (length post)) in Q by lia.
  rewrite N.pow_add_r in Q.
  assert (F : N.lxor (2 ^ N.of_nat (S (length mid)) * 2 ^ N.of_nat (length post)) (2 ^ N.of_nat (length post))
     = N.shiftl (N.lxor (x_to (N.of_nat (S (length mid)))) 1) (N.of_nat (length post))).
  { rewrite N.shiftl_lxor. unfold x_to. rewrite !N.shiftl_mul_pow2, !N.mul_1_l. reflexivity. }
  rewrite F in Q. apply clmul_G_shift in Q as (q'&_&Q).
  apply (order_of_x (N.of_nat (S (length mid)))); [lia|]. exists q'. now symmetry.
Qed.
