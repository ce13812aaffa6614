(* Property C166: the comparisons of test related to each other, run against run. *)
From Verif Require Import GoBase GoFacts NumFacts TestModel TestSpec TestProofs TestProps EdProofs2.

(* the expression a o b is true, false *)
Definition yes (w : world) (a o b : bytes) : Prop := status w [a; o; b] = 0%Z.
Definition no (w : world) (a o b : bytes) : Prop := status w [a; o; b] = 1%Z.

Lemma eq_yes : forall w a b, ~ operator_like a -> (yes w a (B "=") b <-> a = b) /\ (no w a (B "=") b <-> a <> b).
Proof.
  intros w a b N. destruct (truth_status w [a; B "="; b] (a = b)) as [Y Z]; [apply binary_ok; [apply b_eq|auto]|].
  unfold yes, no. destruct (list_eq_dec ascii_dec a b) as [E|E].
  - rewrite (Y E). intuition discriminate.
  - rewrite (Z E). intuition discriminate.
Qed.
Lemma ne_yes : forall w a b, ~ operator_like a -> (yes w a (B "!=") b <-> a <> b) /\ (no w a (B "!=") b <-> a = b).
Proof.
  intros w a b N. destruct (truth_status w [a; B "!="; b] (a <> b)) as [Y Z]; [apply binary_ok; [apply b_ne|auto]|].
  unfold yes, no. destruct (list_eq_dec ascii_dec a b) as [E|E].
  - rewrite Z by auto. intuition discriminate.
  - rewrite (Y E). intuition discriminate.
Qed.
Lemma num_yes : forall w op R a b x y, num_op op R -> int_text a x -> int_text b y ->
  (R x y \/ ~ R x y) -> (yes w a op b <-> R x y) /\ (no w a op b <-> ~ R x y).
Proof.
  intros w op R a b x y O A Bt D. destruct (C30_integer_comparisons w op R a b x y O A Bt) as [Y Z].
  unfold yes, no. destruct D as [D|D].
  - rewrite (Y D). intuition discriminate.
  - rewrite (Z D). intuition discriminate.
Qed.

(* C166 refuted: an empty string is not equal to itself, and neither equal to anything nor different from it;
   so = is not reflexive and != is not its negation. *)
Theorem C166_empty_refuted : forall w b, no w [] (B "=") b /\ no w [] (B "!=") b /\
  no w [] (B "=") [] /\ (~ operator_like b -> no w b (B "=") [] /\ yes w b (B "!=") []).
Proof.
  intros w b. repeat (split; [reflexivity|]). intros N. split.
  - apply eq_yes; auto. intros ->. apply N. now left.
  - apply ne_yes; auto. intros ->. apply N. now left.
Qed.
Print Assumptions C166_empty_refuted.
(* C166 refuted: -n is equal to and different from everything, -z neither; so = is not symmetric either. *)
Theorem C166_operators_refuted : forall w b,
  yes w (B "-n") (B "=") b /\ yes w (B "-n") (B "!=") b /\ no w (B "-z") (B "=") b /\ no w (B "-z") (B "!=") b /\
  (~ operator_like b -> no w b (B "=") (B "-n") /\ yes w b (B "!=") (B "-n")).
Proof.
  intros w b. repeat (split; [reflexivity|]). intros N.
  assert (Q : b <> B "-n").
  { intros ->. apply N. right. right. exists "n"%char. split; [|reflexivity]. cbn. tauto. }
  split; [now apply eq_yes|now apply ne_yes].
Qed.
Print Assumptions C166_operators_refuted.

(* C166, strings: among operands that are not empty and do not look like operators, = is an equivalence, != is
   its negation and the same as a negated =, and equal operands can be exchanged in every comparison. *)
Theorem C166_strings_partial : forall w a b c, ~ operator_like a -> ~ operator_like b -> ~ operator_like c ->
  yes w a (B "=") a /\ (yes w a (B "=") b -> yes w b (B "=") a) /\
  (yes w a (B "=") b -> yes w b (B "=") c -> yes w a (B "=") c) /\
  (yes w a (B "=") b <-> no w a (B "!=") b) /\ (no w a (B "=") b <-> yes w a (B "!=") b) /\
  test_main w [B "!"; a; B "="; b] = test_main w [a; B "!="; b] /\
  (yes w a (B "=") b -> forall o d, test_main w [a; o; d] = test_main w [b; o; d] /\ test_main w [d; o; a] = test_main w [d; o; b]).
Proof.
  intros w a b c Na Nb Nc.
  destruct (eq_yes w a a Na) as [Eaa _], (eq_yes w a b Na) as [Eab Eab'], (eq_yes w b a Nb) as [Eba _],
    (eq_yes w b c Nb) as [Ebc _], (eq_yes w a c Na) as [Eac _], (ne_yes w a b Na) as [Dab Dab'].
  rewrite Eaa, Eab, Eba, Ebc, Eac, Eab', Dab, Dab'.
  split; [reflexivity|]. split; [congruence|]. split; [congruence|]. split; [tauto|]. split; [tauto|]. split.
  - unfold test_main. rewrite parse_bang by discriminate.
    assert (Q : beqb a [] = false /\ beqb a (B "!") = false /\ prefix_of a = None).
    { repeat split.
      - destruct (beqb a []) eqn:E; auto. apply beqb_spec in E. elim Na. now left.
      - destruct (beqb a (B "!")) eqn:E; auto. apply beqb_spec in E. elim Na. right. now left.
      - destruct (prefix_of a) eqn:E; auto. elim Na. apply operator_like_prefix. right. right. eauto. }
    destruct Q as (Q1&Q2&Q3). rewrite !parse_cons, Q1, Q2, Q3. reflexivity.
  - intros ->. auto.
Qed.
Print Assumptions C166_strings_partial.

(* C166, integers: exactly one of -lt, -eq, -gt is true of two integers in any notation; -ge, -ne and -le are
   their negations; swapping the operands turns -lt into -gt and -le into -ge. *)
Theorem C166_trichotomy : forall w a b x y, int_text a x -> int_text b y ->
  ((yes w a (B "-lt") b /\ no w a (B "-eq") b /\ no w a (B "-gt") b) \/
   (no w a (B "-lt") b /\ yes w a (B "-eq") b /\ no w a (B "-gt") b) \/
   (no w a (B "-lt") b /\ no w a (B "-eq") b /\ yes w a (B "-gt") b)) /\
  (yes w a (B "-ge") b <-> no w a (B "-lt") b) /\ (yes w a (B "-ne") b <-> no w a (B "-eq") b) /\
  (yes w a (B "-le") b <-> no w a (B "-gt") b) /\
  (yes w a (B "-lt") b <-> yes w b (B "-gt") a) /\ (yes w a (B "-le") b <-> yes w b (B "-ge") a) /\
  (yes w a (B "-eq") b <-> yes w b (B "-eq") a).
Proof.
  intros w a b x y A Bt.
  destruct (num_yes w _ _ a b x y n_lt A Bt ltac:(cbv beta; lia)) as [L L'], (num_yes w _ _ a b x y n_eq A Bt ltac:(cbv beta; lia)) as [E E'],
    (num_yes w _ _ a b x y n_gt A Bt ltac:(cbv beta; lia)) as [G G'], (num_yes w _ _ a b x y n_ge A Bt ltac:(cbv beta; lia)) as [GE _],
    (num_yes w _ _ a b x y n_ne A Bt ltac:(cbv beta; lia)) as [NE _], (num_yes w _ _ a b x y n_le A Bt ltac:(cbv beta; lia)) as [LE _],
    (num_yes w _ _ b a y x n_gt Bt A ltac:(cbv beta; lia)) as [RG _], (num_yes w _ _ b a y x n_ge Bt A ltac:(cbv beta; lia)) as [RGE _],
    (num_yes w _ _ b a y x n_eq Bt A ltac:(cbv beta; lia)) as [RE _].
  rewrite L, L', E, E', G, G', GE, NE, LE, RG, RGE, RE. cbv beta. lia.
Qed.
Print Assumptions C166_trichotomy.
(* C166, integers: -le is a total order up to -eq, and -eq integers can be exchanged in every comparison of
   integers. *)
Theorem C166_order : forall w a b c x y z, int_text a x -> int_text b y -> int_text c z ->
  yes w a (B "-le") a /\ (yes w a (B "-le") b \/ yes w b (B "-le") a) /\
  (yes w a (B "-le") b -> yes w b (B "-le") c -> yes w a (B "-le") c) /\
  (yes w a (B "-lt") b -> yes w b (B "-le") c -> yes w a (B "-lt") c) /\
  (yes w a (B "-le") b -> yes w b (B "-lt") c -> yes w a (B "-lt") c) /\
  (yes w a (B "-le") b /\ yes w b (B "-le") a <-> yes w a (B "-eq") b) /\
  (yes w a (B "-eq") b -> forall op R, num_op op R ->
     status w [a; op; c] = status w [b; op; c] /\ status w [c; op; a] = status w [c; op; b]).
Proof.
  intros w a b c x y z A Bt C.
  destruct (num_yes w _ _ a a x x n_le A A ltac:(cbv beta; lia)) as [Laa _], (num_yes w _ _ a b x y n_le A Bt ltac:(cbv beta; lia)) as [Lab _],
    (num_yes w _ _ b a y x n_le Bt A ltac:(cbv beta; lia)) as [Lba _], (num_yes w _ _ b c y z n_le Bt C ltac:(cbv beta; lia)) as [Lbc _],
    (num_yes w _ _ a c x z n_le A C ltac:(cbv beta; lia)) as [Lac _], (num_yes w _ _ a b x y n_lt A Bt ltac:(cbv beta; lia)) as [Sab _],
    (num_yes w _ _ b c y z n_lt Bt C ltac:(cbv beta; lia)) as [Sbc _], (num_yes w _ _ a c x z n_lt A C ltac:(cbv beta; lia)) as [Sac _],
    (num_yes w _ _ a b x y n_eq A Bt ltac:(cbv beta; lia)) as [Eab _].
  rewrite Laa, Lab, Lba, Lbc, Lac, Sab, Sbc, Sac, Eab. cbv beta.
  split; [lia|]. split; [lia|]. split; [lia|]. split; [lia|]. split; [lia|]. split; [lia|].
  intros -> op R O.
  assert (D : forall u v, R u v \/ ~ R u v) by (intros u v; destruct O; lia).
  destruct (C30_integer_comparisons w op R a c y z O A C) as [Y1 N1],
    (C30_integer_comparisons w op R b c y z O Bt C) as [Y2 N2],
    (C30_integer_comparisons w op R c a z y O C A) as [Y3 N3],
    (C30_integer_comparisons w op R c b z y O C Bt) as [Y4 N4].
  split.
  - destruct (D y z) as [K|K]; [rewrite Y1, Y2|rewrite N1, N2]; auto.
  - destruct (D z y) as [K|K]; [rewrite Y3, Y4|rewrite N3, N4]; auto.
Qed.
Print Assumptions C166_order.
(* C166: equal strings are equal integers; the converse fails for every integer that is not negative, which can be
   written with a leading zero. *)
Theorem C166_two_equalities : forall w a b x, int_text a x -> int_text b x ->
  yes w a (B "-eq") b /\ (yes w a (B "=") b <-> a = b) /\
  ((0 <= x)%Z -> int_text ("0"%char :: itoa x) x /\ yes w (itoa x) (B "-eq") ("0"%char :: itoa x) /\
     no w (itoa x) (B "=") ("0"%char :: itoa x)).
Proof.
  intros w a b x A Bt.
  assert (N : forall t u, int_text t u -> ~ operator_like t).
  { intros t u [T _] K. apply operator_like_prefix in K. destruct (num_prefix _ _ T) as (P1&P2&P3).
    destruct K as [K|[K|(f&K)]]; [subst; discriminate|subst; discriminate|congruence]. }
  split; [apply (num_yes w _ _ a b x x n_eq A Bt); lia|]. split; [apply eq_yes; eauto|].
  intros X. pose proof A as [_ R].
  assert (I1 : int_text (itoa x) x) by (split; [apply numeral_itoa|exact R]).
  assert (I2 : int_text ("0"%char :: itoa x) x).
  { split; [|exact R]. destruct (numeral_itoa x) as (s&d&E&D&F&K). 
    assert (Z : itoa x = utoa (Z.to_N x)).
    { unfold itoa. destruct (x <? 0)%Z eqn:Q; [lia|reflexivity]. }
    assert (S : s = []).
    { destruct s as [|c s]; [reflexivity|exfalso].
      assert (G : is_digit c) by (apply (utoa_digits (Z.to_N x)); rewrite <- Z, E; now left).
      destruct K as [[[K|K] _]|[K _]]; try discriminate; injection K as -> _; destruct G as [v G]; discriminate. }
    subst s. destruct K as [[_ K]|[K _]]; [|discriminate]. exists [], ("0"%char :: d).
    split; [now rewrite E|]. split; [discriminate|]. split; [constructor; [split; discriminate|auto]|].
    left. split; [auto|]. rewrite K. reflexivity. }
  split; auto. split; [apply (num_yes w _ _ _ _ x x n_eq I1 I2); lia|].
  apply eq_yes; [eauto|]. intros K. apply (f_equal (@List.length ascii)) in K. cbn in K. lia.
Qed.
Print Assumptions C166_two_equalities.

Example C166_nonvacuous : forall w, (~ operator_like (B "a b")) /\ (~ operator_like (B "=")) /\ yes w (B "=") (B "=") (B "=") /\
  int_text (B "-7") (-7) /\ int_text (B "+08") 8 /\ yes w (B "-7") (B "-lt") (B "+08") /\ no w (B "+08") (B "=") (B "8") /\
  yes w (B "+08") (B "-eq") (B "8").
Proof.
  intros w. split; [intros [H|[H|(c&_&H)]]; discriminate|]. split; [intros [H|[H|(c&_&H)]]; discriminate|].
  split; [reflexivity|]. split; [split; [apply (numeral_itoa (-7))|split; discriminate]|].
  split; [|repeat split; vm_compute; reflexivity]. split; [|split; discriminate].
  exists (B "+"), (B "08"). split; [reflexivity|]. split; [discriminate|].
  split; [repeat (constructor; [split; discriminate|]); constructor|]. left. split; auto.
Qed.
