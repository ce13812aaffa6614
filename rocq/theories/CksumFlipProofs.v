(* The smallest number of terms of a multiple of the POSIX generator, by its degree (C127). *)
From Verif Require Import GoBase GoFacts CksumModel CksumSpec CksumFlipSpec CksumProofs CksumOrderProofs.
From Coq Require Import NArith ZArith Lia List.
Local Open Scope N_scope.

(* ---------- words of hexadecimal digits, lowest first, and sets of them ---------- *)
Inductive digit := x0 | x1 | x2 | x3 | x4 | x5 | x6 | x7 | x8 | x9 | xa | xb | xc | xd | xe | xf.
Definition xor_digit (a b : digit) : digit :=
  match a with
  | x0 => b
  | x1 => match b with x0 => x1 | x1 => x0 | x2 => x3 | x3 => x2 | x4 => x5 | x5 => x4 | x6 => x7 | x7 => x6 | x8 => x9 | x9 => x8 | xa => xb | xb => xa | xc => xd | xd => xc | xe => xf | xf => xe end
  | x2 => match b with x0 => x2 | x1 => x3 | x2 => x0 | x3 => x1 | x4 => x6 | x5 => x7 | x6 => x4 | x7 => x5 | x8 => xa | x9 => xb | xa => x8 | xb => x9 | xc => xe | xd => xf | xe => xc | xf => xd end
  | x3 => match b with x0 => x3 | x1 => x2 | x2 => x1 | x3 => x0 | x4 => x7 | x5 => x6 | x6 => x5 | x7 => x4 | x8 => xb | x9 => xa | xa => x9 | xb => x8 | xc => xf | xd => xe | xe => xd | xf => xc end
  | x4 => match b with x0 => x4 | x1 => x5 | x2 => x6 | x3 => x7 | x4 => x0 | x5 => x1 | x6 => x2 | x7 => x3 | x8 => xc | x9 => xd | xa => xe | xb => xf | xc => x8 | xd => x9 | xe => xa | xf => xb end
  | x5 => match b with x0 => x5 | x1 => x4 | x2 => x7 | x3 => x6 | x4 => x1 | x5 => x0 | x6 => x3 | x7 => x2 | x8 => xd | x9 => xc | xa => xf | xb => xe | xc => x9 | xd => x8 | xe => xb | xf => xa end
  | x6 => match b with x0 => x6 | x1 => x7 | x2 => x4 | x3 => x5 | x4 => x2 | x5 => x3 | x6 => x0 | x7 => x1 | x8 => xe | x9 => xf | xa => xc | xb => xd | xc => xa | xd => xb | xe => x8 | xf => x9 end
  | x7 => match b with x0 => x7 | x1 => x6 | x2 => x5 | x3 => x4 | x4 => x3 | x5 => x2 | x6 => x1 | x7 => x0 | x8 => xf | x9 => xe | xa => xd | xb => xc | xc => xb | xd => xa | xe => x9 | xf => x8 end
  | x8 => match b with x0 => x8 | x1 => x9 | x2 => xa | x3 => xb | x4 => xc | x5 => xd | x6 => xe | x7 => xf | x8 => x0 | x9 => x1 | xa => x2 | xb => x3 | xc => x4 | xd => x5 | xe => x6 | xf => x7 end
  | x9 => match b with x0 => x9 | x1 => x8 | x2 => xb | x3 => xa | x4 => xd | x5 => xc | x6 => xf | x7 => xe | x8 => x1 | x9 => x0 | xa => x3 | xb => x2 | xc => x5 | xd => x4 | xe => x7 | xf => x6 end
  | xa => match b with x0 => xa | x1 => xb | x2 => x8 | x3 => x9 | x4 => xe | x5 => xf | x6 => xc | x7 => xd | x8 => x2 | x9 => x3 | xa => x0 | xb => x1 | xc => x6 | xd => x7 | xe => x4 | xf => x5 end
  | xb => match b with x0 => xb | x1 => xa | x2 => x9 | x3 => x8 | x4 => xf | x5 => xe | x6 => xd | x7 => xc | x8 => x3 | x9 => x2 | xa => x1 | xb => x0 | xc => x7 | xd => x6 | xe => x5 | xf => x4 end
  | xc => match b with x0 => xc | x1 => xd | x2 => xe | x3 => xf | x4 => x8 | x5 => x9 | x6 => xa | x7 => xb | x8 => x4 | x9 => x5 | xa => x6 | xb => x7 | xc => x0 | xd => x1 | xe => x2 | xf => x3 end
  | xd => match b with x0 => xd | x1 => xc | x2 => xf | x3 => xe | x4 => x9 | x5 => x8 | x6 => xb | x7 => xa | x8 => x5 | x9 => x4 | xa => x7 | xb => x6 | xc => x1 | xd => x0 | xe => x3 | xf => x2 end
  | xe => match b with x0 => xe | x1 => xf | x2 => xc | x3 => xd | x4 => xa | x5 => xb | x6 => x8 | x7 => x9 | x8 => x6 | x9 => x7 | xa => x4 | xb => x5 | xc => x2 | xd => x3 | xe => x0 | xf => x1 end
  | xf => match b with x0 => xf | x1 => xe | x2 => xd | x3 => xc | x4 => xb | x5 => xa | x6 => x9 | x7 => x8 | x8 => x7 | x9 => x6 | xa => x5 | xb => x4 | xc => x3 | xd => x2 | xe => x1 | xf => x0 end
  end.
Definition digit_of (b3 b2 b1 b0 : bool) : digit :=
  (if b3 then (if b2 then (if b1 then (if b0 then xf else xe) else (if b0 then xd else xc)) else (if b1 then (if b0 then xb else xa) else (if b0 then x9 else x8))) else (if b2 then (if b1 then (if b0 then x7 else x6) else (if b0 then x5 else x4)) else (if b1 then (if b0 then x3 else x2) else (if b0 then x1 else x0)))).
Lemma xor_digit_of : forall a3 a2 a1 a0 b3 b2 b1 b0,
  xor_digit (digit_of a3 a2 a1 a0) (digit_of b3 b2 b1 b0) = digit_of (xorb a3 b3) (xorb a2 b2) (xorb a1 b1) (xorb a0 b0).
Proof. intros [|] [|] [|] [|] [|] [|] [|] [|]; reflexivity. Qed.
Fixpoint word (k : nat) (n : N) : list digit :=
  match k with O => [] | S k => digit_of (N.testbit n 3) (N.testbit n 2) (N.testbit n 1) (N.testbit n 0) :: word k (N.shiftr n 4) end.
Fixpoint plus (a b : list digit) : list digit :=
  match a, b with x :: a, y :: b => xor_digit x y :: plus a b | _, _ => [] end.
Lemma word_plus : forall k a b, word k (N.lxor a b) = plus (word k a) (word k b).
Proof.
  induction k as [|k IH]; intros a b; [reflexivity|]. cbn [word plus]. rewrite xor_digit_of, N.shiftr_lxor, IH.
  now rewrite !N.lxor_spec.
Qed.
Inductive trie := Leaf | Node (t0 t1 t2 t3 t4 t5 t6 t7 t8 t9 ta tb tc td te tf : trie).
Definition pick (d : digit) (t : trie) : trie :=
  match t with
  | Leaf => Leaf
  | Node t0 t1 t2 t3 t4 t5 t6 t7 t8 t9 ta tb tc td te tf =>
      match d with x0 => t0 | x1 => t1 | x2 => t2 | x3 => t3 | x4 => t4 | x5 => t5 | x6 => t6 | x7 => t7 | x8 => t8 | x9 => t9 | xa => ta | xb => tb | xc => tc | xd => td | xe => te | xf => tf end
  end.
Definition put (d : digit) (x t : trie) : trie :=
  match t with
  | Leaf => match d with
    | x0 => Node x Leaf Leaf Leaf Leaf Leaf Leaf Leaf Leaf Leaf Leaf Leaf Leaf Leaf Leaf Leaf
    | x1 => Node Leaf x Leaf Leaf Leaf Leaf Leaf Leaf Leaf Leaf Leaf Leaf Leaf Leaf Leaf Leaf
    | x2 => Node Leaf Leaf x Leaf Leaf Leaf Leaf Leaf Leaf Leaf Leaf Leaf Leaf Leaf Leaf Leaf
    | x3 => Node Leaf Leaf Leaf x Leaf Leaf Leaf Leaf Leaf Leaf Leaf Leaf Leaf Leaf Leaf Leaf
    | x4 => Node Leaf Leaf Leaf Leaf x Leaf Leaf Leaf Leaf Leaf Leaf Leaf Leaf Leaf Leaf Leaf
    | x5 => Node Leaf Leaf Leaf Leaf Leaf x Leaf Leaf Leaf Leaf Leaf Leaf Leaf Leaf Leaf Leaf
    | x6 => Node Leaf Leaf Leaf Leaf Leaf Leaf x Leaf Leaf Leaf Leaf Leaf Leaf Leaf Leaf Leaf
    | x7 => Node Leaf Leaf Leaf Leaf Leaf Leaf Leaf x Leaf Leaf Leaf Leaf Leaf Leaf Leaf Leaf
    | x8 => Node Leaf Leaf Leaf Leaf Leaf Leaf Leaf Leaf x Leaf Leaf Leaf Leaf Leaf Leaf Leaf
    | x9 => Node Leaf Leaf Leaf Leaf Leaf Leaf Leaf Leaf Leaf x Leaf Leaf Leaf Leaf Leaf Leaf
    | xa => Node Leaf Leaf Leaf Leaf Leaf Leaf Leaf Leaf Leaf Leaf x Leaf Leaf Leaf Leaf Leaf
    | xb => Node Leaf Leaf Leaf Leaf Leaf Leaf Leaf Leaf Leaf Leaf Leaf x Leaf Leaf Leaf Leaf
    | xc => Node Leaf Leaf Leaf Leaf Leaf Leaf Leaf Leaf Leaf Leaf Leaf Leaf x Leaf Leaf Leaf
    | xd => Node Leaf Leaf Leaf Leaf Leaf Leaf Leaf Leaf Leaf Leaf Leaf Leaf Leaf x Leaf Leaf
    | xe => Node Leaf Leaf Leaf Leaf Leaf Leaf Leaf Leaf Leaf Leaf Leaf Leaf Leaf Leaf x Leaf
    | xf => Node Leaf Leaf Leaf Leaf Leaf Leaf Leaf Leaf Leaf Leaf Leaf Leaf Leaf Leaf Leaf x
    end
  | Node t0 t1 t2 t3 t4 t5 t6 t7 t8 t9 ta tb tc td te tf => match d with
    | x0 => Node x t1 t2 t3 t4 t5 t6 t7 t8 t9 ta tb tc td te tf
    | x1 => Node t0 x t2 t3 t4 t5 t6 t7 t8 t9 ta tb tc td te tf
    | x2 => Node t0 t1 x t3 t4 t5 t6 t7 t8 t9 ta tb tc td te tf
    | x3 => Node t0 t1 t2 x t4 t5 t6 t7 t8 t9 ta tb tc td te tf
    | x4 => Node t0 t1 t2 t3 x t5 t6 t7 t8 t9 ta tb tc td te tf
    | x5 => Node t0 t1 t2 t3 t4 x t6 t7 t8 t9 ta tb tc td te tf
    | x6 => Node t0 t1 t2 t3 t4 t5 x t7 t8 t9 ta tb tc td te tf
    | x7 => Node t0 t1 t2 t3 t4 t5 t6 x t8 t9 ta tb tc td te tf
    | x8 => Node t0 t1 t2 t3 t4 t5 t6 t7 x t9 ta tb tc td te tf
    | x9 => Node t0 t1 t2 t3 t4 t5 t6 t7 t8 x ta tb tc td te tf
    | xa => Node t0 t1 t2 t3 t4 t5 t6 t7 t8 t9 x tb tc td te tf
    | xb => Node t0 t1 t2 t3 t4 t5 t6 t7 t8 t9 ta x tc td te tf
    | xc => Node t0 t1 t2 t3 t4 t5 t6 t7 t8 t9 ta tb x td te tf
    | xd => Node t0 t1 t2 t3 t4 t5 t6 t7 t8 t9 ta tb tc x te tf
    | xe => Node t0 t1 t2 t3 t4 t5 t6 t7 t8 t9 ta tb tc td x tf
    | xf => Node t0 t1 t2 t3 t4 t5 t6 t7 t8 t9 ta tb tc td te x
    end
  end.
Lemma pick_put : forall d x t, pick d (put d x t) = x.
Proof. intros [] x []; reflexivity. Qed.
Lemma pick_put_other : forall d e x t, d <> e -> pick e (put d x t) = pick e t.
Proof. intros [] [] x [] N; try reflexivity; now destruct N. Qed.
Lemma put_node : forall d x t, put d x t <> Leaf.
Proof. intros [] x []; discriminate. Qed.
Definition is_leaf (t : trie) : bool := match t with Leaf => true | _ => false end.
(* is a in t, is a + b in t; t with a *)
Fixpoint mem (a : list digit) (t : trie) : bool :=
  if is_leaf t then false else match a with [] => true | x :: a => mem a (pick x t) end.
Fixpoint mem2 (a b : list digit) (t : trie) : bool :=
  if is_leaf t then false else match a, b with x :: a, y :: b => mem2 a b (pick (xor_digit x y) t) | _, _ => true end.
Fixpoint add (a : list digit) (t : trie) : trie :=
  match a with [] => if is_leaf t then put x0 Leaf t else t | x :: a => put x (add a (pick x t)) t end.
Lemma mem2_plus : forall a b t, mem2 a b t = mem (plus a b) t.
Proof.
  induction a as [|x a IH]; intros [|y b] t; cbn [mem2 plus mem]; try reflexivity. destruct (is_leaf t); [reflexivity|apply IH].
Qed.
Lemma put_leaf : forall d x t, is_leaf (put d x t) = false.
Proof. intros d x t. pose proof (put_node d x t). now destruct (put d x t). Qed.
Lemma mem_add : forall a t, mem a (add a t) = true.
Proof.
  induction a as [|x a IH]; intros t; cbn [add mem].
  - destruct (is_leaf t) eqn:E; [now rewrite put_leaf|now rewrite E].
  - rewrite put_leaf, pick_put. apply IH.
Qed.
Lemma digit_eq : forall d e : digit, {d = e} + {d <> e}. Proof. decide equality. Qed.
Lemma mem_add_keep : forall a b t, mem b t = true -> mem b (add a t) = true.
Proof.
  induction a as [|x a IH]; intros b t H; cbn [add].
  - destruct (is_leaf t) eqn:E; [|exact H]. destruct b; cbn [mem] in H; rewrite E in H; discriminate H.
  - destruct b as [|y b]; cbn [mem] in *; rewrite put_leaf; [reflexivity|]. destruct (is_leaf t); [discriminate H|].
    destruct (digit_eq x y) as [->|N]; [rewrite pick_put; now apply IH|now rewrite pick_put_other].
Qed.

(* [sub l m]: l is m with some entries left out *)
Inductive sub {A} : list A -> list A -> Prop :=
| sub_nil : forall m, sub [] m
| sub_take : forall x l m, sub l m -> sub (x :: l) (x :: m)
| sub_skip : forall x l m, sub l m -> sub l (x :: m).

Fixpoint xsum (acc : list digit) (l : list (list digit)) : list digit :=
  match l with [] => acc | x :: l => xsum (plus acc x) l end.

(* all sums of at most k + 1 entries of rs, added to acc *)
Fixpoint add_sums (k : nat) (rs : list (list digit)) (acc : list digit) (t : trie) {struct k} : trie :=
  (fix go rs t := match rs with
                  | [] => add acc t
                  | r :: rs' => go rs' (match k with O => add (plus acc r) t | S k' => add_sums k' rs' (plus acc r) t end)
                  end) rs t.
Fixpoint no_sums (k : nat) (rs : list (list digit)) (acc : list digit) (t : trie) {struct k} : bool :=
  (fix go rs := match rs with
                | [] => negb (mem acc t)
                | r :: rs' => if (match k with O => negb (mem2 acc r t) | S k' => no_sums k' rs' (plus acc r) t end) then go rs' else false
                end) rs.
Lemma add_sums_nil : forall k acc t, add_sums k [] acc t = add acc t.
Proof. intros [|k] acc t; reflexivity. Qed.
Lemma add_sums_cons : forall k r rs acc t, add_sums k (r :: rs) acc t =
  add_sums k rs acc (match k with O => add (plus acc r) t | S k' => add_sums k' rs (plus acc r) t end).
Proof. intros [|k] r rs acc t; reflexivity. Qed.
Lemma no_sums_nil : forall k acc t, no_sums k [] acc t = negb (mem acc t).
Proof. intros [|k] acc t; reflexivity. Qed.
Lemma no_sums_cons : forall k r rs acc t, no_sums k (r :: rs) acc t =
  if (match k with O => negb (mem2 acc r t) | S k' => no_sums k' rs (plus acc r) t end) then no_sums k rs acc t else false.
Proof. intros [|k] r rs acc t; reflexivity. Qed.
Lemma add_sums_keep : forall k rs acc t n, mem n t = true -> mem n (add_sums k rs acc t) = true.
Proof.
  induction k as [|k IH]; intros rs acc t n H; revert t H; (induction rs as [|r rs IHr]; intros t H;
    [rewrite add_sums_nil; now apply mem_add_keep|]); rewrite add_sums_cons; apply IHr.
  - now apply mem_add_keep.
  - now apply IH.
Qed.
Lemma add_sums_self : forall k rs acc t, mem acc (add_sums k rs acc t) = true.
Proof.
  intros k rs acc t. revert t.
  induction rs as [|r rs IH]; intros t; [rewrite add_sums_nil; apply mem_add|]. rewrite add_sums_cons. apply IH.
Qed.
Lemma add_sums_mem : forall k rs acc t l, sub l rs -> (length l <= S k)%nat -> mem (xsum acc l) (add_sums k rs acc t) = true.
Proof.
  induction k as [|k IH]; intros rs acc t l Hs L; revert t; (induction Hs as [rs|x l rs Hs IHs|x l rs Hs IHs]; intros t;
    [apply add_sums_self| |rewrite add_sums_cons; now apply IHs]); rewrite add_sums_cons; apply add_sums_keep; cbn [xsum length] in *.
  - destruct l; [apply mem_add|cbn [length] in L; lia].
  - apply IH; auto. lia.
Qed.
Lemma no_sums_self : forall k rs acc t, no_sums k rs acc t = true -> mem acc t = false.
Proof.
  intros k rs acc t H. induction rs as [|r rs IH]; [rewrite no_sums_nil in H; now apply negb_true_iff|]. rewrite no_sums_cons in H.
  destruct (match k with O => _ | S _ => _ end); [auto|discriminate].
Qed.
Lemma no_sums_tail : forall k r rs acc t, no_sums k (r :: rs) acc t = true -> no_sums k rs acc t = true.
Proof. intros k r rs acc t H. rewrite no_sums_cons in H. destruct (match k with O => _ | S _ => _ end); [exact H|discriminate]. Qed.
Lemma no_sums_mem : forall k rs acc t l, no_sums k rs acc t = true -> sub l rs -> (length l <= S k)%nat ->
  mem (xsum acc l) t = false.
Proof.
  induction k as [|k IH]; intros rs acc t l H Hs L; induction Hs as [rs|x l rs Hs IHs|x l rs Hs IHs].
  - exact (no_sums_self _ _ _ _ H).
  - rewrite no_sums_cons in H. cbn [length] in L. destruct l; [|cbn [length] in L; lia]. cbn [xsum].
    destruct (mem2 acc x t) eqn:E; [discriminate H|]. now rewrite mem2_plus in E.
  - apply IHs; [exact (no_sums_tail _ _ _ _ _ H)|exact L].
  - exact (no_sums_self _ _ _ _ H).
  - rewrite no_sums_cons in H. cbn [length xsum] in *. destruct (no_sums k rs _ _) eqn:E; [|discriminate]. apply (IH rs); auto. lia.
  - apply IHs; [exact (no_sums_tail _ _ _ _ _ H)|exact L].
Qed.
Lemma xsum_word : forall k l acc, xsum (word k acc) (map (word k) l) = word k (N.lxor acc (poly_sum l)).
Proof.
  induction l as [|x l IH]; intros acc; cbn [xsum poly_sum map]; [now rewrite N.lxor_0_r|].
  now rewrite <- word_plus, IH, N.lxor_assoc.
Qed.
Lemma poly_sum_app : forall a b, poly_sum (a ++ b) = N.lxor (poly_sum a) (poly_sum b).
Proof. induction a as [|x a IH]; intros b; cbn [app poly_sum]; [now rewrite N.lxor_0_l|]. now rewrite IH, N.lxor_assoc. Qed.
Lemma sub_app_l : forall {A} (a b m : list A), sub (a ++ b) m -> sub a m.
Proof.
  intros A a b m H. remember (a ++ b) as l eqn:E. revert a E. induction H as [m|x l m H IH|x l m H IH]; intros a E.
  - destruct a; [constructor|discriminate].
  - destruct a as [|y a]; [constructor|]. injection E as <- E. constructor. auto.
  - apply sub_skip. auto.
Qed.
Lemma sub_app_r : forall {A} (a b m : list A), sub (a ++ b) m -> sub b m.
Proof.
  intros A a b m H. remember (a ++ b) as l eqn:E. revert a E. induction H as [m|x l m H IH|x l m H IH]; intros a E.
  - symmetry in E. apply app_eq_nil in E as [_ ->]. constructor.
  - destruct a as [|y a]; cbn [app] in E.
    + subst b. now constructor.
    + injection E as <- E. apply sub_skip. eauto.
  - apply sub_skip. eauto.
Qed.
Lemma sub_map : forall {A B} (f : A -> B) l m, sub l m -> sub (map f l) (map f m).
Proof. induction 1; cbn [map]; now constructor. Qed.

(* ---------- the residues of the powers of x ---------- *)
Definition stepx (r : N) : N := if N.testbit r 31 then N.lxor (N.double r) G else N.double r.
Fixpoint rr (e : nat) : N := match e with O => 1 | S e => stepx (rr e) end.
Lemma rr_spec : forall e, cong (x_to (N.of_nat e)) (rr e) /\ rr e < 2 ^ 32.
Proof.
  induction e as [|e [C L]]; [split; [exists 0; reflexivity|reflexivity]|]. cbn [rr]. unfold stepx.
  assert (D : cong (x_to (N.of_nat (S e))) (N.double (rr e))).
  { replace (N.of_nat (S e)) with (1 + N.of_nat e) by lia. rewrite x_to_add.
    replace (N.double (rr e)) with (clmul (x_to 1) (rr e)).
    - apply cong_mul; [apply cong_refl|exact C].
    - unfold x_to. rewrite clmul_shiftl, clmul_1. symmetry. apply double_shift. }
  destruct (N.testbit (rr e) 31) eqn:T.
  - split.
    + eapply cong_trans; [exact D|]. exists 1. now rewrite <- N.lxor_assoc, N.lxor_nilpotent, N.lxor_0_l, clmul_1.
    + destruct (N.lt_ge_cases (N.lxor (N.double (rr e)) G) (2 ^ 32)) as [|Ge]; auto. exfalso.
      set (v := N.lxor (N.double (rr e)) G) in *.
      assert (Lv : v < 2 ^ 33).
      { apply lxor_lt_pow2; [|reflexivity]. rewrite N.double_spec. change (2 ^ 33) with (2 * 2 ^ 32). lia. }
      assert (T32 : N.testbit v 32 = true).
      { assert (K : N.log2 v = 32) by (apply N.log2_unique; [lia|]; split; [exact Ge|exact Lv]).
        rewrite <- K. apply N.bit_log2. change (2 ^ 32) with 4294967296 in Ge. lia. }
      unfold v in T32. rewrite N.lxor_spec in T32. change (N.testbit G 32) with true in T32.
      rewrite double_shift in T32. rewrite N.shiftl_spec_high in T32 by lia. change (32 - 1) with 31 in T32. rewrite T in T32. discriminate.
  - split; auto.
    destruct (N.lt_ge_cases (N.double (rr e)) (2 ^ 32)) as [|Ge]; auto. exfalso.
    rewrite N.double_spec in Ge. assert (K : N.log2 (rr e) = 31).
    { apply N.log2_unique; [lia|]. change (2 ^ N.succ 31) with (2 ^ 32). split; auto.
      change (2 ^ 32) with (2 * 2 ^ 31) in Ge. lia. }
    rewrite <- K in T. rewrite N.bit_log2 in T; [discriminate|]. intros Z. rewrite Z in Ge. discriminate Ge || (cbn in Ge; lia).
Qed.
Fixpoint residues (k : nat) (cur : N) (acc : list N) : list N :=
  match k with O => acc | S k => residues k (stepx cur) (cur :: acc) end.
Lemma residues_spec : forall k j l, residues k (rr j) (map rr l) = map rr (rev (seq j k) ++ l).
Proof.
  induction k as [|k IH]; intros j l; [reflexivity|]. cbn [residues seq rev].
  change (stepx (rr j)) with (rr (S j)). change (rr j :: map rr l) with (map rr (j :: l)).
  rewrite IH, <- app_assoc. reflexivity.
Qed.
Definition down (n : nat) : list nat := rev (seq 1 n).
Definition residues_below (n : nat) : list N := residues n 2 [].
Lemma residues_below_spec : forall n, residues_below n = map rr (down n).
Proof. intros n. unfold residues_below, down. change 2 with (rr 1). rewrite <- (app_nil_r (rev _)). apply (residues_spec n 1 []). Qed.

(* no 1 + A + B with A, B sums of at most a + 1 and b + 1 powers x^1..x^n is a multiple of G *)
Definition check (n : nat) (a b : nat) : bool :=
  let rs := map (word 8) (residues_below n) in no_sums b rs (word 8 1) (add_sums a rs (word 8 0) Leaf).
Lemma check_spec : forall n a b es, check n a b = true -> sub es (down n) -> (length es <= S a + S b)%nat ->
  N.lxor 1 (poly_sum (map rr es)) <> 0.
Proof.
  intros n a b es H Hs L E. unfold check in H. cbv zeta in H. rewrite residues_below_spec in H.
  rewrite <- (firstn_skipn (S a) es), map_app, poly_sum_app in E. rewrite <- (firstn_skipn (S a) es) in Hs.
  assert (Ha : sub (map (word 8) (map rr (firstn (S a) es))) (map (word 8) (map rr (down n)))) by (do 2 apply sub_map; eapply sub_app_l; eauto).
  assert (Hb : sub (map (word 8) (map rr (skipn (S a) es))) (map (word 8) (map rr (down n)))) by (do 2 apply sub_map; eapply sub_app_r; eauto).
  apply (no_sums_mem _ _ _ _ (map (word 8) (map rr (skipn (S a) es)))) in H; [|exact Hb|rewrite !map_length, skipn_length; lia].
  rewrite xsum_word in H.
  pose proof (add_sums_mem a _ (word 8 0) Leaf _ Ha) as M. rewrite !map_length, firstn_length in M. specialize (M ltac:(lia)).
  rewrite xsum_word, N.lxor_0_l in M.
  replace (poly_sum (map rr (firstn (S a) es))) with (N.lxor 1 (poly_sum (map rr (skipn (S a) es)))) in M; [congruence|].
  symmetry. apply N.lxor_eq. rewrite <- E. now rewrite (N.lxor_comm (poly_sum _)), N.lxor_assoc, (N.lxor_comm (poly_sum (map rr (skipn (S a) es)))).
Qed.

(* ---------- the exponents of an error ---------- *)
Fixpoint exps (l : list bool) : list nat :=
  match l with [] => [] | b :: l => if b then length l :: exps l else exps l end.
Fixpoint xors (l1 l2 : list bool) : list bool :=
  match l1, l2 with x :: l1, y :: l2 => xorb x y :: xors l1 l2 | _, _ => [] end.
Lemma xors_length : forall l1 l2, length l1 = length l2 -> length (xors l1 l2) = length l1.
Proof. induction l1 as [|x l1 IH]; intros [|y l2] L; cbn in *; auto. Qed.
Lemma xors_num : forall l1 l2, length l1 = length l2 -> N.lxor (bits_num l1) (bits_num l2) = bits_num (xors l1 l2).
Proof.
  induction l1 as [|x l1 IH]; intros [|y l2] L; cbn [length] in L; try discriminate; [reflexivity|]. injection L as L.
  cbn [xors]. change (x :: l1) with ([x] ++ l1). change (y :: l2) with ([y] ++ l2).
  change (xorb x y :: xors l1 l2) with ([xorb x y] ++ xors l1 l2). rewrite !bits_num_app.
  rewrite (xors_length l1 l2 L), <- L. rewrite lxor_concat; [|apply bits_num_lt|rewrite L; apply bits_num_lt].
  rewrite IH by auto. destruct x, y; reflexivity.
Qed.
Lemma xors_flips : forall l1 l2, length l1 = length l2 -> length (exps (xors l1 l2)) = differences l1 l2.
Proof.
  induction l1 as [|x l1 IH]; intros [|y l2] L; cbn [length] in L; try discriminate; [reflexivity|]. injection L as L.
  cbn [xors exps differences]. rewrite <- IH by auto. destruct x, y; reflexivity.
Qed.
Lemma exps_num : forall l, bits_num l = poly_sum (map (fun e => x_to (N.of_nat e)) (exps l)).
Proof.
  induction l as [|b l IH]; [reflexivity|]. change (b :: l) with ([b] ++ l) at 1. rewrite bits_num_app, IH. cbn [exps].
  destruct b; cbn [map poly_sum].
  - change (bits_num [true]) with 1. rewrite N.mul_1_l. unfold x_to at 2. rewrite N.shiftl_1_l, <- IH.
    pose proof (lxor_concat 1 0 0 (bits_num l) (N.of_nat (length l))) as Q. rewrite N.lxor_0_r, N.lxor_0_l, N.add_0_r, N.mul_1_l in Q.
    rewrite N.mul_0_l, N.add_0_l in Q. symmetry. apply Q; [|apply bits_num_lt].
    apply N.neq_0_lt_0. apply N.pow_nonzero. lia.
  - change (bits_num [false]) with 0. reflexivity.
Qed.
(* strictly decreasing numbers below n, down to m *)
Inductive falling (m : nat) : nat -> list nat -> Prop :=
| fa_nil : forall n, falling m n []
| fa_cons : forall n e es, (m <= e < n)%nat -> falling m e es -> falling m n (e :: es).
Lemma falling_weaken : forall m n n' es, (n <= n')%nat -> falling m n es -> falling m n' es.
Proof. intros m n n' es L H. inversion H; subst; constructor; auto. lia. Qed.
Lemma exps_falling : forall l, falling 0 (length l) (exps l).
Proof.
  induction l as [|b l IH]; [constructor|]. cbn [exps length]. destruct b.
  - constructor; [lia|exact IH].
  - eapply falling_weaken; [|exact IH]. lia.
Qed.
Lemma falling_last : forall n es e, falling 0 n (es ++ [e]) -> falling (S e) n es.
Proof.
  intros n es. revert n. induction es as [|x es IH]; intros n e H; cbn [app] in H; inversion H; subst; constructor.
  - split; [|lia]. assert (Q : forall k l, falling 0 k (l ++ [e]) -> (e < k)%nat).
    { clear. intros k l. revert k. induction l as [|y l IH]; intros k H; cbn [app] in H; inversion H; subst; [lia|].
      apply IH in H4. lia. }
    apply Q in H4. lia.
  - now apply IH.
Qed.
Lemma down_S : forall n, down (S n) = S n :: down n.
Proof. intros n. unfold down. rewrite seq_S, rev_app_distr. reflexivity. Qed.
Lemma falling_sub : forall n es, falling 1 (S n) es -> sub es (down n).
Proof.
  induction n as [|n IH]; intros es H.
  - inversion H; subst; [constructor|lia].
  - rewrite down_S. inversion H as [|? e es' Hr Hf]; subst; [constructor|].
    destruct (Nat.eq_dec e (S n)) as [->|Ne].
    + constructor. now apply IH.
    + apply sub_skip. apply IH. constructor; auto. lia.
Qed.
Lemma falling_shift : forall m n es, falling (S m) n es -> falling 1 (n - m) (map (fun e => e - m)%nat es).
Proof.
  intros m n es H. induction H as [n|n e es L H IH]; cbn [map]; constructor; auto. lia.
Qed.

Lemma cong_sum : forall es, cong (poly_sum (map (fun e => x_to (N.of_nat e)) es)) (poly_sum (map rr es)) /\ poly_sum (map rr es) < 2 ^ 32.
Proof.
  induction es as [|e es [C L]]; [split; [apply cong_refl|reflexivity]|]. cbn [map poly_sum].
  destruct (rr_spec e) as [[q Q] Le]. destruct C as [q' Q']. split; [|now apply lxor_lt_pow2].
  exists (N.lxor q q'). rewrite clmul_lxor, <- Q, <- Q'. apply lxor_swap.
Qed.

Lemma sparse_multiple : forall n a b es q, check n a b = true -> falling 0 (S n) es -> es <> [] ->
  (length es <= S (S a + S b))%nat -> clmul q G <> poly_sum (map (fun e => x_to (N.of_nat e)) es).
Proof.
  intros n a b es q Hc F Ne L E. destruct (exists_last Ne) as (es'&m&->). clear Ne.
  apply falling_last in F. rewrite app_length in L. cbn [length] in L.
  assert (Sh : forall l, falling (S m) (S n) l \/ l = [m] -> True) by auto. clear Sh.
  set (f := fun e => x_to (N.of_nat e)) in *.
  assert (Q : poly_sum (map f (es' ++ [m])) = N.shiftl (N.lxor 1 (poly_sum (map f (map (fun e => e - m)%nat es')))) (N.of_nat m)).
  { rewrite map_app, poly_sum_app. cbn [map poly_sum]. rewrite N.lxor_0_r, N.lxor_comm, N.shiftl_lxor. f_equal.
    clear E L. remember (S n) as k eqn:K. clear K. induction F as [k|k e es Le F IH]; [now rewrite N.shiftl_0_l|].
    cbn [map poly_sum]. rewrite N.shiftl_lxor, IH. f_equal. unfold f, x_to. rewrite N.shiftl_shiftl. f_equal. lia. }
  rewrite Q in E. apply clmul_G_shift in E as (q'&_&E).
  destruct (cong_sum (map (fun e => e - m)%nat es')) as [C Lt]. fold f in C.
  apply (check_spec n a b (map (fun e => e - m)%nat es') Hc).
  - apply falling_sub. eapply falling_weaken; [|apply falling_shift; exact F]. lia.
  - rewrite map_length. lia.
  - apply cong_small; [apply lxor_lt_pow2; [reflexivity|exact Lt]|reflexivity|].
    apply cong_sym. eapply cong_trans with (N.lxor 1 (poly_sum (map f (map (fun e => e - m)%nat es')))).
    + exists q'. now rewrite N.lxor_0_l.
    + destruct C as [z Z]. exists z. rewrite <- Z. now rewrite lxor_swap, N.lxor_nilpotent, N.lxor_0_l.
Qed.

Lemma detects : forall n a b bytes1 bytes2, check n a b = true -> length bytes1 = length bytes2 ->
  (8 * length bytes1 <= S n)%nat -> (0 < flipped bytes1 bytes2 <= S (S a + S b))%nat -> memcrc bytes1 <> memcrc bytes2.
Proof.
  intros n a b b1 b2 Hc L Ln Hf E. destruct (memcrc_collision b1 b2 L E) as (q&Q).
  assert (Lb : length (bits b1) = length (bits b2)) by (rewrite !bits_length; lia).
  rewrite xors_num, exps_num in Q by auto. unfold flipped in Hf. rewrite <- xors_flips in Hf by auto.
  revert Q. eapply sparse_multiple; eauto.
  - eapply falling_weaken; [|apply exps_falling]. rewrite xors_length, bits_length by auto. exact Ln.
  - intros Z. rewrite Z in Hf. cbn in Hf. lia.
  - lia.
Qed.

(* ---------- the checks ---------- *)
Lemma check_3 : check (N.to_nat 91631) 0 0 = true. Proof. vm_cast_no_check (eq_refl true). Qed.
Lemma check_4 : check (N.to_nat 2999) 0 1 = true. Proof. vm_cast_no_check (eq_refl true). Qed.
Lemma check_5 : check 295 1 1 = true. Proof. vm_cast_no_check (eq_refl true). Qed.
Lemma check_6 : check 199 1 2 = true. Proof. vm_cast_no_check (eq_refl true). Qed.
Lemma check_7 : check 119 2 2 = true. Proof. vm_cast_no_check (eq_refl true). Qed.
Lemma check_8 : check 87 2 3 = true. Proof. vm_cast_no_check (eq_refl true). Qed.
Lemma check_9 : check 63 3 3 = true. Proof. vm_cast_no_check (eq_refl true). Qed.
Lemma check_10 : check 47 3 4 = true. Proof. vm_cast_no_check (eq_refl true). Qed.

(* ---------- five bytes: the multiples are few ---------- *)
Fixpoint pop_pos (p : positive) : nat := match p with xH => 1 | xO p => pop_pos p | xI p => S (pop_pos p) end.
Definition pop (n : N) : nat := match n with N0 => 0 | Npos p => pop_pos p end.
Lemma pop_bits : forall l, length (exps l) = pop (bits_num l).
Proof.
  induction l as [|b l IH] using rev_ind; [reflexivity|].
  assert (E : length (exps (l ++ [b])) = ((if b then 1 else 0) + length (exps l))%nat).
  { clear. induction l as [|x l IH]; [destruct b; reflexivity|]. cbn [app exps]. destruct x; cbn [length]; rewrite IH; [lia|reflexivity]. }
  rewrite E, IH, bits_num_app. change (2 ^ N.of_nat (length [b])) with 2. rewrite N.mul_comm.
  destruct b; unfold bits_num at 3; cbn [fold_left]; destruct (bits_num l); reflexivity.
Qed.
Definition check_multiples : bool := forallb (fun q => Nat.leb 15 (pop (clmul (N.of_nat q) G))) (seq 1 255).
Lemma multiples_checked : check_multiples = true. Proof. vm_cast_no_check (eq_refl true). Qed.
Lemma five_bytes : forall b1 b2, length b1 = length b2 -> (length b1 <= 5)%nat -> (0 < flipped b1 b2 <= 14)%nat ->
  memcrc b1 <> memcrc b2.
Proof.
  intros b1 b2 L L5 Hf E. destruct (memcrc_collision b1 b2 L E) as (q&Q).
  assert (Lb : length (bits b1) = length (bits b2)) by (rewrite !bits_length; lia).
  rewrite xors_num in Q by auto. unfold flipped in Hf. rewrite <- xors_flips, pop_bits, <- Q in Hf by auto.
  assert (Nq : q <> 0) by (intros ->; cbn in Hf; lia).
  assert (Lq : clmul q G < 2 ^ 40).
  { rewrite Q. eapply N.lt_le_trans; [apply bits_num_lt|]. rewrite xors_length, bits_length by auto.
    apply N.pow_le_mono_r; lia. }
  assert (q < 256).
  { destruct (N.lt_ge_cases q 256) as [|Ge]; auto. exfalso.
    assert (G0 : G <> 0) by discriminate. destruct (clmul_log2 q G Nq G0) as [Nz Lg].
    apply N.log2_lt_pow2 in Lq; [|lia]. rewrite Lg in Lq.
    assert (8 <= N.log2 q) by (apply N.log2_le_pow2; [lia|exact Ge]). change (N.log2 G) with 32 in Lq. lia. }
  pose proof multiples_checked as K. unfold check_multiples in K. rewrite forallb_forall in K.
  specialize (K (N.to_nat q)). rewrite N2Nat.id in K. assert (15 <= pop (clmul q G))%nat; [|lia].
  apply Nat.leb_le. apply K. apply in_seq. lia.
Qed.

Lemma detection_holds : forall n k, In (n, k) detection -> forall b1 b2, length b1 = length b2 ->
  N.of_nat (length b1) <= n -> (0 < flipped b1 b2 <= k)%nat -> memcrc b1 <> memcrc b2.
Proof.
  intros n k I b1 b2 L Ln Hf. unfold detection in I. cbn [In] in I.
  assert (K : forall m a b, check m a b = true -> (8 * N.to_nat n <= S m)%nat -> (k <= S (S a + S b))%nat -> memcrc b1 <> memcrc b2).
  { intros m a b Hc Hm Hk. apply (detects m a b); auto; lia. }
  destruct I as [E|[E|[E|[E|[E|[E|[E|[E|[E|[]]]]]]]]]]; apply pair_equal_spec in E as [<- <-].
  - apply (K _ _ _ check_3); [clear; lia|clear; lia].
  - apply (K _ _ _ check_4); [clear; lia|clear; lia].
  - apply (K _ _ _ check_5); [clear; lia|clear; lia].
  - apply (K _ _ _ check_6); [clear; lia|clear; lia].
  - apply (K _ _ _ check_7); [clear; lia|clear; lia].
  - apply (K _ _ _ check_8); [clear; lia|clear; lia].
  - apply (K _ _ _ check_9); [clear; lia|clear; lia].
  - apply (K _ _ _ check_10); [clear; lia|clear; lia].
  - apply five_bytes; auto. lia.
Qed.

(* ---------- and no further ---------- *)
(* n bytes with the bits of the given exponents set *)
Fixpoint with_bits (n : nat) (i : N) (es : list (N * N)) : bytes :=
  match n with
  | O => []
  | S n => ascii_of_N (poly_sum (map (fun e => if (i =? fst e) then snd e else 0) es)) :: with_bits n (N.pred i) es
  end.
Definition undetected (n : N) (k : nat) (es : list (N * N)) : bool :=
  let b1 := with_bits (N.to_nat (n + 1)) n [] in let b2 := with_bits (N.to_nat (n + 1)) n es in
  ((N.of_nat (length b1) =? n + 1) && (N.of_nat (length b2) =? n + 1) &&
   Nat.ltb 0 (flipped b1 b2) && Nat.leb (flipped b1 b2) k && (memcrc b1 =? memcrc b2))%bool.
Lemma undetected_spec : forall n k es, undetected n k es = true -> exists b1 b2, N.of_nat (length b1) = n + 1 /\
  N.of_nat (length b2) = n + 1 /\ (0 < flipped b1 b2 <= k)%nat /\ memcrc b1 = memcrc b2.
Proof.
  intros n k es H. unfold undetected in H. cbv zeta in H. rewrite !andb_true_iff in H. destruct H as ((((H1&H2)&H3)&H4)&H5).
  exists (with_bits (N.to_nat (n + 1)) n []), (with_bits (N.to_nat (n + 1)) n es).
  apply N.eqb_eq in H1, H2, H5. apply Nat.ltb_lt in H3. apply Nat.leb_le in H4. auto.
Qed.
Lemma undetected_all : forallb (fun '(n, k, es) => undetected n k es)
  [(11454, 3%nat, [(0, 1); (5209, 64); (11454, 128)]); (375, 4%nat, [(0, 1); (276, 128); (358, 4); (375, 64)]); (37, 5%nat, [(0, 1); (11, 2); (14, 32); (19, 8); (37, 16)]);
   (25, 6%nat, [(0, 1); (9, 128); (10, 32); (15, 8); (23, 4); (25, 8)]); (15, 7%nat, [(0, 1); (5, 32); (6, 32); (9, 4); (10, 1); (15, 1); (15, 8)]);
   (11, 8%nat, [(0, 1); (0, 32); (1, 32); (2, 1); (4, 16); (5, 2); (11, 1); (11, 2)]); (8, 9%nat, [(0, 1); (0, 4); (0, 8); (2, 4); (2, 8); (4, 1); (4, 32); (7, 2); (8, 4)]);
   (6, 10%nat, [(0, 1); (0, 8); (0, 128); (3, 2); (3, 8); (3, 64); (4, 2); (4, 16); (4, 64); (6, 32)]); (5, 14%nat, [(0, 1); (0, 32); (0, 128); (2, 1); (3, 128); (4, 1); (4, 8); (4, 32); (5, 2); (5, 8); (5, 16)])] = true.
Proof. vm_cast_no_check (eq_refl true). Qed.
Lemma detection_tight : forall n k, In (n, k) detection -> exists b1 b2, N.of_nat (length b1) = n + 1 /\
  N.of_nat (length b2) = n + 1 /\ (0 < flipped b1 b2 <= k)%nat /\ memcrc b1 = memcrc b2.
Proof.
  intros n k I. pose proof undetected_all as H. rewrite forallb_forall in H.
  unfold detection in I. cbn [In] in I.
  destruct I as [E|[E|[E|[E|[E|[E|[E|[E|[E|[]]]]]]]]]]; apply pair_equal_spec in E as [<- <-];
    eapply undetected_spec; apply (H (_, _, _)); cbn [In]; intuition reflexivity.
Qed.
