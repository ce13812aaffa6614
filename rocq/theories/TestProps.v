(* C29-C32: cmd/test.  Statements only; proofs in TestProofs.v. *)
From Verif Require Import GoBase GoFacts NumFacts TestModel TestSpec TestProofs.

(* C29 is false.  A comparison with an empty left operand is false (status 1), whatever is compared:
   test "" = "" and test "" != x are; *)
Theorem C29_argument_count_rules_refuted : forall w o b,
  test_main w [[]; o; b] = {| out := []; errout := []; fin := Exit 1 |}.
Proof. reflexivity. Qed.
Print Assumptions C29_argument_count_rules_refuted.
(* a left operand that reads like a unary operator is taken for one, applied to the comparison
   operator, and the right operand is not looked at: test -n = x is true; *)
Theorem C29_operator_operand_refuted : forall w c f o b, flag_lookup c = Some f ->
  test_main w [["-"%char; c]; o; b] = test_main w [["-"%char; c]; o].
Proof. intros w c f o b H. unfold test_main. rewrite !parse_cons. cbn [prefix_of]. rewrite Ascii.eqb_refl, H. reflexivity. Qed.
Print Assumptions C29_operator_operand_refuted.
(* a left operand ! is taken for a negation, of something that is an error: test ! = x; *)
Theorem C29_bang_operand_refuted : forall w o b, binary_op o -> status w [B "!"; o; b] = 2%Z.
Proof.
  intros w o b H. repeat (destruct H as [<-|H]; [reflexivity|]). contradiction.
Qed.
Print Assumptions C29_bang_operand_refuted.
Example C29_refuted_nonvacuous : forall w, posix w [[]; B "="; []] ([] = [] :> bytes) /\
  posix w [[]; B "!="; B "x"] ([] <> B "x") /\ posix w [B "-n"; B "="; B "x"] (B "-n" = B "x") /\
  status w [B "-n"; B "="; B "x"] = 0%Z /\ posix w [B "!"; B "="; B "!"] (B "!" = B "!").
Proof.
  intros w. split; [apply p3_binary, b_eq|]. split; [apply p3_binary, b_ne|].
  split; [apply p3_binary, b_eq|]. split; [reflexivity|apply p3_binary, b_eq].
Qed.
(* and the primaries -b -r -t -w -x are errors for every file. *)
Theorem C29_missing_primaries_refuted : forall w o p, missing_unary o ->
  test_main w [o; p] = complains (if beqb o (B "-b") then B "idk what to do about this" else B "NYI").
Proof.
  intros w o p H. repeat (destruct H as [<-|H]; [reflexivity|]). contradiction.
Qed.
Print Assumptions C29_missing_primaries_refuted.
(* Apart from missing primaries and comparisons whose left operand is empty or looks like an
   operator, the POSIX rules for 0 to 4 arguments hold. *)
Theorem C29_argument_count_rules_partial : forall w args P, posix w args P -> ~ ambiguous args ->
  (P -> status w args = 0%Z) /\ (~ P -> status w args = 1%Z).
Proof. intros w args P H N. apply truth_status, posix_ok; auto. Qed.
Print Assumptions C29_argument_count_rules_partial.
(* Two or more arguments of which the first is no operator, and which are no comparison, are an error. *)
Theorem C29_not_understood : forall w a b r, ~ operator_like a -> (forall c, r = [c] -> ~ binary_op b) ->
  test_main w (a :: b :: r) = complains (B "idk what to do about this").
Proof. exact not_understood. Qed.
Print Assumptions C29_not_understood.
Example C29_not_understood_nonvacuous : ~ operator_like (B "a") /\ ~ operator_like (B "-b") /\ ~ binary_op (B "==") /\
  forall w, status w [B "a"; B "="; B "a"; B "x"] = 2%Z.
Proof.
  assert (P : forall x, x <> [] -> x <> B "!" -> ~ In (hd " "%char (tl x)) (B "acdefghLnprSstuwxz") -> ~ operator_like x).
  { intros x N1 N2 N3 [H|[H|(c&Hc&->)]]; auto. }
  split; [|split; [|split]].
  - apply P; vm_compute; intuition discriminate.
  - apply P; vm_compute; intuition discriminate.
  - intros H. repeat (destruct H as [H|H]; [discriminate|]). contradiction.
  - reflexivity.
Qed.
Example C29_nonvacuous : forall w, posix w [B "!"; B "abc"; B "!="; B "=="] (~ (B "abc" <> B "==")) /\
  ~ ambiguous [B "!"; B "abc"; B "!="; B "=="] /\ posix w [B "!"; B "-z"; B "q"] (~ (B "q" = [])) /\
  posix w [B "-3"; B "-lt"; B "+4"] (-3 < 4)%Z.
Proof.
  intros w. split; [|split; [|split]].
  - apply p4_not, p3_binary, b_ne.
  - intros (pre&a&o&b&E&[->| ->]&O&L).
    + discriminate.
    + injection E as <- <- <-. destruct L as [L|[L|(c&_&L)]]; discriminate.
  - apply p3_not; [|apply p2_unary, u_z]. intros H. repeat (destruct H as [H|H]; [discriminate|]). contradiction.
  - eapply (p3_binary w), (b_num _ _ _ _ (-3) 4 n_lt).
    + split; [apply (numeral_itoa (-3))|split; discriminate].
    + split; [|split; discriminate]. exists (B "+"), (B "4"). split; [reflexivity|]. split; [discriminate|].
      split; [constructor; [split; discriminate|constructor]|]. left. split; auto.
Qed.

(* C30: every operator, every pair of 64-bit integers, in any decimal notation *)
Theorem C30_integer_comparisons : forall w op R a b x y, num_op op R -> int_text a x -> int_text b y ->
  (R x y -> status w [a; op; b] = 0%Z) /\ (~ R x y -> status w [a; op; b] = 1%Z).
Proof. intros w op R a b x y O A Bt. apply truth_status, num_compare; auto. Qed.
Print Assumptions C30_integer_comparisons.
(* The second half is false for a left operand that is empty, *)
Theorem C30_non_integer_is_error_refuted : forall w op R b, num_op op R ->
  (forall x, ~ int_text [] x) /\ status w [[]; op; b] = 1%Z.
Proof.
  intros w op R b H. split; [|reflexivity]. intros x Hx. apply int_text_atoi in Hx. discriminate.
Qed.
Print Assumptions C30_non_integer_is_error_refuted.
(* or that reads like the operator -n or -z ... *)
Theorem C30_operator_operand_refuted : forall w op R b, num_op op R ->
  (forall x, ~ int_text (B "-n") x) /\ status w [B "-n"; op; b] = 0%Z /\
  (forall x, ~ int_text (B "-z") x) /\ status w [B "-z"; op; b] = 1%Z.
Proof.
  intros w op R b H.
  split; [intros x Hx; apply int_text_atoi in Hx; discriminate|]. split; [destruct H; reflexivity|].
  split; [intros x Hx; apply int_text_atoi in Hx; discriminate|destruct H; reflexivity].
Qed.
Print Assumptions C30_operator_operand_refuted.
(* ... and holds for every other that does not look like a unary operator. *)
Theorem C30_non_integer_is_error_partial : forall w op R a b, num_op op R -> ~ operator_like a ->
  (forall x y, ~ (int_text a x /\ int_text b y)) -> status w [a; op; b] = 2%Z.
Proof. exact num_bad. Qed.
Print Assumptions C30_non_integer_is_error_partial.
Example C30_nonvacuous : forall w, int_text (itoa min_int64) min_int64 /\
  status w [itoa min_int64; B "-lt"; itoa max_int64] = 0%Z /\ ~ operator_like (B "12x") /\
  status w [B "12x"; B "-lt"; B "1"] = 2%Z.
Proof.
  intros w. split; [|split; [|split]].
  - split; [apply numeral_itoa|split; discriminate].
  - vm_compute. reflexivity.
  - intros [H|[H|(c&_&H)]]; discriminate.
  - vm_compute. reflexivity.
Qed.

(* C31 *)
Theorem C31_file_primaries : forall w c p P, file_primary c w p = Some P ->
  (P -> status w [["-"%char; c]; p] = 0%Z) /\ (~ P -> status w [["-"%char; c]; p] = 1%Z).
Proof. intros w c p P H. apply truth_status, unary_ok. now apply u_file. Qed.
Print Assumptions C31_file_primaries.
Theorem C31_missing_file_is_false : forall w c p, (exists P, file_primary c w p = Some P) ->
  stat w p = None -> lstat w p = None -> status w [["-"%char; c]; p] = 1%Z.
Proof.
  intros w c p [P H] S L. apply (proj2 (C31_file_primaries w c p P H)). unfold file_primary in H.
  repeat match type of H with (if ?b then _ else _) = _ => destruct b end; try discriminate;
    injection H as <-; intros (fi&E&_); congruence.
Qed.
Print Assumptions C31_missing_file_is_false.
(* -a, which POSIX does not have, is what -b should be: it tells block (and character) devices. *)
Theorem C31_minus_a_is_device : forall w p,
  (stat_is w p (has 26) -> status w [B "-a"; p] = 0%Z) /\ (~ stat_is w p (has 26) -> status w [B "-a"; p] = 1%Z).
Proof. intros w p. apply truth_status, minus_a. Qed.
Print Assumptions C31_minus_a_is_device.
Example C31_nonvacuous :
  let w := {| stat := fun p => if beqb p (B "d") then Some {| mode := 2147484141; size := 4096 |} else None;
              lstat := fun _ => None |} in
  has 31 {| mode := 2147484141; size := 4096 |} /\ status w [B "-d"; B "d"] = 0%Z /\
  status w [B "-f"; B "d"] = 1%Z /\ status w [B "-s"; B "zz"] = 1%Z.
Proof. repeat split; vm_compute; reflexivity. Qed.

(* C32 *)
Theorem C32_negation : forall w e, e <> [] ->
  (status w e = 0%Z -> status w (B "!" :: e) = 1%Z) /\
  (status w e = 1%Z -> status w (B "!" :: e) = 0%Z) /\
  (status w e = 2%Z -> status w (B "!" :: e) = 2%Z) /\
  errout (test_main w (B "!" :: e)) = errout (test_main w e).
Proof. exact not_status. Qed.
Print Assumptions C32_negation.
Theorem C32_pairs_cancel : forall w e n, e <> [] ->
  test_main w (repeat (B "!") n ++ e) = if Nat.even n then test_main w e else test_main w (B "!" :: e).
Proof. exact not_many. Qed.
Print Assumptions C32_pairs_cancel.
(* Nothing is ever printed but one line on standard error when the status is 2. *)
Theorem C32_statuses : forall w args,
  test_main w args = {| out := []; errout := []; fin := Exit 0 |} \/
  test_main w args = {| out := []; errout := []; fin := Exit 1 |} \/
  exists m, test_main w args = complains m.
Proof. exact run_shape. Qed.
Print Assumptions C32_statuses.
Example C32_nonvacuous : forall w, status w [B "a"; B "="; B "b"] = 1%Z /\
  status w [B "!"; B "!"; B "!"; B "a"; B "="; B "b"] = 0%Z /\ status w [B "!"; B "-r"; B "x"] = 2%Z.
Proof. intros; repeat split. Qed.
