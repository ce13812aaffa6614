(* C149: cmp and diff on the same two files.  Statements only; proofs in CmpDiffProofs.v. *)
From Verif Require Import GoBase GoFacts CmpModel CmpSpec CmpDiffSpec CmpDiffProofs.
From Verif Require DiffModel.

(* They disagree on every pair of texts that the lines diff reads do not tell apart. *)
Theorem C149_agree_refuted : forall ae w f1 f2 c1 c2, plain_operand f1 -> plain_operand f2 ->
  opens w f1 = Some (c1, None) -> opens w f2 = Some (c2, None) -> alike c1 c2 ->
  fin (cmp_main w [f1; f2]) = Exit 1 /\
  DiffModel.diff_main ae (as_files w) [f1; f2] = Some {| out := [nl]; errout := []; fin := Exit 0 |}.
Proof.
  intros ae w f1 f2 c1 c2 P1 P2 O1 O2 H. split.
  - apply (cmp_two w f1 f2 c1 c2); auto. now apply alike_differ.
  - destruct (diff_two ae w f1 f2 c1 c2 P1 P2 O1 O2) as ([o e f]&E&E1&E2&E3). cbn in *. subst.
    rewrite E. now rewrite (proj2 E3 (alike_read _ _ H)).
Qed.
Print Assumptions C149_agree_refuted.
(* Files that cmp calls identical have no differences for diff; and on files of plain lines, each ended by a newline,
   diff is silent only if cmp calls them identical. *)
Theorem C149_identical_partial : forall ae w f1 f2 c1 c2, plain_operand f1 -> plain_operand f2 ->
  opens w f1 = Some (c1, None) -> opens w f2 = Some (c2, None) -> fin (cmp_main w [f1; f2]) = Exit 0 ->
  DiffModel.diff_main ae (as_files w) [f1; f2] = Some {| out := [nl]; errout := []; fin := Exit 0 |}.
Proof.
  intros ae w f1 f2 c1 c2 P1 P2 O1 O2 H. apply (cmp_two w f1 f2 c1 c2) in H; auto. subst.
  destruct (diff_two ae w f1 f2 c2 c2 P1 P2 O1 O2) as ([o e f]&E&E1&E2&E3). cbn in *. subst.
  rewrite E. now rewrite (proj2 E3 eq_refl).
Qed.
Print Assumptions C149_identical_partial.
Theorem C149_lines_partial : forall ae w f1 f2 l1 l2, plain_operand f1 -> plain_operand f2 ->
  opens w f1 = Some (unlines l1, None) -> opens w f2 = Some (unlines l2, None) -> Forall plain_line l1 -> Forall plain_line l2 ->
  exists r, DiffModel.diff_main ae (as_files w) [f1; f2] = Some r /\ (out r = [nl] <-> fin (cmp_main w [f1; f2]) = Exit 0).
Proof.
  intros ae w f1 f2 l1 l2 P1 P2 O1 O2 F1 F2.
  destruct (diff_two ae w f1 f2 _ _ P1 P2 O1 O2) as (r&E&E1&E2&E3). exists r. split; [exact E|].
  rewrite E3, !scan_lines_plain by auto. cbn [fst]. rewrite (proj1 (cmp_two w f1 f2 _ _ P1 P2 O1 O2)).
  split; [congruence|]. intros Q. apply (f_equal (fun b => fst (scan_lines b))) in Q. now rewrite !scan_lines_plain in Q.
Qed.
Print Assumptions C149_lines_partial.

Definition two_files (c1 c2 : bytes) : world :=
  {| opens := fun f => if beqb f (B "x") then Some (c1, None) else if beqb f (B "y") then Some (c2, None) else None;
     stdin := ([], None); both := (([], None), ([], None)) |}.
Example C149_nonvacuous : plain_operand (B "x") /\ plain_operand (B "y") /\
  (exists c1 c2, opens (two_files c1 c2) (B "x") = Some (c1, None) /\ opens (two_files c1 c2) (B "y") = Some (c2, None) /\ alike c1 c2) /\
  alike (B "a" ++ [nl] ++ B "b" ++ [nl]) (B "a" ++ [nl] ++ B "b" ++ [cr; nl]) /\
  (exists x1 x2, alike (x1 ++ nl :: B "a") (x2 ++ nl :: B "b")) /\
  (exists l1 l2, Forall plain_line l1 /\ Forall plain_line l2 /\ l1 <> l2).
Proof.
  assert (S1 : forall c, c <> nl -> short [c]). { intros c N. split; [cbn; intros [Q|[]]; congruence|reflexivity]. }
  split; [exists "x"%char, []; split; [reflexivity|discriminate]|]. split; [exists "y"%char, []; split; [reflexivity|discriminate]|].
  split; [|split; [|split]].
  - exists (B "a"), (B "a" ++ [nl]). split; [reflexivity|]. split; [reflexivity|].
    apply (alike_newline [] (B "a")); [constructor|apply S1; discriminate|discriminate].
  - apply (alike_return [B "a"] (B "b") []); [constructor; [apply S1; discriminate|constructor]|apply S1; discriminate|].
    cbn. intros [Q|[]]; discriminate.
  - assert (L : long (repeat "x"%char (N.to_nat 65536))).
    { split; [intros I; apply repeat_spec in I; discriminate|]. rewrite repeat_length. lia. }
    exists (repeat "x"%char (N.to_nat 65536)), (repeat "x"%char (N.to_nat 65536)).
    apply (alike_long [] _ (B "a") _ (B "b")); auto. intros E. apply app_inv_head in E. discriminate.
  - assert (P : forall c, c <> nl -> c <> cr -> Forall plain_line [[c]]).
    { intros c N R. constructor; [|constructor]. split; [|split; [|reflexivity]]; cbn; intros [Q|[]]; congruence. }
    exists [B "a"], [B "b"]. split; [apply P; discriminate|]. split; [apply P; discriminate|discriminate].
Qed.
