(* C165: comparing three files with cmp. *)
From Verif Require Import GoBase GoFacts CmpModel CmpSpec CmpProofs CmpProps CmpDiffSpec CmpDiffProofs CmpRecoverProofs.

(* a file that can be named and read *)
Definition regular (w : world) (f : bytes) : Prop := plain_operand f /\ exists c, opens w f = Some (c, None).
Definition compares (w : world) (f1 f2 : bytes) : run_result := cmp_main w [f1; f2].
(* cmp f1 f2 reports a first difference at this byte, in this line *)
Definition reports (w : world) (f1 f2 : bytes) (n l : nat) : Prop :=
  out (compares w f1 f2) = f1 ++ B " " ++ f2 ++ B " differ: char " ++ ntoa n ++ B ", line " ++ ntoa l ++ [nl].

Lemma no_comma : forall n, ~ In ","%char (ntoa n).
Proof. intros n I. apply ntoa_digits in I. destruct I as [d I]. discriminate I. Qed.
Lemma no_newline : forall n, ~ In nl (ntoa n).
Proof. intros n I. apply ntoa_digits in I. destruct I as [d I]. discriminate I. Qed.

Lemma reports_iff : forall w f1 f2 c1 c2 n l, plain_operand f1 -> plain_operand f2 ->
  opens w f1 = Some (c1, None) -> opens w f2 = Some (c2, None) ->
  (reports w f1 f2 n l <-> exists p x y r1 r2, c1 = p ++ x :: r1 /\ c2 = p ++ y :: r2 /\ x <> y /\ n = length p + 1 /\ l = newlines p + 1).
Proof.
  intros w f1 f2 c1 c2 n l P1 P2 O1 O2. destruct (plain_not_option f1 P1) as (I1&E1&D1), (plain_not_option f2 P2) as (I2&E2&D2).
  assert (OP : operands [f1; f2] = [f1; f2]). { unfold operands. cbn [filter]. now rewrite I1, I2. }
  assert (NI : forall o, is_option o = true -> ~ In o [f1; f2]).
  { intros o Q [<-|[<-|[]]]; congruence. }
  assert (SE : sees w f1 f2 (c1, None) (c2, None)). { right. split; [now left|]. split; right; auto. }
  destruct (C20_first_difference w f1 f2 [f1; f2] c1 c2 OP E1 E2 (NI (B "-l") eq_refl) (NI (B "-s") eq_refl) SE) as (A&A1&A2&A3).
  unfold reports, compares. split.
  - intros R. assert (Ne : out (cmp_main w [f1; f2]) <> []) by (rewrite R; destruct f1; [congruence|discriminate]).
    destruct (list_eq_dec ascii_dec c1 c2) as [Q|N]; [apply A in Q; rewrite Q in Ne; now destruct Ne|].
    destruct (differ_cases c1 c2 N) as [(p&x&y&r1&r2&Q1&Q2&Q3)|[(x&r&Q)|(x&r&Q)]].
    + exists p, x, y, r1, r2. split; auto. split; auto. split; auto.
      rewrite (A1 p x y r1 r2 Q1 Q2 Q3) in R. cbn [out] in R.
      do 4 apply app_inv_head in R. change (B ", line ") with (","%char :: B " line ") in R.
      cbn [app] in R. apply first_sep in R as [R1 R2]; try apply no_comma. apply ntoa_inj in R1. split; auto.
      injection R2 as R2. apply first_sep in R2 as [R2 _]; try apply no_newline. now apply ntoa_inj in R2.
    + rewrite (A2 x r Q) in Ne. now destruct Ne.
    + rewrite (A3 x r Q) in Ne. now destruct Ne.
  - intros (p&x&y&r1&r2&Q1&Q2&Q3&->& ->). now rewrite (A1 p x y r1 r2 Q1 Q2 Q3).
Qed.

(* C165: among files that can be read, being identical is an equivalence, and otherwise the status is 1. *)
Theorem C165_equivalence : forall w f1 f2 f3, regular w f1 -> regular w f2 -> regular w f3 ->
  fin (compares w f1 f1) = Exit 0 /\
  (fin (compares w f1 f2) = Exit 0 -> fin (compares w f2 f1) = Exit 0) /\
  (fin (compares w f1 f2) = Exit 0 -> fin (compares w f2 f3) = Exit 0 -> fin (compares w f1 f3) = Exit 0) /\
  (fin (compares w f1 f2) = Exit 0 \/ fin (compares w f1 f2) = Exit 1).
Proof.
  intros w f1 f2 f3 (P1&c1&O1) (P2&c2&O2) (P3&c3&O3). unfold compares.
  destruct (cmp_two w f1 f1 c1 c1 P1 P1 O1 O1) as [E11 _], (cmp_two w f1 f2 c1 c2 P1 P2 O1 O2) as [E12 N12],
    (cmp_two w f2 f1 c2 c1 P2 P1 O2 O1) as [E21 _], (cmp_two w f2 f3 c2 c3 P2 P3 O2 O3) as [E23 _],
    (cmp_two w f1 f3 c1 c3 P1 P3 O1 O3) as [E13 _].
  split; [now apply E11|]. split; [intros H; apply E21; apply E12 in H; auto|].
  split; [intros H H'; apply E13; apply E12 in H; apply E23 in H'; congruence|].
  destruct (list_eq_dec ascii_dec c1 c2) as [Q|Q]; [left; now apply E12|right; auto].
Qed.
Print Assumptions C165_equivalence.
(* C165: identical files have the same differences from any other. *)
Theorem C165_interchangeable : forall w f1 f2 f3, regular w f1 -> regular w f2 -> regular w f3 ->
  fin (compares w f2 f3) = Exit 0 ->
  fin (compares w f1 f2) = fin (compares w f1 f3) /\ forall n l, reports w f1 f2 n l <-> reports w f1 f3 n l.
Proof.
  intros w f1 f2 f3 (P1&c1&O1) (P2&c2&O2) (P3&c3&O3) H. unfold compares in *.
  apply (cmp_two w f2 f3 c2 c3) in H; auto. subst c3. split.
  - destruct (cmp_two w f1 f2 c1 c2) as [E N], (cmp_two w f1 f3 c1 c2) as [E' N']; auto.
    destruct (list_eq_dec ascii_dec c1 c2) as [Q|Q]; [rewrite (proj2 E Q), (proj2 E' Q)|rewrite (N Q), (N' Q)]; reflexivity.
  - intros n l. rewrite (reports_iff w f1 f2 c1 c2), (reports_iff w f1 f3 c1 c2); auto. reflexivity.
Qed.
Print Assumptions C165_interchangeable.

Lemma prefix_cut : forall (p q : bytes) a b, length p < length q -> p ++ a = q ++ b -> exists y s, q = p ++ y :: s /\ a = y :: s ++ b.
Proof.
  induction p as [|c p IH]; intros [|d q] a b L E; cbn in L; try lia; cbn [app] in E.
  - exists d, q. split; auto.
  - injection E as -> E. destruct (IH q a b) as (y&s&->&->); [lia|auto|]. now exists y, s.
Qed.
Lemma firstn_pre : forall (p : bytes) r i, i <= length p -> firstn i (p ++ r) = firstn i p.
Proof. intros p r i L. rewrite firstn_app. replace (i - length p) with 0 by lia. apply app_nil_r. Qed.

(* C165: of three files, the difference reported for the first and the last is the earlier of the two others if one is
   earlier, and never comes before both. *)
Theorem C165_three_files : forall w f1 f2 f3 m l n k, regular w f1 -> regular w f2 -> regular w f3 ->
  reports w f1 f2 m l -> reports w f2 f3 n k ->
  (m < n -> reports w f1 f3 m l) /\ (n < m -> reports w f1 f3 n k) /\ (m = n -> l = k) /\
  (forall i j, reports w f1 f3 i j -> Nat.min m n <= i).
Proof.
  intros w f1 f2 f3 m l n k (P1&c1&O1) (P2&c2&O2) (P3&c3&O3) H12 H23.
  apply (reports_iff w f1 f2 c1 c2) in H12; auto. apply (reports_iff w f2 f3 c2 c3) in H23; auto.
  destruct H12 as (p&x&y&r1&r2&Q1&Q2&X&->&->), H23 as (q&u&v&s2&s3&Q2'&Q3&U&->&->).
  split; [|split; [|split]].
  - intros L. apply (reports_iff w f1 f3 c1 c3); auto. rewrite Q2 in Q2'. destruct (prefix_cut p q _ _ ltac:(lia) Q2') as (z&s&->&E).
    injection E as -> E. exists p, x, z, r1, (s ++ v :: s3). rewrite Q3, <- app_assoc. auto.
  - intros L. apply (reports_iff w f1 f3 c1 c3); auto. rewrite Q2 in Q2'. symmetry in Q2'. destruct (prefix_cut q p _ _ ltac:(lia) Q2') as (z&s&->&E).
    injection E as -> E. exists q, z, v, (s ++ x :: r1), s3. rewrite Q1, <- app_assoc. auto.
  - intros L. assert (Lp : length p = length q) by lia. rewrite Q2 in Q2'. f_equal. f_equal.
    rewrite <- (firstn_all p) at 1. rewrite <- (firstn_pre p (y :: r2) (length p)) by lia. now rewrite Q2', Lp, firstn_pre, firstn_all by lia.
  - intros i j H. apply (reports_iff w f1 f3 c1 c3) in H; auto. destruct H as (t&a&b&t1&t3&T1&T3&A&->&_).
    destruct (Nat.le_gt_cases (Nat.min (length p + 1) (length q + 1)) (length t + 1)) as [|L]; auto. exfalso. apply A.
    assert (Lp : length t < length p) by lia. assert (Lq : length t < length q) by lia.
    assert (N1 : nth_error c1 (length t) = nth_error c2 (length t)) by (rewrite Q1, Q2, !nth_error_app1 by auto; reflexivity).
    assert (N2 : nth_error c2 (length t) = nth_error c3 (length t)) by (rewrite Q2', Q3, !nth_error_app1 by auto; reflexivity).
    rewrite N2, T1, T3, !nth_error_app2, Nat.sub_diag in N1 by lia. cbn in N1. congruence.
Qed.
Print Assumptions C165_three_files.

Definition three_world : world :=
  {| opens := fun f => if beqb f (B "x") then Some (B "ab" ++ [nl] ++ B "cdef", None)
                       else if beqb f (B "y") then Some (B "ab" ++ [nl] ++ B "cxey", None)
                       else if beqb f (B "z") then Some (B "ab" ++ [nl] ++ B "cxez", None) else None;
     stdin := ([], None); both := (([], None), ([], None)) |}.
Example C165_nonvacuous : regular three_world (B "x") /\ regular three_world (B "y") /\ regular three_world (B "z") /\
  reports three_world (B "x") (B "y") 5 2 /\ reports three_world (B "y") (B "z") 7 2 /\ reports three_world (B "x") (B "z") 5 2 /\
  fin (compares three_world (B "z") (B "z")) = Exit 0.
Proof.
  assert (P : forall c, c <> "-"%char -> plain_operand [c]) by (intros c N; now exists c, []).
  repeat split; try (apply P; discriminate); try (eexists; reflexivity); vm_compute; reflexivity.
Qed.
