(* Proofs for C148. *)
From Coq Require Import Permutation.
From Verif Require Import GoBase DiffModel DiffSpec DiffProofs DiffMoreSpec DiffMoreProofs.

Lemma prefix_or : forall (a b c d : list bytes), a ++ b = c ++ d -> (exists l, a = c ++ l) \/ (exists h l, c = a ++ h :: l /\ b = h :: l ++ d).
Proof.
  induction a as [|x a IH]; intros b c d E.
  - destruct c as [|h c]; [left; now exists []|]. right. exists h, c. auto.
  - destruct c as [|h c]; [left; now exists (x :: a)|]. cbn in E. injection E as <- E.
    destruct (IH _ _ _ E) as [(l&->)|(h&l&->&->)]; [left; now exists l|right; now exists h, l].
Qed.
Lemma split_bound : forall (a b c d : list bytes), a ++ b = c ++ d -> List.length a <= List.length c -> exists l, c = a ++ l.
Proof.
  intros a b c d E L. destruct (prefix_or _ _ _ _ E) as [(l&->)|(h&l&->&_)]; [|eauto].
  rewrite app_length in L. destruct l; [exists []; now rewrite !app_nil_r|cbn in L; lia].
Qed.

(* Left of the run. *)
Lemma left_part : forall (a b rest o1 run o2 n1 n2 : list bytes), NoDup (a ++ b) -> run <> [] -> List.length b <= List.length run ->
  o1 ++ run ++ o2 = a ++ b -> n1 ++ run ++ n2 = a ++ rest -> exists s, n1 = o1 ++ s.
Proof.
  intros a b rest o1 run o2 n1 n2 N R L Eo En.
  assert (Lo : List.length o1 <= List.length a).
  { apply (f_equal (@List.length bytes)) in Eo. rewrite !app_length in Eo. lia. }
  destruct (split_bound _ _ _ _ Eo Lo) as (a'&->).
  rewrite <- app_assoc in En. destruct (prefix_or _ _ _ _ En) as [H|(h&l&->&E2)]; [exact H|].
  exfalso. destruct run as [|k run]; [congruence|]. cbn in E2. injection E2 as <- _.
  rewrite <- Eo in N. rewrite <- app_assoc in N. cbn in N. apply NoDup_remove_2 in N. apply N.
  rewrite !in_app_iff. cbn. tauto.
Qed.
Lemma right_part : forall (a b rest o1 run o2 n1 n2 : list bytes), NoDup (a ++ b) -> run <> [] -> List.length a <= List.length run ->
  o1 ++ run ++ o2 = a ++ b -> n1 ++ run ++ n2 = rest ++ b -> exists s, n2 = s ++ o2.
Proof.
  intros a b rest o1 run o2 n1 n2 N R L Eo En.
  apply (f_equal (@rev bytes)) in Eo, En. rewrite !rev_app_distr, <- !app_assoc in Eo, En.
  assert (N' : NoDup (rev b ++ rev a)). { rewrite <- rev_app_distr. now apply NoDup_rev. }
  destruct (left_part (rev b) (rev a) (rev rest) (rev o2) (rev run) (rev o1) (rev n2) (rev n1) N') as (s&E); auto.
  - intros Z. apply R. rewrite <- (rev_involutive run), Z. reflexivity.
  - now rewrite !rev_length.
  - exists (rev s). rewrite <- (rev_involutive n2), E, rev_app_distr, rev_involutive. reflexivity.
Qed.

(* The whole of one file in the other. *)
Lemma tree_block : forall old new c, diff_tree old new c -> forall p s, new = p ++ old ++ s -> minus_of c = [].
Proof.
  intros old new c T p s E. destruct T as [|new Nn|old No|old new No Nn Z|o1 o2 n1 n2 run c1 c2 Nr Lr T1 T2]; auto.
  - exfalso. symmetry in E. apply app_eq_nil in E as [_ E]. apply app_eq_nil in E. tauto.
  - exfalso. pose proof (longest_run_max old new old [] [] p s) as M. rewrite app_nil_r in M. specialize (M eq_refl E).
    destruct old; [congruence|]. cbn [List.length] in M. lia.
  - pose proof (longest_run_max (o1 ++ run ++ o2) (n1 ++ run ++ n2) (o1 ++ run ++ o2) [] [] p s) as M.
    rewrite app_nil_r in M. specialize (M eq_refl E). rewrite <- Lr, !app_length in M.
    destruct o1 as [|]; [|cbn in M; lia]. destruct o2 as [|]; [|cbn in M; lia].
    destruct (tree_all_added _ _ _ T1 eq_refl) as [E1 _], (tree_all_added _ _ _ T2 eq_refl) as [E2 _].
    unfold minus_of in *. rewrite !flat_map_app, E1, E2. reflexivity.
Qed.
Lemma tree_block_back : forall old new c, diff_tree old new c -> forall p s, old = p ++ new ++ s -> add_of c = [].
Proof.
  intros old new c T p s E. destruct T as [|new Nn|old No|old new No Nn Z|o1 o2 n1 n2 run c1 c2 Nr Lr T1 T2]; auto.
  - exfalso. symmetry in E. apply app_eq_nil in E as [_ E]. apply app_eq_nil in E. tauto.
  - exfalso. pose proof (longest_run_max old new new p s [] []) as M. rewrite app_nil_r in M. specialize (M E eq_refl).
    destruct new; [congruence|]. cbn [List.length] in M. lia.
  - pose proof (longest_run_max (o1 ++ run ++ o2) (n1 ++ run ++ n2) (n1 ++ run ++ n2) p s [] []) as M.
    rewrite app_nil_r in M. specialize (M E eq_refl). rewrite <- Lr, !app_length in M.
    destruct n1 as [|]; [|cbn in M; lia]. destruct n2 as [|]; [|cbn in M; lia].
    destruct (tree_all_removed _ _ _ T1 eq_refl) as [_ E1], (tree_all_removed _ _ _ T2 eq_refl) as [_ E2].
    unfold add_of in *. rewrite !flat_map_app, E1, E2. reflexivity.
Qed.

(* A block put in somewhere. *)
Lemma tree_insert : forall old new c, diff_tree old new c -> forall a x b, NoDup (a ++ b) -> old = a ++ b -> new = a ++ x ++ b ->
  minus_of c = [].
Proof.
  intros old new c T a x b N Eo En. destruct T as [|new Nn|old No|old new No Nn Z|o1 o2 n1 n2 run c1 c2 Nr Lr T1 T2]; auto.
  - exfalso. symmetry in En. apply app_eq_nil in En as [-> En]. apply app_eq_nil in En as [_ ->]. auto.
  - exfalso. pose proof (longest_run_max old new a [] b [] (x ++ b) Eo En) as M1.
    pose proof (longest_run_max old new b a [] (a ++ x) []) as M2. rewrite app_nil_r in M2. rewrite <- app_assoc in M2.
    specialize (M2 Eo En). rewrite Z in *. destruct a; [|cbn in M1; lia]. destruct b; [|cbn in M2; lia]. auto.
  - pose proof (longest_run_max (o1 ++ run ++ o2) (n1 ++ run ++ n2) a [] b [] (x ++ b) Eo En) as M1.
    pose proof (longest_run_max (o1 ++ run ++ o2) (n1 ++ run ++ n2) b a [] (a ++ x) []) as M2.
    rewrite app_nil_r in M2. rewrite <- (app_assoc a x b) in M2. specialize (M2 Eo En). rewrite <- Lr in *.
    destruct (left_part a b (x ++ b) o1 run o2 n1 n2) as (s1&->); auto.
    destruct (right_part a b (a ++ x) o1 run o2 (o1 ++ s1) n2) as (s2&->); auto; [now rewrite <- (app_assoc a x b)|].
    pose proof (tree_block _ _ _ T1 [] s1 eq_refl) as E1. pose proof (tree_block _ _ _ T2 s2 []) as E2.
    rewrite app_nil_r in E2. specialize (E2 eq_refl).
    unfold minus_of in *. rewrite !flat_map_app, E1, E2. reflexivity.
Qed.
Lemma tree_delete : forall old new c, diff_tree old new c -> forall a x b, NoDup (a ++ b) -> old = a ++ x ++ b -> new = a ++ b ->
  add_of c = [].
Proof.
  intros old new c T a x b N Eo En. destruct T as [|new Nn|old No|old new No Nn Z|o1 o2 n1 n2 run c1 c2 Nr Lr T1 T2]; auto.
  - exfalso. symmetry in Eo. apply app_eq_nil in Eo as [-> Eo]. apply app_eq_nil in Eo as [_ ->]. auto.
  - exfalso. pose proof (longest_run_max old new a [] (x ++ b) [] b Eo En) as M1.
    pose proof (longest_run_max old new b (a ++ x) [] a []) as M2. rewrite app_nil_r in M2. rewrite <- app_assoc in M2.
    specialize (M2 Eo En). rewrite Z in *. destruct a; [|cbn in M1; lia]. destruct b; [|cbn in M2; lia]. auto.
  - pose proof (longest_run_max (o1 ++ run ++ o2) (n1 ++ run ++ n2) a [] (x ++ b) [] b Eo En) as M1.
    pose proof (longest_run_max (o1 ++ run ++ o2) (n1 ++ run ++ n2) b (a ++ x) [] a []) as M2.
    rewrite app_nil_r in M2. rewrite <- (app_assoc a x b) in M2. specialize (M2 Eo En). rewrite <- Lr in *.
    destruct (left_part a b (x ++ b) n1 run n2 o1 o2) as (s1&->); auto.
    destruct (right_part a b (a ++ x) n1 run n2 (n1 ++ s1) o2) as (s2&->); auto; [now rewrite <- (app_assoc a x b)|].
    pose proof (tree_block_back _ _ _ T1 [] s1 eq_refl) as E1. pose proof (tree_block_back _ _ _ T2 s2 []) as E2.
    rewrite app_nil_r in E2. specialize (E2 eq_refl).
    unfold add_of in *. rewrite !flat_map_app, E1, E2. reflexivity.
Qed.

(* One line put in, and a line removed. *)
Lemma nth_repeat_some : forall (x : bytes) n k, k < n -> nth_error (repeat x n) k = Some x.
Proof. intros x n. induction n as [|n IH]; intros [|k] L; cbn; try lia; auto. apply IH. lia. Qed.
Lemma nth_old : forall (x y : bytes) n k, k <= n -> nth_error (repeat x n ++ [x; y]) k = Some x.
Proof.
  intros x y n k L. destruct (Nat.eq_dec k n) as [->|Q].
  - rewrite nth_error_app2; rewrite repeat_length; [|lia]. now rewrite Nat.sub_diag.
  - rewrite nth_error_app1 by (rewrite repeat_length; lia). apply nth_repeat_some. lia.
Qed.
Lemma nth_new : forall (x y : bytes) n, nth_error (repeat x n ++ [y; x; y]) n = Some y.
Proof. intros x y n. rewrite nth_error_app2; rewrite repeat_length; [|lia]. now rewrite Nat.sub_diag. Qed.
Lemma bad_run : forall (x y : bytes) n o1 o2 n1 n2 run, 2 <= n -> x <> y -> n < List.length run ->
  o1 ++ run ++ o2 = repeat x n ++ [x; y] -> n1 ++ run ++ n2 = repeat x n ++ [y; x; y] ->
  o1 = [x] /\ o2 = [] /\ n1 = [] /\ n2 = [x; y].
Proof.
  intros x y n o1 o2 n1 n2 run Hn X L Eo En.
  assert (Lo := f_equal (@List.length bytes) Eo). assert (Ln := f_equal (@List.length bytes) En).
  rewrite !app_length, repeat_length in Lo, Ln. cbn in Lo, Ln.
  (* the line at place n of the new file is in the run *)
  assert (Q : nth_error run (n - List.length n1) = Some y).
  { rewrite <- (nth_new x y n), <- En. rewrite nth_error_app2 by lia. rewrite nth_error_app1 by lia. reflexivity. }
  assert (P : nth_error (o1 ++ run ++ o2) (List.length o1 + (n - List.length n1)) = Some y).
  { rewrite nth_error_app2 by lia. replace (List.length o1 + (n - List.length n1) - List.length o1) with (n - List.length n1) by lia.
    rewrite nth_error_app1 by lia. exact Q. }
  rewrite Eo in P. destruct (Nat.le_gt_cases (List.length o1 + (n - List.length n1)) n) as [G|G].
  - rewrite nth_old in P by exact G. congruence.
  - destruct n1 as [|]; [|cbn [List.length] in *; lia]. cbn [List.length] in *.
    destruct o1 as [|w [|]]; cbn [List.length] in *; try lia. destruct o2 as [|]; cbn [List.length] in *; [|lia].
    rewrite app_nil_r in Eo. destruct n as [|n]; [lia|]. cbn [repeat app] in Eo. injection Eo as -> Eo.
    rewrite Eo in En. cbn [app] in En. repeat split.
    change (x :: repeat x n) with (repeat x (S n)) in En.
    assert (Z : repeat x n ++ [x; y] = repeat x (S n) ++ [y]).
    { change [x; y] with ([x] ++ [y]). rewrite app_assoc. f_equal. cbn. now rewrite <- repeat_cons. }
    rewrite Z, <- app_assoc in En. apply app_inv_head in En. cbn in En. now injection En.
Qed.
Lemma tree_bad : forall (x y : bytes) n c, 2 <= n -> x <> y -> diff_tree (repeat x n ++ [x; y]) (repeat x n ++ [y; x; y]) c ->
  minus_of c = [x] /\ add_of c = [x; y].
Proof.
  intros x y n c Hn X T.
  assert (M : n < sub_len (longest_run (repeat x n ++ [x; y]) (repeat x n ++ [y; x; y]))).
  { pose proof (longest_run_max (repeat x n ++ [x; y]) (repeat x n ++ [y; x; y]) (repeat x n ++ [y]) [x] [] [] [x; y]) as M.
    rewrite app_length, repeat_length in M. cbn [List.length] in M. enough (n + 1 <= sub_len (longest_run (repeat x n ++ [x; y]) (repeat x n ++ [y; x; y]))) by lia.
    apply M; [|now rewrite <- app_assoc]. rewrite app_nil_r. change [x; y] with ([x] ++ [y]). rewrite !app_assoc. f_equal.
    cbn. now rewrite <- repeat_cons. }
  remember (repeat x n ++ [x; y]) as old eqn:Eo. remember (repeat x n ++ [y; x; y]) as new eqn:En.
  destruct T as [|new Nn|old No|old new No Nn Z|o1 o2 n1 n2 run c1 c2 Nr Lr T1 T2].
  - destruct n; discriminate.
  - destruct n; discriminate.
  - destruct n; discriminate.
  - lia.
  - rewrite <- Lr in M. destruct (bad_run x y n o1 o2 n1 n2 run) as (->&->&->&->); auto.
    destruct (tree_all_removed _ _ _ T1 eq_refl) as [E1 E2], (tree_all_added _ _ _ T2 eq_refl) as [E3 E4].
    unfold minus_of, add_of in *. rewrite !flat_map_app, E1, E2, E3, E4. auto.
Qed.

(* From the comparisons to the printed difference. *)
Lemma printed_changes : forall old new cs hs, (forall l, In l old -> ~ In nl l) -> (forall l, In l new -> ~ In nl l) ->
  diff old new = Some (Ok cs) -> read_diff (format cs) = Some hs ->
  diff_tree old new cs /\ removed_lines hs = minus_of cs /\ added_lines hs = add_of cs.
Proof.
  intros old new cs hs Ho Hn E R. destruct (printed old new cs Ho Hn E) as [P T]. rewrite R in P. injection P as ->.
  split; [exact T|]. now apply (hunks_minus (List.length cs)).
Qed.

Lemma balance : forall cs, Permutation (assemble_old cs ++ add_of cs) (assemble_new cs ++ minus_of cs).
Proof.
  induction cs as [|[k v] cs IH]; [constructor|].
  unfold assemble_old, assemble_new, add_of, minus_of in *. cbn [flat_map kind values]. destruct k; cbn [app].
  - rewrite <- !app_assoc. now apply Permutation_app_head.
  - rewrite <- app_assoc. rewrite (Permutation_app_comm v (flat_map _ cs)), app_assoc, (Permutation_app_comm _ v).
    now apply Permutation_app_head.
  - rewrite <- app_assoc, IH, !app_assoc. apply Permutation_app_tail. apply Permutation_app_comm.
Qed.
Lemma tree_balance : forall old new cs, diff_tree old new cs -> Permutation (old ++ add_of cs) (new ++ minus_of cs).
Proof. intros old new cs T. destruct (diff_tree_assemble _ _ _ T) as [E1 E2]. rewrite <- E1 at 1. rewrite <- E2 at 1. apply balance. Qed.
Lemma middle_perm : forall (p m s x : list bytes), Permutation (m ++ x) (p ++ m ++ s) -> Permutation x (p ++ s).
Proof.
  intros p m s x H. apply (Permutation_app_inv_l m). rewrite H. rewrite !app_assoc. apply Permutation_app_tail. apply Permutation_app_comm.
Qed.
Lemma ends_perm : forall (a b x y : list bytes), Permutation ((a ++ b) ++ y) (a ++ x ++ b) -> Permutation y x.
Proof.
  intros a b x y H. apply (Permutation_app_inv_l (a ++ b)). rewrite H, <- app_assoc. apply Permutation_app_head, Permutation_app_comm.
Qed.
