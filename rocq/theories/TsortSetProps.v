(* C156: what the output of tsort depends on.  Statements only; proofs in TsortSetProofs.v. *)
From Verif Require Import GoBase GoFacts GoMap TsortModel TsortSpec TsortProofs TsortQueueSpec TsortQueueProofs TsortRunSpec TsortRunProofs
  TsortSetSpec TsortSetProofs.

(* a run of the command on an input of pairs, whatever operands lead to it *)
Definition sorts (perm : list bytes -> list bytes) (ps : list (bytes * bytes)) (r : run_result) : Prop :=
  forall fs stdin args text, input_of fs stdin args = Some (text, None) -> pairs_text text ps ->
  tsort_main perm fs stdin args = Some r.

(* C156 is false: the pairs "a x" for all x in a list come out as a and then the list as it was written, whatever
   its order, although the pairs are the same *)
Theorem C156_order_of_pairs_refuted : forall perm a xs xs', (forall l, Permutation (perm l) l) ->
  NoDup (a :: xs) -> Permutation xs xs' -> xs <> xs' ->
  (forall p, In p (map (pair a) xs) <-> In p (map (pair a) xs')) /\
  sorts perm (map (pair a) xs) (printed (a :: xs)) /\ sorts perm (map (pair a) xs') (printed (a :: xs')).
Proof.
  intros perm a xs xs' P N Q D.
  assert (Ne : xs <> []) by (intros ->; apply D; apply Permutation_nil in Q; now subst).
  assert (Ne' : xs' <> []) by (intros ->; apply D; apply Permutation_sym, Permutation_nil in Q; now subst).
  assert (N' : NoDup (a :: xs')) by (eapply Permutation_NoDup; [apply perm_skip, Q|exact N]).
  split; [|split].
  - intros p. split; apply Permutation_in; [|apply Permutation_sym]; now apply Permutation_map.
  - intros fs stdin args text I [W S]. rewrite (tsort_main_input _ _ _ _ _ _ I W S). now apply star_run.
  - intros fs stdin args text I [W S]. rewrite (tsort_main_input _ _ _ _ _ _ I W S). now apply star_run.
Qed.
Print Assumptions C156_order_of_pairs_refuted.
Example C156_refuted_nonvacuous : let a := B "a" in let xs := map B ["x"; "y"]%string in let xs' := map B ["y"; "x"]%string in
  NoDup (a :: xs) /\ Permutation xs xs' /\ xs <> xs' /\
  pairs_text (B "a x a y") (map (pair a) xs) /\ pairs_text (B "a y a x") (map (pair a) xs').
Proof.
  cbv zeta. split; [repeat (apply NoDup_cons; [cbn; intuition discriminate|]); apply NoDup_nil|].
  split; [apply perm_swap|]. split; [discriminate|].
  split; apply worded_by; vm_compute; reflexivity.
Qed.

(* What is true: whether the pairs can be sorted, and which items are printed, depends only on which pairs there are (if no
   pair "x x" comes after a pair "x y"); *)
Theorem C156_same_pairs_partial : forall perm perm' ps ps', (forall l, Permutation (perm l) l) -> (forall l, Permutation (perm' l) l) ->
  no_erase_pairs ps -> no_erase_pairs ps' -> (forall p, In p ps <-> In p ps') ->
  (sorts perm ps impossible /\ sorts perm' ps' impossible) \/
  exists l l', Permutation l l' /\ sorts perm ps (printed l) /\ sorts perm' ps' (printed l').
Proof.
  intros perm perm' ps ps' P P' N N' H. destruct (same_run perm perm' P P' ps ps' N N' H) as [[E E']|(l&l'&Q&E&E')].
  - left. split; intros fs stdin args text I [W S]; rewrite (tsort_main_input _ _ _ _ _ _ I W S); assumption.
  - right. exists l, l'. split; [exact Q|]. split; intros fs stdin args text I [W S]; rewrite (tsort_main_input _ _ _ _ _ _ I W S); assumption.
Qed.
Print Assumptions C156_same_pairs_partial.
(* ... with fewer pairs, what could be sorted still can be; *)
Theorem C156_fewer_pairs_partial : forall perm perm' ps ps' l text fs stdin args,
  (forall l, Permutation (perm l) l) -> (forall l, Permutation (perm' l) l) ->
  no_erase_pairs ps -> no_erase_pairs ps' -> (forall p, In p ps' -> In p ps) ->
  input_of fs stdin args = Some (text, None) -> pairs_text text ps -> tsort_main perm fs stdin args = Some (printed l) ->
  exists l', sorts perm' ps' (printed l').
Proof.
  intros perm perm' ps ps' l text fs stdin args P P' N N' H I [W S] E. rewrite (tsort_main_input _ _ _ _ _ _ I W S) in E.
  destruct (fewer_run perm perm' P P' ps ps' l N N' H E) as (l'&E'). exists l'.
  intros fs' stdin' args' text' I' [W' S']. now rewrite (tsort_main_input _ _ _ _ _ _ I' W' S').
Qed.
Print Assumptions C156_fewer_pairs_partial.
(* ... and a pair given again changes nothing at all, in any input in which it was not taken back in between. *)
Theorem C156_again_partial : forall perm ps1 x y ps2 ps3 text text' fs stdin args fs' stdin' args',
  (x <> y -> ~ In (x, x) ps2) -> (x = y -> forall z, In (x, z) ps2 -> z = x) ->
  input_of fs stdin args = Some (text, None) -> pairs_text text (ps1 ++ (x, y) :: ps2 ++ (x, y) :: ps3) ->
  input_of fs' stdin' args' = Some (text', None) -> pairs_text text' (ps1 ++ (x, y) :: ps2 ++ ps3) ->
  tsort_main perm fs stdin args = tsort_main perm fs' stdin' args'.
Proof.
  intros perm ps1 x y ps2 ps3 text text' fs stdin args fs' stdin' args' H1 H2 I [W S] I' [W' S'].
  rewrite (tsort_main_input _ _ _ _ _ _ I W S), (tsort_main_input _ _ _ _ _ _ I' W' S'), !run_state.
  now rewrite again_state.
Qed.
Print Assumptions C156_again_partial.
(* ... in between, "x x" takes it back, and then it does make a difference *)
Theorem C156_taken_back_refuted : forall perm x y, (forall l, Permutation (perm l) l) -> x <> y ->
  sorts perm [(x, y); (x, x)] (printed [x]) /\ sorts perm [(x, y); (x, x); (x, y)] (printed [x; y]).
Proof.
  intros perm x y P D. assert (E : beqb x y = false) by now apply beqb_neq.
  assert (E' : beqb y x = false) by (apply beqb_neq; congruence).
  pose proof (P [x]) as Px. apply Permutation_sym, Permutation_length_1_inv in Px.
  split; intros fs stdin args text I [W S]; rewrite (tsort_main_input _ _ _ _ _ _ I W S), run_state;
    cbn [map fold_left]; unfold call; cbn [fst snd]; rewrite E, beqb_refl; unfold new_sorter; cbn [add add_pairs mset successors mfind in_slice app];
    unfold successors; cbn [mfind mset in_slice app]; rewrite ?beqb_refl; cbn [mfind mset in_slice app]; rewrite ?beqb_refl; cbn [mfind mset in_slice app];
    unfold order, heads, mkeys, remove_all, order_fuel; cbn [map fst snd fold_left filter flat_map app List.length plus]; rewrite ?E; cbn [negb]; rewrite Px;
    cbn [order_loop]; unfold successors; cbn [mfind mdel]; rewrite ?beqb_refl; cbn [mfind mdel filter app is_blocked existsb negb];
    cbn [order_loop]; unfold successors; cbn [mfind mdel filter app]; reflexivity.
Qed.
Print Assumptions C156_taken_back_refuted.
Example C156_nonvacuous :
  let ps := map (fun p => (B (fst p), B (snd p))) [("b", "c"); ("a", "b"); ("d", "d")]%string in
  let ps' := map (fun p => (B (fst p), B (snd p))) [("d", "d"); ("a", "b"); ("b", "c"); ("a", "b")]%string in
  no_erase_pairs ps /\ no_erase_pairs ps' /\ (forall p, In p ps <-> In p ps') /\
  pairs_text (B "b c a b d d") ps /\ pairs_text (B "d d a b b c a b") ps' /\
  tsort_main (fun l => l) (fun _ => None) (B "b c a b d d", None) [] = Some (printed (map B ["a"; "d"; "b"; "c"]%string)).
Proof.
  cbv zeta.
  assert (NE : forall ps, (forall x y, In (x, x) ps -> In (x, y) ps -> y = x) -> no_erase_pairs ps).
  { intros ps H pre x post E y I. apply H; rewrite E; apply in_or_app; [right; now left|now left]. }
  split; [|split; [|split; [|split; [|split]]]].
  - apply NE. intros x y H1 H2. cbn in H1, H2. repeat destruct H1 as [H1|H1]; try contradiction; try discriminate; injection H1 as <-;
    repeat destruct H2 as [H2|H2]; try contradiction; try discriminate. now injection H2 as <-.
  - apply NE. intros x y H1 H2. cbn in H1, H2. repeat destruct H1 as [H1|H1]; try contradiction; try discriminate; injection H1 as <-;
    repeat destruct H2 as [H2|H2]; try contradiction; try discriminate. now injection H2 as <-.
  - intros p. cbn. tauto.
  - apply worded_by. vm_compute. reflexivity.
  - apply worded_by. vm_compute. reflexivity.
  - vm_compute. reflexivity.
Qed.
