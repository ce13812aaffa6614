(* Proofs for C116. *)
From Verif Require Import GoBase GoFacts CmpModel CmpSpec CmpProofs.

Definition swap_settings (s : settings) : settings :=
  {| writeAll := writeAll s; silent := silent s; file1 := file2 s; file2 := file1 s |}.
Definition swap_diff (d : nat * (ascii * ascii)) : nat * (ascii * ascii) := (fst d, (snd (snd d), fst (snd d))).

Lemma diff_cons : forall i x y c1 c2,
  filter (fun p => negb (Ascii.eqb (fst (snd p)) (snd (snd p)))) (combine (seq i (length (x :: c1))) (combine (x :: c1) (y :: c2))) =
  (if Ascii.eqb x y then [] else [(i, (x, y))]) ++
  filter (fun p => negb (Ascii.eqb (fst (snd p)) (snd (snd p)))) (combine (seq (S i) (length c1)) (combine c1 c2)).
Proof. intros. cbn [length seq combine filter fst snd]. destruct (Ascii.eqb x y); reflexivity. Qed.

Lemma diffs_swap : forall c1 c2 i,
  filter (fun p => negb (Ascii.eqb (fst (snd p)) (snd (snd p)))) (combine (seq i (length c2)) (combine c2 c1)) =
  map swap_diff (filter (fun p => negb (Ascii.eqb (fst (snd p)) (snd (snd p)))) (combine (seq i (length c1)) (combine c1 c2))).
Proof.
  induction c1 as [|x c1 IH]; intros [|y c2] i; try reflexivity.
  - rewrite !diff_cons, map_app, IH, Ascii.eqb_sym. f_equal. destruct (Ascii.eqb x y); reflexivity.
Qed.
Lemma differences_swap : forall c1 c2, differences c2 c1 = map swap_diff (differences c1 c2).
Proof. intros. apply diffs_swap. Qed.

(* status and diagnostics do not depend on the order, nor on what is printed *)
Lemma swap_end : forall s c1 c2 i l l' o o',
  fin (cmp_loop (swap_settings s) c2 c1 None None i l' o') = fin (cmp_loop s c1 c2 None None i l o) /\
  errout (cmp_loop (swap_settings s) c2 c1 None None i l' o') = errout (cmp_loop s c1 c2 None None i l o).
Proof.
  intros s. induction c1 as [|x c1 IH]; intros [|y c2] i l l' o o'; try (split; reflexivity).
  cbn [cmp_loop]. cbv zeta. rewrite (Ascii.eqb_sym y x). destruct (Ascii.eqb x y); [apply IH|].
  cbn [swap_settings writeAll silent file1 file2]. destruct (writeAll s); [apply IH|split; reflexivity].
Qed.
(* without -l *)
Lemma swap_out : forall s c1 c2 i l, writeAll s = false ->
  (out (cmp_loop s c1 c2 None None i l []) = [] /\ out (cmp_loop (swap_settings s) c2 c1 None None i l []) = []) \/
  exists t, out (cmp_loop s c1 c2 None None i l []) = file1 s ++ B " " ++ file2 s ++ t /\
            out (cmp_loop (swap_settings s) c2 c1 None None i l []) = file2 s ++ B " " ++ file1 s ++ t.
Proof.
  intros s c1 c2 i l W. revert c2 i l. induction c1 as [|x c1 IH]; intros [|y c2] i l; try (left; split; reflexivity).
  cbn [cmp_loop]. cbv zeta. rewrite (Ascii.eqb_sym y x). destruct (Ascii.eqb x y) eqn:E.
  - apply Ascii.eqb_eq in E. subst y. apply IH.
  - cbn [swap_settings writeAll silent file1 file2]. rewrite W. cbn [out]. destruct (silent s); [left; split; reflexivity|].
    right. eexists. cbn [app]. split; reflexivity.
Qed.

Lemma same_options : forall args args', (forall o, is_option o = true -> (In o args <-> In o args')) ->
  forall o, is_option o = true -> existsb (beqb o) args' = existsb (beqb o) args.
Proof.
  intros args args' H o O. destruct (in_dec bytes_dec o args) as [i|i].
  - rewrite !existsb_in; auto. now apply H.
  - rewrite !existsb_not_in; auto. rewrite <- H; auto.
Qed.

Lemma cmp_swapped : forall w f1 f2 args args' c1 c2, operands args = [f1; f2] -> operands args' = [f2; f1] ->
  f1 <> [] -> f2 <> [] -> (forall o, is_option o = true -> (In o args <-> In o args')) ->
  sees w f1 f2 (c1, None) (c2, None) -> sees w f2 f1 (c2, None) (c1, None) ->
  fin (cmp_main w args') = fin (cmp_main w args) /\ errout (cmp_main w args') = errout (cmp_main w args) /\
  (~ In (B "-l") args -> (out (cmp_main w args) = [] /\ out (cmp_main w args') = []) \/
     exists t, out (cmp_main w args) = f1 ++ B " " ++ f2 ++ t /\ out (cmp_main w args') = f2 ++ B " " ++ f1 ++ t) /\
  (In (B "-l") args -> exists ds,
     out (cmp_main w args) = flat_map (fun p => ntoa (fst p) ++ B " " ++ octal (fst (snd p)) ++ B " "
       ++ octal (snd (snd p)) ++ [nl]) ds /\
     out (cmp_main w args') = flat_map (fun p => ntoa (fst p) ++ B " " ++ octal (snd (snd p)) ++ B " "
       ++ octal (fst (snd p)) ++ [nl]) ds).
Proof.
  intros w f1 f2 args args' c1 c2 O O' N1 N2 Op S1 S2.
  pose proof (cmp_run w args f1 f2 c1 None c2 None O N1 N2 S1) as R1.
  pose proof (cmp_run w args' f2 f1 c2 None c1 None O' N2 N1 S2) as R2.
  rewrite !(same_options args args' Op) in R2 by reflexivity.
  set (s := {| writeAll := existsb (beqb (B "-l")) args; silent := existsb (beqb (B "-s")) args; file1 := f1; file2 := f2 |}) in *.
  change {| writeAll := _; silent := _; file1 := f2; file2 := f1 |} with (swap_settings s) in R2.
  rewrite R1, R2. destruct (swap_end s c1 c2 1 1 1 [] []) as [E1 E2]. split; [exact E1|]. split; [exact E2|]. split.
  - intros L. apply (swap_out s). unfold s. cbn [writeAll]. now apply existsb_not_in.
  - intros L. assert (W : writeAll s = true) by (unfold s; cbn [writeAll]; now apply existsb_in).
    assert (W' : writeAll (swap_settings s) = true) by exact W.
    pose proof (proj1 (cmp_loop_all s c1 c2 1 1 [] W)) as A. pose proof (proj1 (cmp_loop_all _ c2 c1 1 1 [] W')) as A'.
    cbn [app] in A, A'. change (silent (swap_settings s)) with (silent s) in A'. destruct (silent s).
    + exists []. split; [exact A|exact A'].
    + exists (differences c1 c2). split; [exact A|]. rewrite A', diffs_swap, flat_map_concat_map, map_map, <- flat_map_concat_map.
      reflexivity.
Qed.
