(* C148: a file from which lines were only added, or only removed, at one place.  Statements; proofs in DiffInsertProofs.v. *)
From Coq Require Import Permutation.
From Verif Require Import GoBase DiffModel DiffSpec DiffProofs DiffMoreSpec DiffMoreProofs DiffInsertProofs.

Definition a_line (l : bytes) : Prop := ~ In nl l.

(* One line is put in, and the difference removes another: refuted for every line repeated at least three times. *)
Theorem C148_insertion_refuted : forall x y n cs hs, 2 <= n -> x <> y -> a_line x -> a_line y ->
  let before := repeat x n in let after := [x; y] in
  diff (before ++ after) (before ++ [y] ++ after) = Some (Ok cs) -> read_diff (format cs) = Some hs ->
  removed_lines hs = [x] /\ added_lines hs = [x; y].
Proof.
  intros x y n cs hs Hn X Lx Ly before after E R.
  destruct (printed_changes (before ++ after) (before ++ [y] ++ after) cs hs) as (T&->&->); auto.
  - intros l I. apply in_app_or in I as [I|[<-|[<-|[]]]]; auto. apply repeat_spec in I. now subst.
  - intros l I. apply in_app_or in I as [I|[<-|[<-|[<-|[]]]]]; auto. apply repeat_spec in I. now subst.
  - now apply (tree_bad x y n).
Qed.
Print Assumptions C148_insertion_refuted.
Example C148_refuted_nonvacuous : exists cs hs, let before := repeat (B "{") 2 in let after := [B "{"; B "}"] in
  diff (before ++ after) (before ++ [B "}"] ++ after) = Some (Ok cs) /\ read_diff (format cs) = Some hs /\
  B "{" <> B "}" /\ a_line (B "{") /\ a_line (B "}").
Proof.
  do 2 eexists. cbv zeta. split; [vm_compute; reflexivity|]. split; [vm_compute; reflexivity|].
  split; [discriminate|]. split; cbn; intros [Q|[]]; discriminate.
Qed.

(* What is true: nothing is removed, and the lines added are those put in, if they were put before or after the old lines,
   or anywhere between old lines that are all different. *)
Theorem C148_around_partial : forall old p s cs hs, Forall a_line (p ++ old ++ s) ->
  diff old (p ++ old ++ s) = Some (Ok cs) -> read_diff (format cs) = Some hs ->
  removed_lines hs = [] /\ Permutation (added_lines hs) (p ++ s).
Proof.
  intros old p s cs hs F E R. rewrite Forall_forall in F.
  destruct (printed_changes old (p ++ old ++ s) cs hs) as (T&->&->); auto; [intros l I; apply F; rewrite !in_app_iff; auto|].
  pose proof (tree_block _ _ _ T p s eq_refl) as M. split; [exact M|].
  apply tree_balance in T. rewrite M, app_nil_r in T. now apply middle_perm in T.
Qed.
Print Assumptions C148_around_partial.
Theorem C148_insertion_partial : forall a x b cs hs, Forall a_line (a ++ x ++ b) -> NoDup (a ++ b) ->
  diff (a ++ b) (a ++ x ++ b) = Some (Ok cs) -> read_diff (format cs) = Some hs ->
  removed_lines hs = [] /\ Permutation (added_lines hs) x.
Proof.
  intros a x b cs hs F N E R. rewrite Forall_forall in F.
  destruct (printed_changes (a ++ b) (a ++ x ++ b) cs hs) as (T&->&->); auto.
  { intros l I. apply F. rewrite !in_app_iff in *. tauto. }
  pose proof (tree_insert _ _ _ T a x b N eq_refl eq_refl) as M. split; [exact M|].
  apply tree_balance in T. rewrite M, app_nil_r in T. now apply ends_perm in T.
Qed.
Print Assumptions C148_insertion_partial.
(* The same for lines taken away. *)
Theorem C148_removed_around_partial : forall new p s cs hs, Forall a_line (p ++ new ++ s) ->
  diff (p ++ new ++ s) new = Some (Ok cs) -> read_diff (format cs) = Some hs ->
  added_lines hs = [] /\ Permutation (removed_lines hs) (p ++ s).
Proof.
  intros new p s cs hs F E R. rewrite Forall_forall in F.
  destruct (printed_changes (p ++ new ++ s) new cs hs) as (T&->&->); auto; [intros l I; apply F; rewrite !in_app_iff; auto|].
  pose proof (tree_block_back _ _ _ T p s eq_refl) as M. split; [exact M|].
  apply tree_balance in T. rewrite M, app_nil_r in T. symmetry in T. now apply middle_perm in T.
Qed.
Print Assumptions C148_removed_around_partial.
Theorem C148_removal_partial : forall a x b cs hs, Forall a_line (a ++ x ++ b) -> NoDup (a ++ b) ->
  diff (a ++ x ++ b) (a ++ b) = Some (Ok cs) -> read_diff (format cs) = Some hs ->
  added_lines hs = [] /\ Permutation (removed_lines hs) x.
Proof.
  intros a x b cs hs F N E R. rewrite Forall_forall in F.
  destruct (printed_changes (a ++ x ++ b) (a ++ b) cs hs) as (T&->&->); auto.
  { intros l I. apply F. rewrite !in_app_iff in *. tauto. }
  pose proof (tree_delete _ _ _ T a x b N eq_refl eq_refl) as M. split; [exact M|].
  apply tree_balance in T. rewrite M, app_nil_r in T. symmetry in T. now apply ends_perm in T.
Qed.
Print Assumptions C148_removal_partial.
(* The lines put in may repeat old ones; they need not be added at the same place. *)
Example C148_nonvacuous : exists cs hs, let a := map B ["1"; "2"]%string in let b := map B ["3"; "4"]%string in
  let x := map B ["7"; "2"; "3"; "4"; "7"]%string in
  Forall a_line (a ++ x ++ b) /\ NoDup (a ++ b) /\ diff (a ++ b) (a ++ x ++ b) = Some (Ok cs) /\ read_diff (format cs) = Some hs /\
  added_lines hs = map B ["2"; "7"; "7"; "3"; "4"]%string.
Proof.
  do 2 eexists. cbv zeta. split; [|split; [|split; [vm_compute; reflexivity|split; [vm_compute; reflexivity|vm_compute; reflexivity]]]].
  - cbn. repeat constructor; cbn; intros [Q|[]]; discriminate.
  - cbn. repeat constructor; cbn; intuition discriminate.
Qed.
