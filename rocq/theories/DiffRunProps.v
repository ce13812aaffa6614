(* C152-C154: which lines Diff keeps, how long it takes, and what happens when the files are exchanged.
   Statements; proofs in DiffFirstProofs.v, DiffCostProofs.v and DiffSwapProofs.v. *)
From Verif Require Import GoBase DiffModel DiffSpec DiffMoreSpec DiffMoreProofs DiffInsertProofs DiffRunSpec DiffFirstProofs DiffCostModel DiffCostProofs DiffSwapProofs.

(* C152: Diff keeps the longest block of lines that both files have (of several the one that ends first in the new file, then
   the one that begins first in the old file), and does the same with what is before it and what is after it.  This
   determines its result, in both directions. *)
Theorem C152_difference : forall old new cs, diff old new = Some (Ok cs) <-> by_longest old new (map piece_of cs).
Proof. exact diff_by_longest. Qed.
Print Assumptions C152_difference.
(* What is printed says just that. *)
Theorem C152_printed : forall old new cs hs, (forall l, In l old -> ~ In nl l) -> (forall l, In l new -> ~ In nl l) ->
  diff old new = Some (Ok cs) -> read_diff (format cs) = Some hs ->
  exists ps, by_longest old new ps /\ removed_lines hs = taken ps /\ added_lines hs = put_in ps.
Proof. intros old new cs hs Ho Hn E R. exists (map piece_of cs). now apply printed_pieces. Qed.
Print Assumptions C152_printed.
Definition demo_a : list bytes := map B ["x"; "a"; "b"; "y"; "a"; "b"; "z"]%string.
Definition demo_b : list bytes := map B ["z"; "b"; "a"; "b"; "x"; "a"; "b"]%string.
Example C152_nonvacuous : exists cs, diff demo_a demo_b = Some (Ok cs) /\
  map piece_of cs = [Put (map B ["z"; "b"; "a"; "b"]%string); Keep (map B ["x"; "a"; "b"]%string); Remove (map B ["y"; "a"; "b"; "z"]%string)] /\
  by_longest demo_a demo_b (map piece_of cs) /\
  exists cs', diff (map B ["a"; "b"]%string) (map B ["b"; "a"]%string) = Some (Ok cs') /\
    map piece_of cs' = [Remove [B "a"]; Keep [B "b"]; Put [B "a"]].
Proof.
  eexists. split; [vm_compute; reflexivity|]. split; [vm_compute; reflexivity|]. split; [apply C152_difference; vm_compute; reflexivity|].
  eexists. split; vm_compute; reflexivity.
Qed.

(* C153: the number of steps is not bounded by a multiple of the product of the two sizes.  Two files of 2k lines, every second of
   which is the same line x and which have no other line in common, take about k*k*k/3 steps; a step is a call of Diff or
   a round of one of its loops. *)
Theorem C153_steps_refuted : forall x a b cs n, List.length a = List.length b -> ~ In x a -> ~ In x b -> (forall l, In l b -> ~ In l a) ->
  diff_steps (flat_map (fun l => [l; x]) a) (flat_map (fun l => [l; x]) b) = Some (Ok cs, n) ->
  let k := List.length a in 6 * n + 24 = (k + 2) * (k + 3) * (2 * k + 5).
Proof.
  intros x a b cs n L Na Nb D E k. destruct (each_cost x a b L Na Nb D) as (k'&C&Q). apply steps_cost in E.
  assert (R : forall l, flat_map (fun l => [l; x]) l = each x l) by (induction l as [|z l IH]; auto; cbn [flat_map app]; now rewrite IH).
  rewrite !R in E. now rewrite (cost_det _ _ _ E _ C).
Qed.
Print Assumptions C153_steps_refuted.
Theorem C153_no_constant_refuted : forall c, exists old new cs n, diff_steps old new = Some (Ok cs, n) /\
  c * (S (List.length old) * S (List.length new)) < n.
Proof.
  intros c. set (k := 24 * c + 24). set (old := each [] (repeat (B "a") k)). set (new := each [] (repeat (B "b") k)).
  destruct (steps_diff old new) as (cs&n&E&_). exists old, new, cs, n. split; auto.
  destruct (each_cost [] (repeat (B "a") k) (repeat (B "b") k)) as (k'&C&Q).
  { now rewrite !repeat_length. } { intros I. apply repeat_spec in I. discriminate. } { intros I. apply repeat_spec in I. discriminate. }
  { intros l I J. apply repeat_spec in I, J. subst. discriminate. }
  apply steps_cost in E. rewrite (cost_det _ _ _ E _ C). unfold old, new. rewrite !each_length, !repeat_length. rewrite repeat_length in Q.
  assert (K : 24 * c + 24 = k) by reflexivity. clearbody k. clear - Q K. nia.
Qed.
Print Assumptions C153_no_constant_refuted.
(* What is true: if no line of the new file is in the old file more than r times (r may be the length of the old file), there are
   at most (N + (1+r)*M) * min(N, M) steps, where N and M are one more than the numbers of lines. *)
Theorem C153_steps_partial : forall r old new cs n, (forall l, In l new -> count_occ line_dec old l <= r) ->
  diff_steps old new = Some (Ok cs, n) ->
  let N := S (List.length old) in let M := S (List.length new) in n <= (N + (1 + r) * M) * Nat.min N M.
Proof.
  intros r old new cs n H E N M. apply steps_cost in E. destruct (cost_bound _ _ _ E r H) as [P Q]. fold N M in P, Q.
  destruct (Nat.min_dec N M) as [-> | ->]; assumption.
Qed.
Print Assumptions C153_steps_partial.
(* The function with the counter is Diff. *)
Theorem C153_same_result : forall old new, exists cs n, diff_steps old new = Some (Ok cs, n) /\ diff old new = Some (Ok cs).
Proof. exact steps_diff. Qed.
Print Assumptions C153_same_result.
Example C153_nonvacuous : let a := map B ["a"; "b"; "c"; "d"]%string in let b := map B ["p"; "q"; "r"; "s"]%string in
  exists cs n, diff_steps (flat_map (fun l => [l; B "x"]) a) (flat_map (fun l => [l; B "x"]) b) = Some (Ok cs, n) /\
  n = 87 /\ List.length a = List.length b /\ ~ In (B "x") a /\ ~ In (B "x") b /\ (forall l, In l b -> ~ In l a) /\
  (forall l, In l b -> count_occ line_dec a l <= 1) /\ exists cs' n', diff_steps demo_a demo_b = Some (Ok cs', n') /\ n' = 29.
Proof.
  cbv zeta. do 2 eexists. split; [vm_compute; reflexivity|]. split; [reflexivity|]. split; [reflexivity|].
  split; [|split; [|split; [|split]]].
  - cbn [map In]. intuition discriminate.
  - cbn [map In]. intuition discriminate.
  - intros l I J. cbn [map In] in *. intuition (subst; discriminate).
  - intros l I. cbn [map In] in I. intuition (subst; vm_compute; auto).
  - do 2 eexists. split; vm_compute; reflexivity.
Qed.

(* C154, refuted: the old file is w1 s w2 s ... wk s y, the new file is y t w1 t w2 ... t wk.  Compared in this order all
   lines but y are removed and added; the other way round only y and the lines s and t are. *)
Theorem C154_exchange_refuted : forall (s t y : bytes) (ws : list bytes), s <> t -> s <> y -> t <> y -> ws <> [] -> ~ In s ws -> ~ In t ws -> ~ In y ws ->
  let old := flat_map (fun w => [w; s]) ws ++ [y] in let new := y :: flat_map (fun w => [t; w]) ws in
  (forall l, In l old -> ~ In nl l) -> (forall l, In l new -> ~ In nl l) ->
  forall cs hs cs' hs', diff old new = Some (Ok cs) -> read_diff (format cs) = Some hs ->
  diff new old = Some (Ok cs') -> read_diff (format cs') = Some hs' ->
  removed_lines hs = flat_map (fun w => [w; s]) ws /\ added_lines hs = flat_map (fun w => [t; w]) ws /\
  removed_lines hs' = y :: repeat t (List.length ws) /\ added_lines hs' = repeat s (List.length ws) ++ [y] /\
  size hs = 4 * List.length ws /\ size hs' = 2 * List.length ws + 2.
Proof.
  intros s t y ws St Sy Ty N F1 F2 F3 old new Ho Hn cs hs cs' hs' E R E' R'.
  destruct (printed_pieces old new cs hs Ho Hn E R) as (T&P1&P2). destruct (printed_pieces new old cs' hs' Hn Ho E' R') as (T'&P3&P4).
  assert (F : fresh s t y ws) by (split; auto).
  pose proof (fwd_script s t y St Sy ws N F) as G. destruct (bwd_script s t y St Sy ws N F) as (ps&G'&Q1&Q2&_).
  rewrite (by_longest_det _ _ _ T _ G) in P1, P2. rewrite (by_longest_det _ _ _ T' _ G') in P3, P4. rewrite Q1 in P3. rewrite Q2 in P4.
  unfold taken, put_in in P1, P2. cbn [flat_map app] in P1, P2. rewrite ?app_nil_r in P1, P2.
  split; [exact P1|]. split; [exact P2|]. split; [exact P3|]. split; [exact P4|].
  unfold size. rewrite P1, P2, P3, P4. rewrite !app_length. cbn [List.length]. rewrite !repeat_length.
  assert (L1 : List.length (after_each s ws) = 2 * List.length ws) by (clear; induction ws as [|w ws IH]; auto; rewrite after_cons; cbn [List.length]; lia).
  assert (L2 : List.length (before_each t ws) = 2 * List.length ws) by (clear; induction ws as [|w ws IH]; auto; rewrite before_cons; cbn [List.length]; lia).
  rewrite L1, L2. change (@List.length (list ascii) ws) with (@List.length bytes ws). lia.
Qed.
Print Assumptions C154_exchange_refuted.
Example C154_refuted_nonvacuous : let ws := map B ["a"; "b"; "c"]%string in
  ws <> [] /\ ~ In (B "s") ws /\ ~ In (B "t") ws /\ ~ In (B "y") ws /\
  (forall l, In l (flat_map (fun w => [w; B "s"]) ws ++ [B "y"]) -> ~ In nl l) /\ 2 * 3 + 2 < 4 * 3.
Proof.
  cbv zeta. split; [discriminate|]. split; [|split; [|split; [|split]]]; try (cbn [map In]; intuition discriminate); [|lia].
  intros l I J. cbn [map In flat_map app] in I. repeat destruct I as [<-|I]; try (destruct J as [J|[]]; discriminate). destruct I.
Qed.
(* What is true: if every block kept is longer than every other common block, exchanging the files exchanges what is removed
   and what is added; so it does if the lines that both files have occur once in each and in the same order. *)
Theorem C154_no_choice_partial : forall old new cs hs cs' hs', (forall l, In l old -> ~ In nl l) -> (forall l, In l new -> ~ In nl l) ->
  no_choice old new -> diff old new = Some (Ok cs) -> read_diff (format cs) = Some hs ->
  diff new old = Some (Ok cs') -> read_diff (format cs') = Some hs' ->
  removed_lines hs' = added_lines hs /\ added_lines hs' = removed_lines hs.
Proof.
  intros old new cs hs cs' hs' Ho Hn H E R E' R'.
  destruct (printed_pieces old new cs hs Ho Hn E R) as (T&->&->). destruct (printed_pieces new old cs' hs' Hn Ho E' R') as (T'&->&->).
  destruct (no_choice_swap _ _ H) as (ps&ps'&G&G'&Q1&Q2&_). rewrite (by_longest_det _ _ _ T _ G), (by_longest_det _ _ _ T' _ G'). auto.
Qed.
Print Assumptions C154_no_choice_partial.
Theorem C154_ordered_partial : forall old new cs hs cs' hs', (forall l, In l old -> ~ In nl l) -> (forall l, In l new -> ~ In nl l) ->
  NoDup (common old new) -> common old new = common new old -> diff old new = Some (Ok cs) -> read_diff (format cs) = Some hs ->
  diff new old = Some (Ok cs') -> read_diff (format cs') = Some hs' ->
  removed_lines hs' = added_lines hs /\ added_lines hs' = removed_lines hs.
Proof.
  intros old new cs hs cs' hs' Ho Hn N C E R E' R'.
  destruct (printed_changes old new cs hs Ho Hn E R) as (T&->&->). destruct (printed_changes new old cs' hs' Hn Ho E' R') as (T'&->&->).
  destruct (ordered_lines _ _ _ T N C) as [-> ->]. rewrite C in N. destruct (ordered_lines _ _ _ T' N (eq_sym C)) as [-> ->]. auto.
Qed.
Print Assumptions C154_ordered_partial.
Example C154_nonvacuous : let x := B "x" in let y := B "y" in let a := B "a" in let b := B "b" in
  no_choice [x; a; b] [a; b; y] /\
  (exists cs, diff [x; a; b] [a; b; y] = Some (Ok cs) /\ map piece_of cs = [Remove [x]; Keep [a; b]; Put [y]]) /\
  NoDup (common [x; a; x; b] [a; y; b]) /\ common [x; a; x; b] [a; y; b] = common [a; y; b] [x; a; x; b].
Proof.
  cbv zeta. split; [|split; [|split]].
  - apply (nc_keep [B "x"] [] [B "a"; B "b"] [] [B "y"]); [|apply nc_new|apply nc_old].
    split; [discriminate|]. intros o1 n1 run o2 n2 E1 E2. cbn [app] in E1, E2.
    destruct (le_lt_dec 2 (List.length run)) as [L|L]; [right|left; exact L].
    destruct o1 as [|p o1]; cbn [app] in E1.
    + exfalso. destruct run as [|p run]; [cbn in L; lia|].
      assert (I : In p [B "a"; B "b"; B "y"]) by (rewrite <- E2, !in_app_iff; cbn [In]; auto).
      injection E1 as -> _. cbn [In] in I. intuition discriminate.
    + injection E1 as -> E1. assert (S0 : List.length o1 + List.length run + List.length o2 = 2).
      { apply (f_equal (@List.length bytes)) in E1. rewrite !app_length in E1. cbn [List.length] in E1. lia. }
      destruct o1; [|cbn in S0; lia]. destruct o2; [|cbn in S0; lia]. rewrite app_nil_r in E1. cbn [app] in E1. subst run.
      destruct n1 as [|q n1]; auto. exfalso. cbn [app] in E2. injection E2 as _ E2. destruct n1; [discriminate|].
      apply (f_equal (@List.length bytes)) in E2. cbn [app] in E2. cbn [List.length] in E2. rewrite app_length in E2. cbn [List.length] in E2. lia.
  - eexists. split; vm_compute; reflexivity.
  - match goal with |- NoDup ?l => let v := eval vm_compute in l in change (NoDup v) end.
    repeat (apply NoDup_cons; [vm_compute; intros Q; repeat (destruct Q as [Q|Q]; [discriminate Q|]); exact Q|]); apply NoDup_nil.
  - vm_compute. reflexivity.
Qed.
