(* C150: running tsort again. *)
From Verif Require Import GoBase GoFacts GoMap TsortModel TsortSpec TsortProofs TsortQueueSpec TsortQueueProofs TsortRunSpec TsortRunProofs.

(* C150 as one would want it, that the output depends on the input alone, is false: with two items
   either of which may come first, the order in which Go happens to walk the map decides *)
Theorem C150_reproducible_refuted : forall fs stdin args text ws a b,
  input_of fs stdin args = Some (text, None) -> worded text ws -> short_words text ->
  Nat.even (List.length ws) = true -> ~ cyclic (kept ws) ->
  first_item ws a -> first_item ws b -> a <> b ->
  exists perm perm' l l', (forall l, Permutation (perm l) l) /\ (forall l, Permutation (perm' l) l) /\
    tsort_main perm fs stdin args = Some {| out := unlines (a :: l); errout := []; fin := Exit 0 |} /\
    tsort_main perm' fs stdin args = Some {| out := unlines (b :: l'); errout := []; fin := Exit 0 |}.
Proof.
  intros fs stdin args text ws a b I W S He NC Fa Fb D.
  destruct (some_order ws a NC He Fa) as (p&l&P&E). destruct (some_order ws b NC He Fb) as (p'&l'&P'&E').
  exists p, p', l, l'. repeat split; auto; erewrite tsort_main_input by eauto; auto.
Qed.
Print Assumptions C150_reproducible_refuted.

(* with one such item at most it does depend on the input alone *)
Theorem C150_reproducible_partial : forall fs stdin args text ws perm perm',
  (forall l, Permutation (perm l) l) -> (forall l, Permutation (perm' l) l) ->
  input_of fs stdin args = Some (text, None) -> worded text ws -> short_words text -> Nat.even (List.length ws) = true ->
  (forall x y, first_item ws x -> first_item ws y -> x = y) ->
  tsort_main perm fs stdin args = tsort_main perm' fs stdin args.
Proof.
  intros fs stdin args text ws perm perm' P P' I W S He U. erewrite !tsort_main_input by eauto. now apply one_order.
Qed.
Print Assumptions C150_reproducible_partial.

(* a run that fails fails in the same way, with the same message, every time *)
Theorem C150_failure_partial : forall perm perm' fs stdin args r,
  (forall l, Permutation (perm l) l) -> (forall l, Permutation (perm' l) l) ->
  tsort_main perm fs stdin args = Some r -> fin r <> Exit 0 -> tsort_main perm' fs stdin args = Some r.
Proof. exact failure_fixed. Qed.
Print Assumptions C150_failure_partial.

(* an order written down as pairs, each item with the next one, comes out as it was written:
   so what one run printed can be fixed for good *)
Theorem C150_chain_partial : forall perm fs stdin args text l,
  (forall l, Permutation (perm l) l) -> NoDup l -> List.length l <> 1 ->
  input_of fs stdin args = Some (text, None) -> worded text (chain l) -> short_words text ->
  tsort_main perm fs stdin args = Some {| out := unlines l; errout := []; fin := Exit 0 |}.
Proof. intros perm fs stdin args text l P N L I W S. erewrite tsort_main_input by eauto. now apply chain_run. Qed.
Print Assumptions C150_chain_partial.

(* of "a x b x" either a or b comes out first *)
Example C150_refuted_nonvacuous : let ws := map B ["a"; "x"; "b"; "x"]%string in
  worded (B "a x b x") ws /\ short_words (B "a x b x") /\ Nat.even (List.length ws) = true /\ ~ cyclic (kept ws) /\
  first_item ws (B "a") /\ first_item ws (B "b") /\ B "a" <> B "b".
Proof.
  cbv zeta. destruct (worded_by (B "a x b x") (map B ["a"; "x"; "b"; "x"]%string)) as [W S]; [vm_compute; reflexivity|].
  split; [exact W|]. split; [exact S|]. split; [reflexivity|].
  assert (K : forall u v, kept (map B ["a"; "x"; "b"; "x"]%string) u v -> (u = B "a" \/ u = B "b") /\ v = B "x").
  { intros u v (p&q&E&_). assert (I : In (u, v) (pairs_of (map B ["a"; "x"; "b"; "x"]%string))) by (rewrite E, in_app_iff; cbn; tauto).
    destruct I as [I|[I|[]]]; injection I as <- <-; auto. }
  split; [|split; [|split; [|discriminate]]].
  - assert (T : forall u v, path (kept (map B ["a"; "x"; "b"; "x"]%string)) u v -> (u = B "a" \/ u = B "b") /\ v = B "x").
    { intros u v P. induction P as [u v P|u v w _ [IH _] _ [_ IH2]]; [now apply K|auto]. }
    intros (x&P). destruct (T x x P) as [[->| ->] E]; discriminate.
  - split; [left; exists (B "x"); cbn; tauto|]. intros u H. apply K in H as [_ H]. discriminate.
  - split; [left; exists (B "x"); cbn; tauto|]. intros u H. apply K in H as [_ H]. discriminate.
Qed.
Example C150_runs_differ :
  tsort_main (fun l => l) (fun _ => None) (B "a x b x", None) [] = Some {| out := unlines (map B ["a"; "b"; "x"]%string); errout := []; fin := Exit 0 |} /\
  tsort_main (@rev bytes) (fun _ => None) (B "a x b x", None) [] = Some {| out := unlines (map B ["b"; "a"; "x"]%string); errout := []; fin := Exit 0 |}.
Proof. split; vm_compute; reflexivity. Qed.
(* "a x a y" has one first item, though x and y could come in either order: x always comes first *)
Example C150_nonvacuous : let ws := map B ["a"; "x"; "a"; "y"]%string in
  worded (B "a x a y") ws /\ short_words (B "a x a y") /\ Nat.even (List.length ws) = true /\
  (forall x y, first_item ws x -> first_item ws y -> x = y) /\
  tsort_main (@rev bytes) (fun _ => None) (B "a x a y", None) [] = Some {| out := unlines (map B ["a"; "x"; "y"]%string); errout := []; fin := Exit 0 |}.
Proof.
  cbv zeta. destruct (worded_by (B "a x a y") (map B ["a"; "x"; "a"; "y"]%string)) as [W S]; [vm_compute; reflexivity|].
  split; [exact W|]. split; [exact S|]. split; [reflexivity|]. split; [|vm_compute; reflexivity].
  assert (K : forall x, first_item (map B ["a"; "x"; "a"; "y"]%string) x -> x = B "a").
  { intros x [[(y&I)|(y&H)] N]; [destruct I as [I|[I|[]]]; now injection I|elim (N y H)]. }
  intros x y Hx Hy. now rewrite (K x Hx), (K y Hy).
Qed.
Example C150_chain_nonvacuous : let l := map B ["c"; "a"; "d"; "b"]%string in
  NoDup l /\ List.length l <> 1 /\ worded (B "c a a d d b") (chain l) /\ short_words (B "c a a d d b").
Proof.
  cbv zeta. destruct (worded_by (B "c a a d d b") (chain (map B ["c"; "a"; "d"; "b"]%string))) as [W S]; [vm_compute; reflexivity|].
  split; [|split; [discriminate|auto]]. repeat (apply NoDup_cons; [cbn; intuition discriminate|]). apply NoDup_nil.
Qed.
Example C150_failure_nonvacuous : exists r, tsort_main (fun l => l) (fun _ => None) (B "a b b a", None) [] = Some r /\ fin r <> Exit 0.
Proof. eexists. split; [vm_compute; reflexivity|discriminate]. Qed.
