(* C113: which topological order pkg/tsort returns.  Statements only; proofs in TsortQueueProofs.v.
   [perm] is the order in which the Go run-time happens to iterate over a map: any permutation. *)
From Verif Require Import GoBase GoFacts GoMap TsortModel TsortSpec TsortProofs TsortQueueSpec TsortQueueProofs.

(* C113: first come the items that need not wait, in some order; then, going through the result itself from
   its beginning, the items for which each one was the last to wait for, in the order of recording. *)
Theorem C113_queue_order : forall perm s s' l, (forall l, Permutation (perm l) l) -> reachable s ->
  order perm s = Some (s', Ok l) ->
  exists hs gs, l = hs ++ concat gs /\ NoDup hs /\ (forall x, In x hs <-> free s x) /\
    Forall2 (released_by s l) l gs.
Proof. exact order_released. Qed.
Print Assumptions C113_queue_order.

(* The order of recording is the order in which the Add calls since the last one with that item alone name
   the successors first. *)
Theorem C113_recorded_order : forall calls h ls, In (h, ls) (sorter_of calls) -> ls = firsts (asked h calls).
Proof. exact recorded_list. Qed.
Print Assumptions C113_recorded_order.

(* Nothing else is left to chance: results that agree on the items that need not wait are the same, ... *)
Theorem C113_determined : forall perm perm' s s1 s2 l l' hs r r', (forall l, Permutation (perm l) l) ->
  (forall l, Permutation (perm' l) l) -> reachable s ->
  order perm s = Some (s1, Ok l) -> order perm' s = Some (s2, Ok l') ->
  NoDup hs -> (forall x, In x hs <-> free s x) -> l = hs ++ r -> l' = hs ++ r' -> l = l'.
Proof. exact order_determined. Qed.
Print Assumptions C113_determined.

(* ... and every order of these is possible. *)
Theorem C113_any_order_of_the_free : forall s hs, reachable s -> NoDup hs -> (forall x, In x hs <-> free s x) ->
  exists perm, (forall l, Permutation (perm l) l) /\
  forall s' l, order perm s = Some (s', Ok l) -> exists r, l = hs ++ r.
Proof. exact order_any_heads. Qed.
Print Assumptions C113_any_order_of_the_free.

Definition queue_calls : list (list bytes) :=
  map (map B) [["a"; "z"; "y"]; ["b"; "z"]; ["a"; "c"; "d"]; ["b"; "c"; "b2"]]%string.
Example C113_nonvacuous :
  reachable (sorter_of queue_calls) /\
  order (fun l => l) (sorter_of queue_calls) =
    Some ([], Ok (map B ["a"; "b"; "z"; "c"; "y"; "d"; "b2"]%string)) /\
  order (@rev bytes) (sorter_of queue_calls) =
    Some ([], Ok (map B ["b"; "a"; "z"; "c"; "y"; "d"; "b2"]%string)) /\
  asked (B "a") queue_calls = [B "z"; B "c"] /\
  (forall x, In x [B "b"; B "a"] <-> free (sorter_of queue_calls) x) /\
  last_before (sorter_of queue_calls) (map B ["a"; "b"; "z"; "c"; "y"; "d"; "b2"]%string) (B "b") (B "z").
Proof.
  split; [apply sorter_of_reachable|]. split; [vm_compute; reflexivity|]. split; [vm_compute; reflexivity|].
  split; [vm_compute; reflexivity|]. split.
  - intros x. rewrite <- (heads_free (@rev bytes) _ (fun l => Permutation_sym (Permutation_rev l))). vm_compute. tauto.
  - split.
    + exists [B "z"; B "c"]. vm_compute. tauto.
    + intros h' (l&H1&H2). vm_compute in H1.
      repeat destruct H1 as [H1|H1]; try contradiction; injection H1 as <- <-; vm_compute in H2;
        repeat destruct H2 as [H2|H2]; try contradiction; try discriminate H2.
      * right. exists [], [], (map B ["z"; "c"; "y"; "d"; "b2"]%string). reflexivity.
      * left. reflexivity.
Qed.
