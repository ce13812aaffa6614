(* C12-C16: pkg/tsort and cmd/tsort.  Statements only; proofs in TsortProofs.v.
   [perm] is the order in which the Go run-time happens to iterate over a map: any permutation. *)
From Verif Require Import GoBase GoFacts GoMap TsortModel TsortSpec TsortProofs.

(* C12 *)
Theorem C12_order_is_topological : forall perm s s' l, (forall l, Permutation (perm l) l) ->
  reachable s -> order perm s = Some (s', Ok l) -> topological (known s) (edge s) l.
Proof. intros perm s s' l P. exact (order_topological perm P s s' l). Qed.
Print Assumptions C12_order_is_topological.

Definition demo_calls : list (list bytes) :=
  map (map B) [["a"; "b"; "c"]; ["x"]; ["a"; "d"; "c"]]%string.
Example C12_nonvacuous :
  reachable (sorter_of demo_calls) /\
  order (fun l => l) (sorter_of demo_calls) = Some ([], Ok (map B ["a"; "x"; "b"; "d"; "c"]%string)) /\
  order (@rev bytes) (sorter_of demo_calls) = Some ([], Ok (map B ["x"; "a"; "b"; "d"; "c"]%string)).
Proof. split; [apply sorter_of_reachable|]. split; vm_compute; reflexivity. Qed.

(* C13: Order always returns (the fuel of the model is never exhausted), and returns an error exactly
   on cyclic relations. *)
Theorem C13_fails_exactly_on_cycles : forall perm s, (forall l, Permutation (perm l) l) -> reachable s ->
  (exists s' r, order perm s = Some (s', r) /\ r <> Panic) /\
  ((exists s' m, order perm s = Some (s', Err m)) <-> cyclic (edge s)).
Proof.
  intros perm s P R. exact (conj (order_total perm P s R) (order_fails_iff_cyclic perm P s R)).
Qed.
Print Assumptions C13_fails_exactly_on_cycles.

Definition demo_cycle : list (list bytes) :=
  map (map B) [["r"; "a"; "b"; "a"]; ["b"; "z"]]%string.
Example C13_nonvacuous :
  cyclic (edge (sorter_of demo_cycle)) /\
  exists s', order (fun l => l) (sorter_of demo_cycle) = Some (s', Err msg_impossible) /\ s' <> [].
Proof.
  split.
  - exists (B "a"). apply t_trans with (B "b"); apply t_step.
    + exists [B "b"]. vm_compute. auto.
    + exists [B "a"; B "z"]. vm_compute. auto.
  - eexists. split; [vm_compute; reflexivity|discriminate].
Qed.

Lemma last_in {A} : forall (l : list A) a b pre c post, l ++ [a; b] = pre ++ c :: post -> c <> b -> In b post.
Proof.
  intros l a b pre c post E N. change [a; b] with ([a] ++ [b]) in E. rewrite app_assoc in E.
  destruct post as [|z post]; [apply app_inj_tail in E as [_ E]; congruence|].
  destruct (@exists_last _ (z :: post)) as (post'&y&Q); [discriminate|]. rewrite Q in E |- *.
  rewrite (app_comm_cons post'), (app_assoc pre) in E. apply app_inj_tail in E as [_ ->]. apply in_or_app. right. now left.
Qed.
(* C14 is false: after any calls, Add [x] forgets that x had to come before v, and v with it. *)
Theorem C14_constraints_honoured_refuted : forall perm calls x v s' l, (forall l, Permutation (perm l) l) ->
  (forall c, In c calls -> ~ In v c) -> x <> v ->
  order perm (sorter_of (calls ++ [[x; v]; [x]])) = Some (s', Ok l) -> ~ In v l.
Proof.
  intros perm calls x v s' l P N D E I.
  destruct (order_topological perm P _ _ _ (sorter_of_reachable _) E) as (_&T&_). apply T in I. clear T E.
  assert (E : forall u, ~ edge (sorter_of (calls ++ [[x; v]; [x]])) u v).
  { intros u H. apply sorter_of_edge in H as (pre&c&post&Q&(a&b&->)&Np).
    assert (R : In (a ++ u :: v :: b) (calls ++ [[x; v]; [x]])) by (rewrite Q; apply in_or_app; right; now left).
    apply in_app_or in R as [R|[R|[R|[]]]].
    - apply (N _ R). apply in_or_app. right. right. now left.
    - destruct a as [|a0 [|a1 a]]; [|discriminate|destruct a; discriminate]. injection R as R <-. subst u.
      apply Np. apply (last_in calls [x; v] [x] pre _ post Q). discriminate.
    - destruct a as [|a0 [|a1 a]]; discriminate. }
  destruct I as [(k&I)|(u&I)]; [|now apply E in I].
  apply (in_map fst) in I. change (map fst ?s) with (mkeys s) in I. cbn [fst] in I.
  unfold sorter_of in I. rewrite fold_left_app in I. cbn [fold_left] in I.
  set (s := fold_left add calls new_sorter) in *. change (add (add s [x; v]) [x]) with (mset (add s [x; v]) x []) in I.
  assert (K : In v (mkeys s)).
  { apply mfind_in_keys in I. rewrite mfind_set in I.
    destruct (beqb x v) eqn:B1; [apply beqb_eq in B1; contradiction|].
    cbn [add add_pairs] in I. destruct (in_slice (successors s x) v).
    - now apply mfind_in_keys.
    - rewrite mfind_set, B1 in I. now apply mfind_in_keys. }
  destruct (sorter_of_known_only calls v) as (c&C1&C2); [now apply known_key|]. now apply (N c).
Qed.
Print Assumptions C14_constraints_honoured_refuted.
Example C14_refuted_nonvacuous :
  order (fun l => l) (sorter_of ([map B ["c"; "a"]%string] ++ [map B ["a"; "b"]%string; [B "a"]])) =
    Some ([], Ok (map B ["c"; "a"]%string)).
Proof. vm_compute. reflexivity. Qed.

(* What holds: everything is honoured when no single-item Add names an item that an earlier Add put in
   front of another one ... *)
Theorem C14_constraints_honoured_partial : forall perm calls s' l, (forall l, Permutation (perm l) l) ->
  no_erase calls -> order perm (sorter_of calls) = Some (s', Ok l) ->
  (forall c x, In c calls -> In x c -> In x l) /\
  (forall c u v, In c calls -> adjacent c u v -> before l u v).
Proof. exact add_honoured. Qed.
Print Assumptions C14_constraints_honoured_partial.

(* ... and in general the recorded relation is exactly the pairs added since the last single-item Add
   of their first component, and nothing is invented. *)
Theorem C14_recorded_relation_partial : forall calls,
  (forall u v, edge (sorter_of calls) u v <->
     exists pre c post, calls = pre ++ c :: post /\ adjacent c u v /\ ~ In [u] post) /\
  (forall x, known (sorter_of calls) x -> exists c, In c calls /\ In x c).
Proof. intros calls. exact (conj (sorter_of_edge calls) (sorter_of_known_only calls)). Qed.
Print Assumptions C14_recorded_relation_partial.

Example C14_nonvacuous : no_erase demo_calls /\ In [B "x"] demo_calls.
Proof.
  split; [|right; left; reflexivity]. intros pre x post E c v Hc A.
  destruct pre as [|c1 pre]; [inversion E|]. inversion E as [[E1 E2]]. subst c1. clear E.
  destruct pre as [|c2 pre].
  - inversion E2; subst x. destruct Hc as [<-|[]]. destruct A as (a&b&A).
    destruct a as [|? [|? [|? [|? ?]]]]; discriminate A.
  - inversion E2 as [[E3 E4]]. destruct pre as [|c3 pre]; [discriminate|].
    inversion E4 as [[E5 E6]]. destruct pre; discriminate.
Qed.

(* C15 *)
Theorem C15_order_consumes : forall perm s s' l, (forall l, Permutation (perm l) l) ->
  reachable s -> order perm s = Some (s', Ok l) ->
  s' = new_sorter /\ forall perm2, (forall l, Permutation (perm2 l) l) ->
  order perm2 s' = Some (new_sorter, Ok []).
Proof. intros perm s s' l P. exact (order_consumes_success perm P s s' l). Qed.
Print Assumptions C15_order_consumes.

(* after a failure: what stays is what lies on or after a cycle, and Order goes on failing *)
Theorem C15_failed_order_leaves_the_rest : forall perm s s' m, (forall l, Permutation (perm l) l) ->
  reachable s -> order perm s = Some (s', Err m) ->
  (forall x, known s' x <-> after_cycle (edge s) x) /\
  (forall u v, edge s' u v <-> edge s u v /\ after_cycle (edge s) u) /\
  forall perm2, (forall l, Permutation (perm2 l) l) -> order perm2 s' = Some (s', Err m).
Proof. intros perm s s' m P. exact (order_failure_leaves perm P s s' m). Qed.
Print Assumptions C15_failed_order_leaves_the_rest.

Example C15_nonvacuous :
  (exists l, order (fun l => l) (sorter_of demo_calls) = Some ([], Ok l)) /\
  reachable (sorter_of demo_cycle) /\
  order (fun l => l) (sorter_of demo_cycle) =
    Some ([(B "a", [B "b"]); (B "b", [B "a"; B "z"])], Err msg_impossible).
Proof.
  split; [eexists; vm_compute; reflexivity|]. split; [apply sorter_of_reachable|vm_compute; reflexivity].
Qed.

(* C16 as stated is false: after any pairs that do not name v, the words "x v x x" leave v out of the
   output, although it is an item of an acyclic relation. *)
Theorem C16_tsort_command_refuted : forall perm fs stdin args text ws x v, (forall l, Permutation (perm l) l) ->
  input_of fs stdin args = Some (text, None) -> worded text (ws ++ [x; v; x; x]) -> short_words text ->
  Nat.even (length ws) = true -> ~ In v ws -> x <> v -> ~ cyclic (rel_of (ws ++ [x; v; x; x])) ->
  exists l, tsort_main perm fs stdin args = Some {| out := unlines l; errout := []; fin := Exit 0 |} /\ ~ In v l.
Proof.
  intros perm fs stdin args text ws x v P I W S Ev N D C.
  assert (PE : pairs_of (ws ++ [x; v; x; x]) = pairs_of ws ++ [(x, v); (x, x)]).
  { clear -Ev. assert (G : forall n ws, length ws <= n -> Nat.even (length ws) = true ->
      pairs_of (ws ++ [x; v; x; x]) = pairs_of ws ++ [(x, v); (x, x)]).
    { induction n as [|n IH]; intros [|a [|b r]] L E; cbn [length] in L, E; try discriminate; try reflexivity; try lia.
      cbn [app pairs_of]. rewrite IH; auto. lia. }
    apply (G (length ws)); auto. }
  assert (Wp : forall a b, In (a, b) (pairs_of ws) -> a <> v /\ b <> v).
  { clear -N. assert (G : forall n ws, length ws <= n -> ~ In v ws -> forall a b, In (a, b) (pairs_of ws) -> a <> v /\ b <> v).
    { induction n as [|n IH]; intros [|a [|b r]] L M c d H; cbn [length] in L; try contradiction; try lia.
      destruct H as [[= <- <-]|H]; [cbn in M; intuition congruence|]. apply (IH r); auto; [lia|]. cbn in M. intuition. }
    apply (G (length ws)); auto. }
  destruct (tsort_main_exact perm fs stdin args text _ P I W S) as [(l&T&E)|[Cy _]].
  - rewrite app_length. cbn [length]. rewrite Nat.even_add, Ev. reflexivity.
  - exists l. split; auto. intros H. apply T in H. destruct H as [(y&H)|(y&pre&post&H&Ne&Np)]; rewrite PE in H.
    + apply in_app_or in H as [H|[H|[H|[]]]]; [now apply Wp in H|congruence|congruence].
    + assert (Q : In (y, v) (pairs_of ws ++ [(x, v); (x, x)])) by (rewrite H; apply in_or_app; right; now left).
      apply in_app_or in Q as [Q|[Q|[Q|[]]]]; [now apply Wp in Q| |congruence]. injection Q as <-.
      apply Np. apply (last_in _ _ _ _ _ _ H). congruence.
  - exfalso. apply C. destruct Cy as (c&Cy). exists c. clear -Cy.
    revert Cy. generalize c at 1 3. intros d Cy. induction Cy as [a b (pre&post&E&Ne&_)|]; [|eapply t_trans; eauto].
    apply t_step.
    split; [|exact Ne].
    rewrite E. apply in_or_app. right. now left.
Qed.
Print Assumptions C16_tsort_command_refuted.
Example C16_refuted_nonvacuous : exists text, worded text (map B ["a"; "b"; "a"; "a"]%string) /\ short_words text /\
  ~ cyclic (rel_of ([] ++ map B ["a"; "b"; "a"; "a"]%string)) /\
  tsort_main (fun l => l) (fun _ => None) (text, None) [] =
    Some {| out := B "a" ++ [nl]; errout := []; fin := Exit 0 |}.
Proof.
  exists (B "a b a a"). destruct (worded_by (B "a b a a") [B "a"; B "b"; B "a"; B "a"]) as [W S]; [vm_compute; reflexivity|].
  split; [exact W|]. split; [exact S|]. split; [|vm_compute; reflexivity].
  assert (R : forall u v, rel_of ([] ++ [B "a"; B "b"; B "a"; B "a"]) u v -> u = B "a" /\ v = B "b").
  { intros u v [[E|[E|[]]] N]; injection E as <- <-; [auto|now elim N]. }
  assert (T : forall u v, path (rel_of ([] ++ [B "a"; B "b"; B "a"; B "a"])) u v -> u = B "a" /\ v = B "b").
  { intros u v P. induction P as [u v P|u v w _ [_ IH1] _ [IH2 _]]; [now apply R|]. rewrite IH1 in IH2. discriminate. }
  intros (x&P). destruct (T x x P) as [-> E]. discriminate.
Qed.
(* ... and a word that, with the blank after it, is longer than 65536 bytes is an error in every text. *)
Theorem C16_long_word_refuted : forall perm fs stdin args text r, input_of fs stdin args = Some (text, r) -> long_word text ->
  tsort_main perm fs stdin args = Some (failed (B "scan error!") (B "bufio.Scanner: token too long")) \/
  exists ws, tsort_main perm fs stdin args = Some (unmatched ws).
Proof. exact tsort_main_long. Qed.
Print Assumptions C16_long_word_refuted.

(* It holds for all other texts without a pair "x x" after a pair "x y". *)
Theorem C16_tsort_command_partial : forall perm fs stdin args text ws, (forall l, Permutation (perm l) l) ->
  input_of fs stdin args = Some (text, None) ->
  worded text ws -> short_words text -> Nat.even (length ws) = true ->
  no_erase_pairs (pairs_of ws) ->
  (exists l, topological (fun x => In x ws) (rel_of ws) l /\
     tsort_main perm fs stdin args = Some {| out := unlines l; errout := []; fin := Exit 0 |}) \/
  (cyclic (rel_of ws) /\ tsort_main perm fs stdin args = Some impossible).
Proof. exact tsort_main_even. Qed.
Print Assumptions C16_tsort_command_partial.

(* With such pairs, what is sorted is what they leave. *)
Theorem C16_what_is_sorted_partial : forall perm fs stdin args text ws, (forall l, Permutation (perm l) l) ->
  input_of fs stdin args = Some (text, None) ->
  worded text ws -> short_words text -> Nat.even (length ws) = true ->
  (exists l, topological (kept_item ws) (kept ws) l /\
     tsort_main perm fs stdin args = Some {| out := unlines l; errout := []; fin := Exit 0 |}) \/
  (cyclic (kept ws) /\ tsort_main perm fs stdin args = Some impossible).
Proof. exact tsort_main_exact. Qed.
Print Assumptions C16_what_is_sorted_partial.

Theorem C16_odd_word_count : forall perm fs stdin args text ws, input_of fs stdin args = Some (text, None) ->
  worded text ws -> short_words text -> Nat.even (length ws) = false ->
  tsort_main perm fs stdin args = Some (unmatched ws).
Proof. exact tsort_main_odd. Qed.
Print Assumptions C16_odd_word_count.

Theorem C16_read_error : forall perm fs stdin args text r ws, input_of fs stdin args = Some (text, Some r) ->
  worded text ws -> short_words text ->
  tsort_main perm fs stdin args = Some (if Nat.even (length ws) then failed (B "scan error!") r else unmatched ws).
Proof. exact tsort_main_error. Qed.
Print Assumptions C16_read_error.

(* every text has a reading as blank-separated words, and they are short or not, so the theorems above apply to all texts *)
Theorem C16_words_exist : forall t, (exists ws, worded t ws) /\ (short_words t \/ long_word t).
Proof. intros t. split; [apply worded_exists|apply short_or_long]. Qed.
Print Assumptions C16_words_exist.

(* for arbitrary operands and bytes: the command ends, with status 0 and no diagnostics, or with status
   1 and nothing on standard output *)
Theorem C16_tsort_ends : forall perm fs stdin args, (forall l, Permutation (perm l) l) ->
  exists r, tsort_main perm fs stdin args = Some r /\
  (fin r = Exit 0 /\ errout r = [] \/ fin r = Exit 1 /\ out r = []).
Proof. exact tsort_main_total. Qed.
Print Assumptions C16_tsort_ends.

Theorem C16_unopenable_operand : forall perm fs stdin f r, f <> B "-" -> fs f = None ->
  tsort_main perm fs stdin (f :: r) = Some (failed (B "can't open") f).
Proof. exact tsort_main_unopenable. Qed.
Print Assumptions C16_unopenable_operand.

Example C16_nonvacuous :
  let ws := map B ["a"; "b"; "b"; "c"; "x"; "x"]%string in
  Nat.even (length ws) = true /\ no_erase_pairs (pairs_of ws) /\
  tsort_main (fun l => l) (fun _ => None) (B "a b  b c" ++ [nl] ++ B "x x", None) [B "-"] =
    Some {| out := unlines (map B ["a"; "x"; "b"; "c"]%string); errout := []; fin := Exit 0 |}.
Proof.
  split; [reflexivity|]. split; [|vm_compute; reflexivity].
  intros pre x post E y H. simpl in E.
  destruct pre as [|p1 [|p2 pre]]; [inversion E as [[E1 E2]]; subst; discriminate E2| |].
  - inversion E as [[E1 E2 E3]]; subst; discriminate E3.
  - destruct pre as [|p3 pre].
    + inversion E; subst. destruct H as [H|[H|[]]]; inversion H.
    + destruct pre; discriminate.
Qed.
(* blanks of several bytes, and bytes that are no characters *)
Definition odd_text : bytes := B "a" ++ string_of_runes [8195; 98; 160; 252]%N ++ [nl] ++ ascii_of_N 255 :: B " x  b b".
Example C16_nonvacuous_2 :
  let ws := [B "a"; B "b"; string_of_runes [252]; [ascii_of_N 255]; B "x"; B "b"; B "b"]%N in
  worded odd_text ws /\ short_words odd_text /\ Nat.even (length ws) = false.
Proof. destruct (worded_by odd_text [B "a"; B "b"; string_of_runes [252%N]; [ascii_of_N 255]; B "x"; B "b"; B "b"]); [vm_compute; reflexivity|]. auto. Qed.
Lemma long_example : forall n, (65536 <= N.of_nat n)%N -> long_word (repeat "a"%char n ++ B " b").
Proof.
  intros n L. exists [(repeat "a"%char n, 1); (B "b", 1)], (repeat "a"%char n, 1).
  split; [|split; [now left|unfold fits; cbn [fst snd]; rewrite repeat_length; lia]].
  exists (map (fun c => (byte_val c, [c])) (repeat "a"%char n ++ B " b")). split.
  - apply characters_ascii. rewrite forallb_app. replace (forallb _ (repeat _ n)) with true; [reflexivity|].
    clear. induction n as [|n IH]; cbn [repeat forallb]; auto.
  - rewrite map_app. assert (E : forall m, concat (map snd (map (fun c => (byte_val c, [c])) (repeat "a"%char m))) = repeat "a"%char m)
      by (clear; induction m as [|m IH]; cbn [repeat map concat snd app]; congruence).
    rewrite <- (E n) at 2.
    change (map (fun c => (byte_val c, [c])) (B " b")) with ((32%N, B " ") :: [(98%N, B "b")]).
    apply (worded_word _ 32%N (B " ") [(98%N, B "b")] [(B "b", 1)]).
    + destruct n; [cbn in L; lia|discriminate].
    + apply Forall_map, Forall_forall. intros c H. apply repeat_spec in H. subst c. cbn [fst]. intros X. apply blank_space in X. discriminate.
    + apply blank_space. reflexivity.
    + apply (worded_last [(98%N, B "b")]); [discriminate|]. constructor; [|constructor]. cbn [fst]. intros X. apply blank_space in X. discriminate.
Qed.
Example C16_nonvacuous_3 : long_word (repeat "a"%char (N.to_nat 70000) ++ B " b").
Proof. apply long_example. rewrite N2Nat.id. discriminate. Qed.
