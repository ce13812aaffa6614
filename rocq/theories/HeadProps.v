(* C25, C26: cmd/head.  Statements only; proofs in HeadProofs.v. *)
From Verif Require Import GoBase GoFacts HeadModel HeadSpec HeadProofs.

(* C25 is false whenever a line to be printed ends in a carriage return: it is dropped. *)
Theorem C25_first_lines_refuted : forall w items f ls, Forall item_ok items -> operands items = [f] ->
  reads w 0 f ls -> Forall short_line ls ->
  Exists (fun l => exists p, l = p ++ [cr]) (firstn (Z.to_nat (count items)) ls) ->
  out (head_main w (render items)) <> unlines (firstn (Z.to_nat (count items)) ls).
Proof.
  intros w items f ls H E R S X. rewrite (head_one w items f ls H E R S). cbn [out]. intros Q.
  apply unlines_shorter in X. rewrite Q in X. lia.
Qed.
Print Assumptions C25_first_lines_refuted.
Example C25_refuted_nonvacuous : exists w items f ls, Forall item_ok items /\ operands items = [f] /\
  reads w 0 f ls /\ Forall short_line ls /\
  Exists (fun l => exists p, l = p ++ [cr]) (firstn (Z.to_nat (count items)) ls).
Proof.
  exists {| opens := fun _ => Some (B "a" ++ [cr; nl], None); stdin_at := fun _ => ([], None) |},
    [Operand (B "f")], (B "f"), [B "a" ++ [cr]].
  split; [repeat constructor; discriminate|]. split; [reflexivity|]. split.
  - exists (B "a" ++ [cr; nl]). split.
    + split; [repeat constructor; intros [H|[H|[]]]; discriminate|]. left. reflexivity.
    + right. split; [discriminate|reflexivity].
  - split; [repeat constructor|]. left. exists (B "a"). reflexivity.
Qed.

(* It holds when no line ends in a carriage return.  One operand: *)
Theorem C25_one_operand_partial : forall w items f ls, Forall item_ok items -> operands items = [f] ->
  reads w 0 f ls -> Forall short_line ls -> Forall not_cr_ended ls ->
  head_main w (render items) =
    {| out := unlines (firstn (Z.to_nat (count items)) ls); errout := []; fin := Exit 0 |}.
Proof. exact head_one_plain. Qed.
Print Assumptions C25_one_operand_partial.
(* several operands: *)
Theorem C25_many_operands_partial : forall w items lss, Forall item_ok items -> 2 <= length (operands items) ->
  length lss = length (operands items) ->
  (forall i f ls, nth_error (operands items) i = Some f -> nth_error lss i = Some ls -> reads w i f ls) ->
  Forall (Forall short_line) lss -> Forall (Forall not_cr_ended) lss ->
  head_main w (render items) =
    {| out := join [nl] (map (section (count items)) (combine (operands items) lss));
       errout := []; fin := Exit 0 |}.
Proof. exact head_many_plain. Qed.
Print Assumptions C25_many_operands_partial.
(* with carriage returns, exactly one trailing one is removed from each line printed *)
Theorem C25_carriage_returns_partial : forall w items f ls, Forall item_ok items -> operands items = [f] ->
  reads w 0 f ls -> Forall short_line ls ->
  exists ls', out (head_main w (render items)) = unlines ls' /\
    fin (head_main w (render items)) = Exit 0 /\
    Forall2 (fun l l' => l = l' ++ [cr] \/ (not_cr_ended l /\ l' = l))
      (firstn (Z.to_nat (count items)) ls) ls'.
Proof.
  intros w items f ls H E R S. rewrite (head_one w items f ls H E R S).
  eexists. split; [reflexivity|]. split; [reflexivity|].
  induction (firstn (Z.to_nat (count items)) ls) as [|l r IH]; [constructor|].
  cbn [map]. constructor; [|apply IH].
  destruct (list_eq_dec ascii_dec l (removelast l ++ [cr])) as [Q|Q].
  - left. rewrite Q at 2. rewrite drop_cr_ended. exact Q.
  - assert (not_cr_ended l). { intros p ->. apply Q. now rewrite removelast_last. }
    right. split; auto. now apply drop_cr_not_ended.
Qed.
Print Assumptions C25_carriage_returns_partial.
Example C25_nonvacuous :
  let w := {| opens := fun f => if beqb f (B "a") then Some (unlines [B "1"; B "2"; B "3"], None)
                                else Some (unlines [B "x"] ++ B "y", None);
              stdin_at := fun _ => (unlines [B "s"], None) |} in
  let items := [Operand (B "a"); Count 2; Operand (B "-"); Operand (B "b")] in
  Forall item_ok items /\ reads w 0 (B "a") [B "1"; B "2"; B "3"] /\ reads w 1 (B "-") [B "s"] /\
  reads w 2 (B "b") [B "x"; B "y"] /\
  render items = map B ["a"; "-n"; "2"; "-"; "b"]%string /\
  out (head_main w (render items)) =
    unlines (map B ["==> a <=="; "1"; "2"; ""; "==> - <=="; "s"; ""; "==> b <=="; "x"; "y"]%string).
Proof.
  cbv zeta. split.
  { constructor; [discriminate|]. constructor; [split; discriminate|]. repeat constructor; discriminate. }
  assert (N : forall c, c <> nl -> ~ In nl [c]) by (intros c H [E|[]]; congruence).
  split; [|split; [|split; [|split; vm_compute; reflexivity]]].
  - eexists. split; [|right; split; [discriminate|reflexivity]]. split; [|left; reflexivity].
    repeat (constructor; [apply N; discriminate|]). constructor.
  - eexists. split; [|left; split; reflexivity]. split; [|left; reflexivity].
    repeat (constructor; [apply N; discriminate|]). constructor.
  - eexists. split; [|right; split; [discriminate|reflexivity]]. split.
    + repeat (constructor; [apply N; discriminate|]). constructor.
    + right. exists [B "x"], (B "y"). split; [reflexivity|]. split; [discriminate|reflexivity].
Qed.

(* C26 is false: without arguments head prints nothing, whatever is on standard input. *)
Theorem C26_no_operands_refuted : forall w ls, reads w 0 (B "-") ls -> ls <> [] ->
  out (head_main w []) <> unlines (firstn 10 ls).
Proof. intros w [|l ls] _ N; [congruence|]. change (out (head_main w [])) with (@nil ascii). cbn [firstn]. rewrite unlines_cons. now destruct l. Qed.
Print Assumptions C26_no_operands_refuted.
Theorem C26_no_arguments_prints_nothing : forall w,
  head_main w [] = {| out := []; errout := []; fin := Exit 0 |}.
Proof. reflexivity. Qed.
Print Assumptions C26_no_arguments_prints_nothing.
(* With at least one -n and no operand standard input is read. *)
Theorem C26_counts_only_partial : forall w items ls, Forall item_ok items -> items <> [] -> operands items = [] ->
  reads w 0 (B "-") ls -> Forall short_line ls -> Forall not_cr_ended ls ->
  head_main w (render items) =
    {| out := unlines (firstn (Z.to_nat (count items)) ls); errout := []; fin := Exit 0 |}.
Proof. exact head_n_stdin. Qed.
Print Assumptions C26_counts_only_partial.
Example C26_nonvacuous : operands [Count 10] = [] /\
  reads {| opens := fun _ => None; stdin_at := fun _ => (B "a" ++ [nl], None) |} 0 (B "-") [B "a"] /\
  head_main {| opens := fun _ => None; stdin_at := fun _ => (B "a" ++ [nl] ++ B "b", None) |} (render [Count 1])
  = {| out := B "a" ++ [nl]; errout := []; fin := Exit 0 |}.
Proof.
  split; [reflexivity|]. split; [|vm_compute; reflexivity].
  exists (B "a" ++ [nl]). split; [|left; split; reflexivity].
  split; [|left; reflexivity]. repeat constructor. intros [H|[]]; discriminate.
Qed.

(* C128 is false: an overlong line right after the last line to be printed makes head panic, *)
Theorem C128_long_line_refuted : forall w items f ls x rest e, Forall item_ok items -> operands items = [f] ->
  gives w 0 f (unlines ls ++ x ++ rest, e) -> Forall line_ok ls -> length ls = Z.to_nat (count items) ->
  long_line x -> rest = [] \/ hd cr rest = nl ->
  fin (head_main w (render items)) = Panicked /\ printed ls (out (head_main w (render items))).
Proof.
  intros w items f ls x rest e H E G L N X R.
  assert (P : printed ls (unlines (map drop_cr ls))) by now apply printed_drop.
  assert (Q : inputs items = [] ++ f :: []) by (unfold inputs; now rewrite E).
  rewrite (head_exact_fail w items [] f [] [] (unlines (map drop_cr ls)) H); auto.
  - rewrite Q. split; [reflexivity|exact P].
  - intros ->. discriminate.
  - exact I.
  - right. eexists. split; [exact G|]. apply shows_long; auto. lia.
Qed.
Print Assumptions C128_long_line_refuted.
(* and so does a read error in the following line, or at the very end of the lines to be printed. *)
Theorem C128_read_error_refuted : forall w items f ls x e, Forall item_ok items -> operands items = [f] ->
  gives w 0 f (unlines ls ++ x, Some e) -> Forall line_ok ls -> length ls = Z.to_nat (count items) -> line_ok x ->
  fin (head_main w (render items)) = Panicked /\ printed ls (out (head_main w (render items))).
Proof.
  intros w items f ls x e H E G L N X.
  assert (P : printed ls (unlines (map drop_cr ls))) by now apply printed_drop.
  assert (Q : inputs items = [] ++ f :: []) by (unfold inputs; now rewrite E).
  rewrite (head_exact_fail w items [] f [] [] (unlines (map drop_cr ls)) H); auto.
  - rewrite Q. split; [reflexivity|exact P].
  - intros ->. discriminate.
  - exact I.
  - right. eexists. split; [exact G|]. apply (shows_all _ ls x (Some e)); auto; [lia|].
    rewrite firstn_app, firstn_all2 by lia. rewrite N, Nat.sub_diag. cbn [firstn]. now rewrite app_nil_r.
Qed.
Print Assumptions C128_read_error_refuted.
(* Exactly what happens with any inputs: all operands are shown, *)
Theorem C128_success_partial : forall w items os, Forall item_ok items -> items <> [] ->
  all_show w (Z.to_nat (count items)) 0 (inputs items) os ->
  head_main w (render items) =
    {| out := join [nl] (map (under_header (1 <? length (inputs items))) (combine (inputs items) os));
       errout := []; fin := Exit 0 |}.
Proof. exact head_exact_ok. Qed.
Print Assumptions C128_success_partial.
(* or the first that cannot be opened or shown ends the run; *)
Theorem C128_failure_partial : forall w items fs f post os o, Forall item_ok items -> items <> [] ->
  inputs items = fs ++ f :: post -> all_show w (Z.to_nat (count items)) 0 fs os ->
  (unopenable w f /\ o = []) \/ (exists c, gives w (length fs) f c /\ shows (Z.to_nat (count items)) c o false) ->
  head_main w (render items) =
    {| out := join [nl] (map (under_header (1 <? length (inputs items))) (combine fs os ++ [(f, o)]));
       errout := []; fin := Panicked |}.
Proof. exact head_exact_fail. Qed.
Print Assumptions C128_failure_partial.
(* every input falls under one of the cases of [shows]. *)
Theorem C128_exhaustive : forall n c, exists o ok, shows n c o ok.
Proof. exact shows_total. Qed.
Print Assumptions C128_exhaustive.
Example C128_nonvacuous :
  let w := {| opens := fun f => if beqb f (B "a") then Some (unlines [B "1"; B "2"] ++ B "3", Some (B "io")) else None;
              stdin_at := fun _ => ([], None) |} in
  shows 1 (unlines [B "1"; B "2"] ++ B "3", Some (B "io")) (unlines [B "1"]) true /\
  shows 2 (unlines [B "1"; B "2"] ++ B "3", Some (B "io")) (unlines [B "1"; B "2"]) false /\
  long_line (repeat "x"%char (N.to_nat 65536)) /\
  head_main w (map B ["-n"; "1"; "a"; "b"]%string) =
    {| out := unlines [B "==> a <=="; B "1"; []; B "==> b <=="]; errout := []; fin := Panicked |}.
Proof.
  cbv zeta. assert (K : forall c, c <> nl -> line_ok [c]).
  { intros c H. split; [intros [E|[]]; congruence|reflexivity]. }
  split; [|split; [|split; [|vm_compute; reflexivity]]].
  - apply shows_enough; [repeat (constructor; [apply K; discriminate|]); constructor|reflexivity|now apply printed_drop].
  - apply (shows_all 2 [B "1"; B "2"] (B "3") (Some (B "io")));
      [repeat (constructor; [apply K; discriminate|]); constructor|auto|apply K; discriminate|now apply printed_drop].
  - split; [intros H; apply repeat_spec in H; discriminate|]. rewrite repeat_length, N2Nat.id. discriminate.
Qed.
