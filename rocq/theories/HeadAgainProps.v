(* C159: head of the output of head (cmd/head/main.go).  Statements, and short proofs from HeadProofs.v. *)
From Verif Require Import GoBase GoFacts HeadModel HeadSpec HeadProofs.

(* C159 is false exactly when a line printed ends in two carriage returns: printing it again takes another one away. *)
Theorem C159_again_refuted : forall w items f ls w' items' f' items2, Forall item_ok items -> operands items = [f] ->
  reads w 0 f ls -> Forall short_line ls -> Forall item_ok items' -> operands items' = [f'] ->
  gives w' 0 f' (out (head_main w (render items)), None) ->
  Forall item_ok items2 -> operands items2 = [f] -> count items2 = Z.min (count items') (count items) ->
  Exists twice_cr_ended (firstn (Z.to_nat (count items2)) ls) ->
  length (out (head_main w' (render items'))) < length (out (head_main w (render items2))).
Proof.
  intros w items f ls w' items' f' items2 H E R Sh H' E' Gv H2 E2 C X.
  rewrite (head_head w items f ls w' items' f') by assumption. rewrite (head_one w items2 f ls) by assumption.
  rewrite C in *. rewrite Z2Nat.inj_min in *. cbn [out]. apply unlines_shorter. rewrite Exists_exists in *.
  destruct X as (l&I&(p&->)). exists (p ++ [cr]). split; [|eauto]. rewrite in_map_iff. exists (p ++ [cr; cr]). split; [|assumption].
  change [cr; cr] with ([cr] ++ [cr]). rewrite app_assoc. apply drop_cr_ended.
Qed.
Print Assumptions C159_again_refuted.
(* Otherwise head -n m of what head -n k printed is what head prints with the smaller of k and m. *)
Theorem C159_again_partial : forall w items f ls w' items' f' items2, Forall item_ok items -> operands items = [f] ->
  reads w 0 f ls -> Forall short_line ls -> Forall item_ok items' -> operands items' = [f'] ->
  gives w' 0 f' (out (head_main w (render items)), None) ->
  Forall item_ok items2 -> operands items2 = [f] -> count items2 = Z.min (count items') (count items) ->
  ~ Exists twice_cr_ended (firstn (Z.to_nat (count items2)) ls) ->
  head_main w' (render items') = head_main w (render items2).
Proof.
  intros w items f ls w' items' f' items2 H E R Sh H' E' Gv H2 E2 C X.
  rewrite (head_head w items f ls w' items' f') by assumption. rewrite (head_one w items2 f ls) by assumption.
  rewrite C in *. rewrite Z2Nat.inj_min in *. f_equal. f_equal. rewrite map_map. apply map_ext_in. intros l I.
  destruct (drop_cr_cases l) as [(p&->&Q)|[_ Q]]; rewrite Q; [|assumption].
  apply drop_cr_not_ended. intros q ->. apply X. rewrite Exists_exists. eexists. split; [exact I|]. exists q. now rewrite <- app_assoc.
Qed.
Print Assumptions C159_again_partial.
Example C159_nonvacuous :
  let w := {| opens := fun f => Some (unlines [B "1"; B "2" ++ [cr]; B "3"; B "4" ++ [cr; cr]], None); stdin_at := fun _ => ([], None) |} in
  let items := [Count 4; Operand (B "f")] in
  let w' := {| opens := fun _ => None; stdin_at := fun _ => (out (head_main w (render items)), None) |} in
  let items' := [Count 3; Operand (B "-")] in
  Forall item_ok items /\ Forall item_ok items' /\ reads w 0 (B "f") [B "1"; B "2" ++ [cr]; B "3"; B "4" ++ [cr; cr]] /\
  gives w' 0 (B "-") (out (head_main w (render items)), None) /\
  ~ Exists twice_cr_ended (firstn 3 [B "1"; B "2" ++ [cr]; B "3"; B "4" ++ [cr; cr]]) /\
  out (head_main w' (render items')) = unlines (map B ["1"; "2"; "3"]%string) /\
  out (head_main w' (render [Operand (B "-")])) = unlines (map B ["1"; "2"; "3"; "4"]%string) /\
  out (head_main w (render items)) = unlines [B "1"; B "2"; B "3"; B "4" ++ [cr]].
Proof.
  cbv zeta. split; [constructor; [split; discriminate|constructor; [discriminate|constructor]]|].
  split; [constructor; [split; discriminate|constructor; [discriminate|constructor]]|]. split.
  { eexists. split; [|right; split; [discriminate|reflexivity]]. split; [|left; reflexivity].
    repeat (constructor; [cbn; intuition discriminate|]). constructor. }
  split; [left; split; reflexivity|]. split; [|repeat split; vm_compute; reflexivity].
  intros X. inversion X as [? ? (p&E)|? ? X1]; subst; [destruct p as [|? [|? [|? ?]]]; discriminate|].
  inversion X1 as [? ? (p&E)|? ? X2]; subst; [destruct p as [|? [|? [|? ?]]]; discriminate|].
  inversion X2 as [? ? (p&E)|? ? X3]; subst; [destruct p as [|? [|? [|? ?]]]; discriminate|inversion X3].
Qed.
