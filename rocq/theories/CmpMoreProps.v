(* C116: cmd/cmp with its operands swapped.  Statement only; proof in CmpMoreProofs.v. *)
From Verif Require Import GoBase GoFacts CmpModel CmpSpec CmpMoreProofs.

(* C116: the same status and diagnostics; the message with the names swapped, or the list of differences with
   the bytes swapped. *)
Theorem C116_swapped_operands : forall w f1 f2 args args' c1 c2, operands args = [f1; f2] -> operands args' = [f2; f1] ->
  f1 <> [] -> f2 <> [] -> (forall o, is_option o = true -> (In o args <-> In o args')) ->
  sees w f1 f2 (c1, None) (c2, None) -> sees w f2 f1 (c2, None) (c1, None) ->
  fin (cmp_main w args') = fin (cmp_main w args) /\ errout (cmp_main w args') = errout (cmp_main w args) /\
  (~ In (B "-l") args -> (out (cmp_main w args) = [] /\ out (cmp_main w args') = []) \/
     exists t, out (cmp_main w args) = f1 ++ B " " ++ f2 ++ t /\ out (cmp_main w args') = f2 ++ B " " ++ f1 ++ t) /\
  (In (B "-l") args -> exists ds,
     out (cmp_main w args) = flat_map (fun p => ntoa (fst p) ++ B " " ++ octal (fst (snd p)) ++ B " "
       ++ octal (snd (snd p)) ++ [nl]) ds /\
     out (cmp_main w args') = flat_map (fun p => ntoa (fst p) ++ B " " ++ octal (snd (snd p)) ++ B " "
       ++ octal (fst (snd p)) ++ [nl]) ds).
Proof. exact cmp_swapped. Qed.
Print Assumptions C116_swapped_operands.

Definition swap_world : world :=
  {| opens := fun f => if beqb f (B "x") then Some (B "ab" ++ [nl] ++ B "cd", None)
                       else if beqb f (B "y") then Some (B "ab" ++ [nl] ++ B "cxey", None) else None;
     stdin := (B "ab", None); both := (([], None), ([], None)) |}.
Example C116_nonvacuous :
  sees swap_world (B "x") (B "y") (B "ab" ++ [nl] ++ B "cd", None) (B "ab" ++ [nl] ++ B "cxey", None) /\
  sees swap_world (B "y") (B "x") (B "ab" ++ [nl] ++ B "cxey", None) (B "ab" ++ [nl] ++ B "cd", None) /\
  cmp_main swap_world [B "y"; B "x"] = {| out := B "y x differ: char 5, line 2" ++ [nl]; errout := []; fin := Exit 1 |} /\
  cmp_main swap_world [B "-l"; B "x"; B "y"] =
    {| out := B "5 144 170" ++ [nl]; errout := B "cmp: EOF on x" ++ [nl]; fin := Exit 1 |} /\
  cmp_main swap_world [B "y"; B "-l"; B "x"] =
    {| out := B "5 170 144" ++ [nl]; errout := B "cmp: EOF on x" ++ [nl]; fin := Exit 1 |}.
Proof.
  split; [|split; [|repeat split; vm_compute; reflexivity]];
    right; (split; [left; discriminate|]); split; right; split; try discriminate; reflexivity.
Qed.
