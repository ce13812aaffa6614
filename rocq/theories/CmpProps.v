(* C20-C24, C69: cmd/cmp.  Statements only; proofs in CmpProofs.v. *)
From Verif Require Import GoBase GoFacts CmpModel CmpSpec CmpProofs.

(* C20: two readable operands, no options. *)
Theorem C20_first_difference : forall w f1 f2 args c1 c2, operands args = [f1; f2] -> f1 <> [] -> f2 <> [] ->
  ~ In (B "-l") args -> ~ In (B "-s") args -> sees w f1 f2 (c1, None) (c2, None) ->
  (cmp_main w args = {| out := []; errout := []; fin := Exit 0 |} <-> c1 = c2) /\
  (forall p x y r1 r2, c1 = p ++ x :: r1 -> c2 = p ++ y :: r2 -> x <> y ->
     cmp_main w args = {| out := f1 ++ B " " ++ f2 ++ B " differ: char " ++ ntoa (length p + 1) ++ B ", line "
                            ++ ntoa (newlines p + 1) ++ [nl]; errout := []; fin := Exit 1 |}) /\
  (forall x r, c2 = c1 ++ x :: r ->
     cmp_main w args = {| out := []; errout := B "cmp: EOF on " ++ f1 ++ [nl]; fin := Exit 1 |}) /\
  (forall x r, c1 = c2 ++ x :: r ->
     cmp_main w args = {| out := []; errout := B "cmp: EOF on " ++ f2 ++ [nl]; fin := Exit 1 |}).
Proof. exact cmp_plain. Qed.
Print Assumptions C20_first_difference.

Definition demo_world : world :=
  {| opens := fun f => if beqb f (B "x") then Some (B "ab" ++ [nl] ++ B "cdef", None)
                       else if beqb f (B "y") then Some (B "ab" ++ [nl] ++ B "cxey", None) else None;
     stdin := (B "ab", None); both := (([], None), ([], None)) |}.
Example C20_nonvacuous :
  sees demo_world (B "x") (B "y") (B "ab" ++ [nl] ++ B "cdef", None) (B "ab" ++ [nl] ++ B "cxey", None) /\
  sees demo_world (B "x") (B "-") (B "ab" ++ [nl] ++ B "cdef", None) (B "ab", None) /\
  cmp_main demo_world [B "x"; B "y"] = {| out := B "x y differ: char 5, line 2" ++ [nl]; errout := []; fin := Exit 1 |} /\
  cmp_main demo_world [B "x"; B "-"] = {| out := []; errout := B "cmp: EOF on -" ++ [nl]; fin := Exit 1 |}.
Proof.
  split; [|split; [|split; vm_compute; reflexivity]].
  - right. split; [left; discriminate|]. split; right; split; try discriminate; reflexivity.
  - right. split; [left; discriminate|]. split; [right|left]; split; try discriminate; reflexivity.
Qed.

(* C21 *)
Theorem C21_all_differences : forall w f1 f2 args c1 c2, operands args = [f1; f2] -> f1 <> [] -> f2 <> [] ->
  In (B "-l") args -> ~ In (B "-s") args -> sees w f1 f2 (c1, None) (c2, None) ->
  out (cmp_main w args) = flat_map (fun p => ntoa (fst p) ++ B " " ++ octal (fst (snd p)) ++ B " "
       ++ octal (snd (snd p)) ++ [nl]) (differences c1 c2).
Proof. intros. eapply proj1, cmp_l; eauto. Qed.
Print Assumptions C21_all_differences.
(* [differences] lists exactly the differing positions *)
Theorem C21_differences_are_all : forall c1 c2 i x y,
  In (i, (x, y)) (differences c1 c2) <->
  exists k, i = S k /\ nth_error c1 k = Some x /\ nth_error c2 k = Some y /\ x <> y.
Proof. exact differences_spec. Qed.
Print Assumptions C21_differences_are_all.
Theorem C21_differences_increasing : forall c1 c2, StronglySorted lt (map fst (differences c1 c2)).
Proof. exact differences_sorted. Qed.
Print Assumptions C21_differences_increasing.
(* the numerals printed are the octal values of the bytes, without leading zeros *)
Theorem C21_octal_numerals : forall c, octal_value (octal c) = N_of_ascii c /\
  (1 < length (octal c) -> hd "0"%char (octal c) <> "0"%char).
Proof. exact octal_ok. Qed.
Print Assumptions C21_octal_numerals.
Example C21_nonvacuous : operands [B "-l"; B "x"; B "y"] = [B "x"; B "y"] /\
  cmp_main demo_world [B "-l"; B "x"; B "y"] =
  {| out := B "5 144 170" ++ [nl] ++ B "7 146 171" ++ [nl]; errout := []; fin := Exit 0 |}.
Proof. split; vm_compute; reflexivity. Qed.

(* C22 is false: any two differing files of equal length give status 0 under -l. *)
Theorem C22_l_status_refuted : forall w f1 f2 args c1 c2, operands args = [f1; f2] -> f1 <> [] -> f2 <> [] ->
  In (B "-l") args -> ~ In (B "-s") args -> sees w f1 f2 (c1, None) (c2, None) -> c1 <> c2 ->
  length c1 = length c2 -> fin (cmp_main w args) = Exit 0.
Proof. intros w f1 f2 args c1 c2 O N1 N2 L S W _ E. exact (proj2 (cmp_l_status w f1 f2 args c1 c2 O N1 N2 L S W) E). Qed.
Print Assumptions C22_l_status_refuted.
Example C22_l_nonvacuous : exists w args c1 c2, operands args = [B "x"; B "y"] /\ In (B "-l") args /\
  ~ In (B "-s") args /\ sees w (B "x") (B "y") (c1, None) (c2, None) /\ c1 <> c2 /\ length c1 = length c2.
Proof.
  exists demo_world, [B "-l"; B "x"; B "y"], (B "ab" ++ [nl] ++ B "cdef"), (B "ab" ++ [nl] ++ B "cxey").
  repeat split; try (vm_compute; reflexivity); [left; reflexivity| | |discriminate].
  - intros [H|[H|[H|[]]]]; discriminate.
  - right. split; [left; discriminate|]. split; right; split; try discriminate; reflexivity.
Qed.
(* Under -l the status is 1 exactly when the lengths differ. *)
Theorem C22_l_status_partial : forall w f1 f2 args c1 c2, operands args = [f1; f2] -> f1 <> [] -> f2 <> [] ->
  In (B "-l") args -> ~ In (B "-s") args -> sees w f1 f2 (c1, None) (c2, None) ->
  (length c1 <> length c2 -> fin (cmp_main w args) = Exit 1) /\
  (length c1 = length c2 -> fin (cmp_main w args) = Exit 0).
Proof. exact cmp_l_status. Qed.
Print Assumptions C22_l_status_partial.

(* C23: for any arguments and any files, readable or not. *)
Theorem C23_s_silences_stdout : forall w args, In (B "-s") args ->
  out (cmp_main w args) = [] /\
  fin (cmp_main w args) = fin (cmp_main w (filter (fun a => negb (beqb a (B "-s"))) args)).
Proof. exact cmp_s. Qed.
Print Assumptions C23_s_silences_stdout.
Example C23_nonvacuous :
  cmp_main demo_world [B "x"; B "-s"; B "y"] = {| out := []; errout := []; fin := Exit 1 |}.
Proof. vm_compute. reflexivity. Qed.

(* C24 is false for empty operands: they are skipped as long as two others have not been seen. *)
Theorem C24_operands_refuted : forall w a b, length (filter (fun x => negb (beqb x [])) (operands a)) < 2 ->
  cmp_main w (a ++ [] :: b) = cmp_main w (a ++ b).
Proof. intros w a b L. unfold cmp_main, parse_settings. rewrite empty_skipped; [reflexivity|reflexivity|exact L]. Qed.
Print Assumptions C24_operands_refuted.
(* Non-empty operands: *)
Theorem C24_operands_partial : forall args f1 f2, operands args = [f1; f2] -> f1 <> [] -> f2 <> [] ->
  exists s, parse_settings args = Ok s /\ file1 s = f1 /\ file2 s = f2 /\
    (writeAll s = true <-> In (B "-l") args) /\ (silent s = true <-> In (B "-s") args).
Proof. exact parse_operands_flags. Qed.
Print Assumptions C24_operands_partial.
Theorem C24_too_many_operands_partial : forall w args a b c r, (forall x, In x (operands args) -> x <> []) ->
  operands args = a :: b :: c :: r ->
  cmp_main w args = {| out := []; errout := B "Error: too many files: " ++ c; fin := Exit 2 |}.
Proof. exact cmp_too_many. Qed.
Print Assumptions C24_too_many_operands_partial.
Theorem C24_unopenable_partial : forall w args f1 f2, operands args = [f1; f2] -> f1 <> [] -> f2 <> [] ->
  (unopenable w f1 -> cmp_main w args = {| out := []; errout := B "Error: could not open " ++ f1; fin := Exit 2 |}) /\
  (~ unopenable w f1 -> unopenable w f2 ->
     cmp_main w args = {| out := []; errout := B "Error: could not open " ++ f2; fin := Exit 2 |}).
Proof. exact cmp_unopenable. Qed.
Print Assumptions C24_unopenable_partial.
(* too few operands: the missing ones are the empty file name, which no system opens *)
Theorem C24_missing_operand : forall w args, opens w [] = None -> (forall x, In x (operands args) -> x <> []) ->
  (operands args = [] -> cmp_main w args = {| out := []; errout := B "Error: could not open "; fin := Exit 2 |}) /\
  (forall f, operands args = [f] -> cmp_main w args =
     {| out := []; errout := B "Error: could not open " ++ (if beqb f (B "-") then [] else match opens w f with Some _ => [] | None => f end);
        fin := Exit 2 |}).
Proof. exact cmp_missing. Qed.
Print Assumptions C24_missing_operand.
(* a read error reached before any difference gives status 2 ... *)
Theorem C24_read_error : forall w args f1 f2 c1 c2 r e e2, operands args = [f1; f2] -> f1 <> [] -> f2 <> [] ->
  (c1 = c2 ++ r -> r <> [] -> sees w f1 f2 (c1, e2) (c2, Some e) ->
     cmp_main w args = {| out := []; errout := B "Error: Error reading " ++ f2 ++ B ": " ++ e; fin := Exit 2 |}) /\
  (c2 = c1 ++ r -> sees w f1 f2 (c1, Some e) (c2, e2) ->
     cmp_main w args = {| out := []; errout := B "Error: Error reading " ++ f1 ++ B ": " ++ e; fin := Exit 2 |}).
Proof. exact cmp_read_error. Qed.
Print Assumptions C24_read_error.
(* ... except one in the second file where the first ends: that file is said to be too short. *)
Theorem C24_read_error_refuted : forall w args f1 f2 c e, operands args = [f1; f2] -> f1 <> [] -> f2 <> [] ->
  sees w f1 f2 (c, None) (c, Some e) ->
  cmp_main w args = {| out := []; errout := B "cmp: EOF on " ++ f1 ++ [nl]; fin := Exit 1 |}.
Proof. exact cmp_error_at_end. Qed.
Print Assumptions C24_read_error_refuted.
Example C24_nonvacuous :
  operands (map B ["x"; "-l"; "y"; "-s"]%string) = [B "x"; B "y"] /\ unopenable demo_world (B "z") /\
  fin (cmp_main demo_world (map B ["x"; "-l"; "y"; "y"]%string)) = Exit 2 /\
  fin (cmp_main demo_world (map B [""; "x"; "x"]%string)) = Exit 0.
Proof. split; [vm_compute; reflexivity|]. split; [split; [discriminate|reflexivity]|split; vm_compute; reflexivity]. Qed.

(* C69 is false: a file that is a proper prefix of the other is reported even with -s. *)
Theorem C69_s_prints_nothing_refuted : forall w args f1 f2 c1 c2 x r, operands args = [f1; f2] -> f1 <> [] -> f2 <> [] ->
  In (B "-s") args -> sees w f1 f2 (c1, None) (c2, None) ->
  (c2 = c1 ++ x :: r -> cmp_main w args = {| out := []; errout := B "cmp: EOF on " ++ f1 ++ [nl]; fin := Exit 1 |}) /\
  (c1 = c2 ++ x :: r -> cmp_main w args = {| out := []; errout := B "cmp: EOF on " ++ f2 ++ [nl]; fin := Exit 1 |}).
Proof.
  intros w args f1 f2 c1 c2 x r E N1 N2 Hs H. rewrite (cmp_run w args f1 f2 _ _ _ _ E N1 N2 H). split; intros ->.
  - replace c1 with (c1 ++ []) at 1 by apply app_nil_r. rewrite cmp_loop_prefix. reflexivity.
  - replace c2 with (c2 ++ []) at 2 by apply app_nil_r. rewrite cmp_loop_prefix. reflexivity.
Qed.
Print Assumptions C69_s_prints_nothing_refuted.
(* It is true when the contents differ at some byte both have (without -l), or are equal. *)
Theorem C69_s_prints_nothing_partial : forall w args f1 f2 p x y r1 r2 e1 e2, operands args = [f1; f2] ->
  f1 <> [] -> f2 <> [] -> In (B "-s") args -> ~ In (B "-l") args ->
  sees w f1 f2 (p ++ x :: r1, e1) (p ++ y :: r2, e2) -> x <> y ->
  cmp_main w args = {| out := []; errout := []; fin := Exit 1 |}.
Proof. exact cmp_s_nothing. Qed.
Print Assumptions C69_s_prints_nothing_partial.
Example C69_nonvacuous : operands (map B ["-s"; "x"; "-"]%string) = [B "x"; B "-"] /\
  sees demo_world (B "x") (B "-") (B "ab" ++ [nl] ++ B "cdef", None) (B "ab", None) /\
  sees demo_world (B "x") (B "y") (B "ab" ++ nl :: B "c" ++ "d"%char :: B "ef", None) (B "ab" ++ nl :: B "c" ++ "x"%char :: B "ey", None).
Proof.
  split; [reflexivity|]. split; right.
  - split; [left; discriminate|]. split; [right|left]; split; try discriminate; reflexivity.
  - split; [left; discriminate|]. split; right; split; try discriminate; reflexivity.
Qed.
