(* C160: what cmp -l tells of the second file.  Statements only; proofs in CmpRecoverProofs.v. *)
From Verif Require Import GoBase GoFacts CmpModel CmpSpec CmpProofs CmpRecoverProofs.

(* C160 is false for files of different length.  A second file that is too short can be cut anywhere behind its last
   difference, and nothing in the output, the diagnostics or the status tells; ... *)
Theorem C160_shorter_refuted : forall w w' f1 f2 args p p' q x r, operands args = [f1; f2] -> f1 <> [] -> f2 <> [] ->
  In (B "-l") args -> length p = length p' ->
  sees w f1 f2 (p ++ q ++ x :: r, None) (p' ++ q, None) -> sees w' f1 f2 (p ++ q ++ x :: r, None) (p', None) ->
  cmp_main w args = cmp_main w' args.
Proof.
  intros w w' f1 f2 args p p' q x r E N1 N2 Hl L H H'.
  rewrite (cmp_run w args f1 f2 _ _ _ _ E N1 N2 H), (cmp_run w' args f1 f2 _ _ _ _ E N1 N2 H').
  apply cut_short; [|assumption]. apply existsb_in. exact Hl.
Qed.
Print Assumptions C160_shorter_refuted.
(* ... and of a second file that is too long, what is beyond the end of the first one is not told. *)
Theorem C160_longer_refuted : forall w w' f1 f2 args p p' x r y t, operands args = [f1; f2] -> f1 <> [] -> f2 <> [] ->
  In (B "-l") args -> length p = length p' ->
  sees w f1 f2 (p, None) (p' ++ x :: r, None) -> sees w' f1 f2 (p, None) (p' ++ y :: t, None) ->
  cmp_main w args = cmp_main w' args.
Proof.
  intros w w' f1 f2 args p p' x r y t E N1 N2 Hl L H H'.
  rewrite (cmp_run w args f1 f2 _ _ _ _ E N1 N2 H), (cmp_run w' args f1 f2 _ _ _ _ E N1 N2 H').
  apply cut_long; [|assumption]. apply existsb_in. exact Hl.
Qed.
Print Assumptions C160_longer_refuted.
(* As far as all three files go, the bytes of the second file can be told from the first file and the output; ... *)
Theorem C160_bytes_partial : forall w w' f1 f2 args c c2 c2', operands args = [f1; f2] -> f1 <> [] -> f2 <> [] ->
  In (B "-l") args -> ~ In (B "-s") args -> sees w f1 f2 (c, None) (c2, None) -> sees w' f1 f2 (c, None) (c2', None) ->
  out (cmp_main w args) = out (cmp_main w' args) ->
  forall k z x y, nth_error c k = Some z -> nth_error c2 k = Some x -> nth_error c2' k = Some y -> x = y.
Proof. exact recovered. Qed.
Print Assumptions C160_bytes_partial.
(* ... so the whole of it if the status is 0. *)
Theorem C160_status_0_partial : forall w w' f1 f2 args c c2 c2', operands args = [f1; f2] -> f1 <> [] -> f2 <> [] ->
  In (B "-l") args -> ~ In (B "-s") args -> sees w f1 f2 (c, None) (c2, None) -> sees w' f1 f2 (c, None) (c2', None) ->
  fin (cmp_main w args) = Exit 0 -> cmp_main w args = cmp_main w' args -> c2 = c2'.
Proof.
  intros w w' f1 f2 args c c2 c2' E N1 N2 Hl Hs H H' F Q.
  assert (Lc : forall v d, sees v f1 f2 (c, None) (d, None) -> fin (cmp_main v args) = Exit 0 -> length d = length c).
  { intros v d Hv Fv. destruct (cmp_l v f1 f2 args c d E N1 N2 Hl Hs Hv) as [_ S0]. rewrite Fv in S0.
    destruct (Nat.eqb_spec (length c) (length d)) as [->|]; [reflexivity|discriminate]. }
  assert (L2 := Lc _ _ H F). assert (L2' := Lc _ _ H' ltac:(rewrite <- Q; exact F)).
  apply same_length_eq; [congruence|]. intros k x y Hx Hy.
  destruct (nth_error c k) as [z|] eqn:Hz.
  - apply (recovered w w' f1 f2 args c c2 c2' E N1 N2 Hl Hs H H' ltac:(now rewrite Q) k z x y Hz Hx Hy).
  - apply nth_error_None in Hz. rewrite <- L2 in Hz. apply nth_error_None in Hz. congruence.
Qed.
Print Assumptions C160_status_0_partial.

Definition told_world (second : bytes) : world :=
  {| opens := fun f => if beqb f (B "x") then Some (B "abcdefg", None) else if beqb f (B "y") then Some (second, None) else None;
     stdin := ([], None); both := (([], None), ([], None)) |}.
Example C160_nonvacuous :
  (forall t, sees (told_world t) (B "x") (B "y") (B "abcdefg", None) (t, None)) /\
  B "abcdefg" = B "abc" ++ B "def" ++ "g"%char :: [] /\
  cmp_main (told_world (B "aXcdef")) (map B ["-l"; "x"; "y"]%string) =
    {| out := B "2 142 130" ++ [nl]; errout := B "cmp: EOF on y" ++ [nl]; fin := Exit 1 |} /\
  cmp_main (told_world (B "aXc")) (map B ["-l"; "x"; "y"]%string) =
    {| out := B "2 142 130" ++ [nl]; errout := B "cmp: EOF on y" ++ [nl]; fin := Exit 1 |} /\
  cmp_main (told_world (B "aXcdefg")) (map B ["-l"; "x"; "y"]%string) =
    {| out := B "2 142 130" ++ [nl]; errout := []; fin := Exit 0 |}.
Proof.
  split; [|repeat split; vm_compute; reflexivity].
  intros t. right. split; [left; discriminate|]. split; right; split; try discriminate; reflexivity.
Qed.
