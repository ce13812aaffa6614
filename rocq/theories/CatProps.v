(* C27, C28: cmd/cat.  Statements only; proofs in CatProofs.v. *)
From Verif Require Import GoBase GoFacts CatModel CatSpec CatProofs.

(* C27: every operand readable *)
Theorem C27_concatenates : forall w args fs cs, operands args fs -> all_readable w fs cs -> length cs = length fs ->
  cat_main w args = {| out := concat cs; errout := []; fin := Exit 0 |}.
Proof. exact cat_all. Qed.
Print Assumptions C27_concatenates.
(* some operand fails: the first failing one ends the run *)
Theorem C27_stops_at_failure : forall w args fs cs f c e, operands args fs -> all_readable w fs cs ->
  nth_error fs (length cs) = Some f -> failing w (length cs) f c e ->
  out (cat_main w args) = concat cs ++ c /\
  errout (cat_main w args) = B "Error encountered while attempting to read from " ++ f ++ B ": " ++ e ++ [nl].
Proof. intros w args fs cs f c e O R N F. now rewrite (cat_fail w args fs cs f c e). Qed.
Print Assumptions C27_stops_at_failure.
(* these are the only two possibilities *)
Theorem C27_exhaustive : forall w args, exists fs cs, operands args fs /\ all_readable w fs cs /\
  (length cs = length fs \/ exists f c e, nth_error fs (length cs) = Some f /\ failing w (length cs) f c e).
Proof. exact cat_total. Qed.
Print Assumptions C27_exhaustive.
Definition demo : world :=
  {| opens := fun f => if beqb f (B "a") then inl (B "A", None) else if beqb f (B "dir") then inl ([], Some (B "is a directory"))
                       else inr (B "no such file");
     stdin_at := fun i => (if i =? 2 then B "in" else [], None) |}.
Example C27_nonvacuous :
  operands (map B ["a"; "-u"; "a"; "-"]%string) (map B ["a"; "a"; "-"]%string) /\
  all_readable demo (map B ["a"; "a"; "-"]%string) [B "A"; B "A"; B "in"] /\
  cat_main demo (map B ["a"; "-u"; "a"; "-"]%string) = {| out := B "AAin"; errout := []; fin := Exit 0 |} /\
  operands [B "-u"] [B "-"] /\ failing demo 1 (B "zz") [] (B "no such file").
Proof.
  split; [|split; [|split; [vm_compute; reflexivity|split]]].
  - eexists. split; [reflexivity|]. right. split; [discriminate|vm_compute; reflexivity].
  - intros [|[|[|i]]] c; cbn; intros E; try (destruct i; discriminate); injection E as <-;
      eexists; (split; [reflexivity|]); [right|right|left]; (split; [discriminate|reflexivity]) || (split; reflexivity).
  - eexists. split; [reflexivity|]. left. split; vm_compute; reflexivity.
  - right. split; [discriminate|]. right. split; reflexivity.
Qed.

(* C28 is false: whichever operand fails and however, the status is 0; *)
Theorem C28_failure_status_refuted : forall w args fs cs f c e, operands args fs -> all_readable w fs cs ->
  nth_error fs (length cs) = Some f -> failing w (length cs) f c e -> fin (cat_main w args) = Exit 0.
Proof. intros. apply cat_exit0. Qed.
Print Assumptions C28_failure_status_refuted.
Example C28_nonvacuous : operands [B "zz"] [B "zz"] /\ all_readable demo [B "zz"] [] /\
  nth_error [B "zz"] (length (@nil bytes)) = Some (B "zz") /\ failing demo 0 (B "zz") [] (B "no such file").
Proof.
  split; [|split; [|split]]; try reflexivity.
  - eexists. split; [reflexivity|]. right. split; [discriminate|vm_compute; reflexivity].
  - intros [|i]; discriminate.
  - right. split; [discriminate|]. right. split; reflexivity.
Qed.
(* the status never tells anything *)
Theorem C28_status_always_zero : forall w args, fin (cat_main w args) = Exit 0.
Proof. exact cat_exit0. Qed.
Print Assumptions C28_status_always_zero.
(* but a failure is visible on standard error, and only a failure is *)
Theorem C28_stderr_tells_partial : forall w args, errout (cat_main w args) = [] <->
  exists fs cs, operands args fs /\ all_readable w fs cs /\ length cs = length fs.
Proof.
  intros w args. split.
  - intros H. destruct (cat_total w args) as (fs&cs&O&R&[L|(f&c&e&N&F)]); [now exists fs, cs|].
    rewrite (cat_fail w args fs cs f c e) in H; auto. discriminate.
  - intros (fs&cs&O&R&L). now rewrite (cat_all w args fs cs).
Qed.
Print Assumptions C28_stderr_tells_partial.
