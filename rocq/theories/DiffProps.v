(* C06-C11: pkg/diff and cmd/diff.  Statements only; proofs in Diff*Proofs.v. *)
From Verif Require Import GoBase GoFacts DiffModel DiffSpec DiffProofs DiffPatchProofs DiffCmdProofs.

(* C06: Diff terminates, does not panic, and both inputs can be read off its result: the unchanged
   and removed lines are old, the unchanged and added lines are new. *)
Theorem C06_diff_reassembles : forall old new, exists cs, diff old new = Some (Ok cs) /\
  flat_map (fun c => match kind c with Add => [] | _ => values c end) cs = old /\
  flat_map (fun c => match kind c with Minus => [] | _ => values c end) cs = new.
Proof. exact diff_reassembles. Qed.
Print Assumptions C06_diff_reassembles.

Definition demo_old : list bytes := map B ["a"; "b"; "c"; "d"; "e"]%string.
Definition demo_new : list bytes := map B ["b"; "c"; "x"; "y"; "e"; "f"]%string.
Example C06_nonvacuous : exists cs, diff demo_old demo_new = Some (Ok cs) /\ List.length cs = 6.
Proof. eexists; split; [vm_compute; reflexivity|reflexivity]. Qed.

(* C07: the printed text, read as a normal-format diff, is a correctly numbered description of the
   change; applying it to old gives new and applying it in reverse to new gives old. *)
Theorem C07_printed_diff_is_a_patch : forall old new,
  (forall l, In l old -> ~ In nl l) -> (forall l, In l new -> ~ In nl l) ->
  exists cs hs, diff old new = Some (Ok cs) /\ read_diff (format cs) = Some hs /\
    patches hs 0 0 old new /\
    apply_patch hs 0 old = Some new /\ apply_patch (map reverse_hunk hs) 0 new = Some old.
Proof. exact diff_is_patch. Qed.
Print Assumptions C07_printed_diff_is_a_patch.

Example C07_nonvacuous :
  (forall l, In l demo_old -> ~ In nl l) /\ (forall l, In l demo_new -> ~ In nl l) /\
  exists cs, diff demo_old demo_new = Some (Ok cs) /\
  split_on nl (format cs) =
    map B ["1d0"; "< a"; "4c3,4"; "< d"; "---"; "> x"; "> y"; "5a6"; "> f"]%string.
Proof.
  split; [|split].
  - vm_compute. intuition subst; intuition discriminate.
  - vm_compute. intuition subst; intuition discriminate.
  - eexists; split; vm_compute; reflexivity.
Qed.

(* C08 *)
Theorem C08_empty_output_iff_identical : forall old new cs, diff old new = Some (Ok cs) ->
  (format cs = [] <-> old = new).
Proof. exact format_empty_iff_equal. Qed.
Print Assumptions C08_empty_output_iff_identical.

(* C09: any run of lines common to both files is matched in length by some unchanged block. *)
Theorem C09_longest_common_run_kept : forall old new run a b c d cs, run <> [] ->
  old = a ++ run ++ b -> new = c ++ run ++ d -> diff old new = Some (Ok cs) ->
  exists kept, In {| kind := Equal; values := kept |} cs /\ List.length run <= List.length kept.
Proof. exact diff_keeps_run. Qed.
Print Assumptions C09_longest_common_run_kept.
Example C09_nonvacuous : exists cs,
  demo_old = [B "a"] ++ [B "b"; B "c"] ++ [B "d"; B "e"] /\
  demo_new = [] ++ [B "b"; B "c"] ++ [B "x"; B "y"; B "e"; B "f"] /\
  diff demo_old demo_new = Some (Ok cs).
Proof. eexists. repeat split; vm_compute; reflexivity. Qed.

(* A demonstration file system. *)
Definition demo_fs (f : bytes) : option bytes :=
  if beqb f (B "x") then Some (unlines demo_old)
  else if beqb f (B "y") then Some (unlines demo_new)
  else None.

(* C10: refuted, for every command line and every pair of files: the status is never 1 when the
   files differ, and never greater than 1 when an operand cannot be opened; it is 0. *)
Theorem C10_exit_status_refuted : forall ae fs args s, parse_settings ae args = Ok s ->
  (forall c1 c2, fs (file1 s) = Some c1 -> fs (file2 s) = Some c2 -> c1 <> c2 ->
     exists r, diff_main ae fs args = Some r /\ fin r = Exit 0) /\
  (fs (file1 s) = None \/ fs (file2 s) = None ->
     exists r, diff_main ae fs args = Some r /\ fin r = Exit 0 /\ errout r = []).
Proof. exact diff_main_status. Qed.
Print Assumptions C10_exit_status_refuted.
Example C10_refuted_nonvacuous : forall ae,
  (exists s c1 c2, parse_settings ae [B "x"; B "y"] = Ok s /\
     demo_fs (file1 s) = Some c1 /\ demo_fs (file2 s) = Some c2 /\ c1 <> c2) /\
  (exists s, parse_settings ae [B "x"; B "nosuchfile"] = Ok s /\ demo_fs (file2 s) = None).
Proof.
  intros ae. split.
  - do 3 eexists. split; [reflexivity|]. split; [reflexivity|]. split; [reflexivity|]. discriminate.
  - eexists. split; reflexivity.
Qed.

(* C10, the true part: identical readable files give status 0 (and one empty line); whatever the
   operands, an accepted command line prints the formatted difference of the lines read (none for
   an operand that cannot be opened), one extra newline, and exits 0. *)
Theorem C10_identical_exit_0_partial : forall ae fs args s c, parse_settings ae args = Ok s ->
  fs (file1 s) = Some c -> fs (file2 s) = Some c ->
  diff_main ae fs args = Some {| out := [nl]; errout := []; fin := Exit 0 |}.
Proof. exact diff_main_identical. Qed.
Print Assumptions C10_identical_exit_0_partial.

Theorem C10_output_partial : forall ae fs args s, parse_settings ae args = Ok s ->
  exists cs, diff (read_lines fs (file1 s)) (read_lines fs (file2 s)) = Some (Ok cs) /\
    diff_main ae fs args = Some {| out := format cs ++ [nl]; errout := []; fin := Exit 0 |}.
Proof. exact diff_main_output. Qed.
Print Assumptions C10_output_partial.

Theorem C10_lines_read : forall fs f l, fs f = Some (unlines l) -> Forall plain_line l ->
  read_lines fs f = l.
Proof. exact read_lines_plain. Qed.
Print Assumptions C10_lines_read.

(* C11: an argument list made of well-formed options, in any order, and exactly two files is
   accepted with exactly these settings ... *)
Theorem C11_accepts : forall ae is f1 f2, Forall item_ok is -> two_files (operands is) f1 f2 ->
  exists s, parse_settings ae (flat_map item_words is) = Ok s /\
    file1 s = f1 /\ file2 s = f2 /\
    ignore_ws s = flag_given "b" is /\
    provide_context s = (flag_given "c" is || context_given is) /\
    ed_format s = flag_given "e" is /\ f_format s = flag_given "f" is /\
    recursive s = flag_given "r" is /\
    unified s = (flag_given "u" is || unified_given is).
Proof. exact parse_accepts_full. Qed.
Print Assumptions C11_accepts.

(* ... and everything else is refused, never a panic: the message is that of the mistake found
   first, reading from the left. *)
Theorem C11_accepts_only : forall ae args,
  (exists s is, parse_settings ae args = Ok s /\ args = flat_map item_words is /\ Forall item_ok is /\
    two_files (operands is) (file1 s) (file2 s)) \/
  (exists m, parse_settings ae args = Err m /\ mistake ae args m).
Proof.
  exact (fun ae args =>
    match parse_settings ae args as r
      return parse_settings ae args = r -> _ with
    | Ok s => fun E => or_introl (match parse_only ae args s E with
                                  | ex_intro _ is H => ex_intro _ s (ex_intro _ is (conj E H)) end)
    | Err m => fun E => or_intror (ex_intro _ m (conj E (reported_mistake ae args m E)))
    | Panic => fun E => match parse_never_panics ae args E with end
    end eq_refl).
Qed.
Print Assumptions C11_accepts_only.

Theorem C11_mistakes : forall ae args m, parse_settings ae args = Err m <-> mistake ae args m.
Proof. exact (fun ae args m => conj (reported_mistake ae args m) (mistake_reported ae args m)). Qed.
Print Assumptions C11_mistakes.

(* A mistake is printed on standard output and the status is 1; no file is looked at. *)
Theorem C11_mistake_status : forall ae fs args m, mistake ae args m ->
  diff_main ae fs args = Some {| out := B "Oh heck an error: " ++ m ++ [nl]; errout := []; fin := Exit 1 |}.
Proof. exact diff_main_mistake. Qed.
Print Assumptions C11_mistake_status.

Example C11_mistakes_nonvacuous : forall ae,
  mistake ae (map B ["-b"; "x"; "-U"]%string) (B "ah heck I though that a number was gonna follow -U") /\
  mistake ae (map B ["x"; "-U"; "no"; "y"]%string) (ae (B "no")) /\
  mistake ae (map B ["x"; ""; "y"; "z"; "t"]%string) (B "aww jeez you can only compare two files, z is the third") /\
  mistake ae (map B ["-c"; ""]%string) (B "oh no you forgot to give any files") /\
  mistake ae (map B ["-C"; "x"; "y"]%string) (B "oh no you forgot to give the second file").
Proof. intros ae. repeat split; apply C11_mistakes; reflexivity. Qed.

(* the last -C / -U decides the number of context lines *)
Theorem C11_context_size : forall ae is1 i is2 x n s, Forall item_ok (is1 ++ i :: is2) ->
  i = IContext x \/ i = IUnified x -> atoi x = Some n ->
  forallb (fun i => negb (sets_size i)) is2 = true ->
  parse_settings ae (flat_map item_words (is1 ++ i :: is2)) = Ok s -> context_size s = n.
Proof. exact parse_context_size. Qed.
Print Assumptions C11_context_size.
(* a -C argument that is not a number counts as 0, one outside the range of int as the nearest int *)
Theorem C11_context_size_not_an_int : forall ae is1 is2 x s, Forall item_ok (is1 ++ IContext x :: is2) ->
  forallb (fun i => negb (sets_size i)) is2 = true ->
  parse_settings ae (flat_map item_words (is1 ++ IContext x :: is2)) = Ok s ->
  (parse_dec x = None -> context_size s = 0%Z) /\
  (forall z, parse_dec x = Some z -> (max_int64 < z)%Z -> context_size s = max_int64) /\
  (forall z, parse_dec x = Some z -> (z < min_int64)%Z -> context_size s = min_int64).
Proof. exact parse_context_not_an_int. Qed.
Print Assumptions C11_context_size_not_an_int.
Example C11_not_an_int_nonvacuous : forall ae,
  (exists s, parse_settings ae (flat_map item_words ([IOperand (B "x"); IOperand (B "y")] ++ [IContext (B "1e3")])) = Ok s /\
     context_size s = 0%Z) /\
  (exists s, parse_settings ae (flat_map item_words ([IOperand (B "x"); IOperand (B "y")] ++ [IContext (B "-9999999999999999999")])) = Ok s /\
     context_size s = min_int64).
Proof. intros ae. split; eexists; split; reflexivity. Qed.
(* ... and without either it is 3 *)
Theorem C11_default_context : forall ae is s, Forall item_ok is ->
  forallb (fun i => negb (sets_size i)) is = true ->
  parse_settings ae (flat_map item_words is) = Ok s -> context_size s = 3%Z.
Proof. exact parse_default_size. Qed.
Print Assumptions C11_default_context.

Definition demo_items : list item :=
  [IFlag "b"; IOperand (B "x"); IContext (B "7"); IOperand []; IFlag "u"; IUnified (B "-2"); IOperand (B "y"); IFlag "r"]%char.
Example C11_nonvacuous : Forall item_ok demo_items /\ two_files (operands demo_items) (B "x") (B "y").
Proof.
  split.
  - repeat constructor; simpl; auto 10; try (exists (-2)%Z; reflexivity);
      vm_compute; intuition discriminate.
  - split; [discriminate|split; [discriminate|]]. exists 0, 1. reflexivity.
Qed.
