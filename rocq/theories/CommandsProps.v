(* C142: how the commands end. *)
From Coq Require Import Permutation.
From Verif Require Import GoBase GoFacts NumFacts HeadModel HeadSpec CommandsSpec CommandsProofs.
From Verif Require CatModel CksumModel CmpModel CutFlagModel DiffModel KillModel KillSpec TestModel TsortModel.

(* C142 is false for head: it reports no failure otherwise than by a panic, which happens exactly when a count is missing
   or no number, or an input cannot be opened or fails before it has given the lines asked for. *)
Theorem C142_head_refuted : forall w args,
  errout (head_main w args) = [] /\ (fin (head_main w args) = Exit 0 \/ fin (head_main w args) = Panicked) /\
  (fin (head_main w args) = Panicked <->
   (forall n fs, ~ said args n fs) \/
   exists n fs i f, said args n fs /\ nth_error (read_by args fs) i = Some f /\
     fails w (match n with Some k => k | None => 10%Z end) i f).
Proof. apply head_panics. Qed.
Print Assumptions C142_head_refuted.
Example C142_head_nonvacuous :
  (forall n fs, ~ said [B "x"; B "-n"] n fs) /\
  said (map B ["-n"; "007"; "x"; "-n"; "3"]%string) (Some 3%Z) [B "x"] /\
  fails {| opens := fun _ => None; stdin_at := fun _ => ([], None) |} 3 0 (B "x").
Proof.
  split; [|split].
  - intros n fs H. inversion H as [| |f args' n' fs' N S]; subst. inversion S as [| |f args'' n'' fs'' N' S']; subst. now apply N'.
  - apply (said_count _ 7 _ (Some 3%Z) [B "x"]); [reflexivity|]. apply said_operand; [discriminate|].
    apply (said_count _ 3 _ None []); [reflexivity|constructor].
  - left. split; [discriminate|reflexivity].
Qed.

(* ... and for kill: exactly with -s as the last argument or an empty argument where a process or an option is expected. *)
Theorem C142_kill_refuted : forall ke args, fin (KillModel.run (KillModel.kill_main ke args)) = Panicked <->
  exists l r, Forall KillSpec.item_ok l /\ args = KillSpec.render l ++ r /\ (r = [B "-s"] \/ exists r', r = [] :: r').
Proof.
  intros ke args. rewrite kill_panics. split; intros (l&r&I&E&C); exists l, r; (split; [auto|split; [auto|]]).
  - destruct C as [|r']; eauto.
  - destruct C as [->|(r'&->)]; constructor.
Qed.
Print Assumptions C142_kill_refuted.
Example C142_kill_nonvacuous : forall ke,
  Forall KillSpec.item_ok [KillSpec.Pid (B "12") 12] /\ [B "12"; B "-s"] = KillSpec.render [KillSpec.Pid (B "12") 12] ++ [B "-s"] /\
  fin (KillModel.run (KillModel.kill_main ke [B "12"; B "-s"])) = Panicked.
Proof.
  intros ke. assert (I : Forall KillSpec.item_ok [KillSpec.Pid (B "12") 12]) by (constructor; [split; [apply (numeral_itoa 12)|split; [split; discriminate|discriminate]]|constructor]).
  split; [exact I|]. split; [reflexivity|]. apply C142_kill_refuted. exists [KillSpec.Pid (B "12") 12], [B "-s"]. auto.
Qed.

(* Every run of the other commands ends by exiting, with one of these statuses (for cut with -h the one of Go's package
   flag). *)
Theorem C142_exits_partial : forall perm, (forall l, Permutation (perm l) l) ->
  let ends (r : run_result) (statuses : list Z) := exists n, In n statuses /\ fin r = Exit n in
  (forall w args, ends (CatModel.cat_main w args) [0]%Z) /\
  (forall fs stdin args, ends (CksumModel.cksum_main fs stdin args) [0; 1]%Z) /\
  (forall w args, ends (CmpModel.cmp_main w args) [0; 1; 2]%Z) /\
  (forall quote usage h args, ends (CutFlagModel.cut_program quote usage h args) [1; 2; h]%Z) /\
  (forall ae fs args, exists r, DiffModel.diff_main ae fs args = Some r /\ ends r [0; 1]%Z) /\
  (forall w args, ends (TestModel.test_main w args) [0; 1; 2]%Z) /\
  (forall fs stdin args, exists r, TsortModel.tsort_main perm fs stdin args = Some r /\ ends r [0; 1]%Z).
Proof.
  intros perm P ends. repeat split.
  - intros w args. unfold CatModel.cat_main. destruct (CatModel.cat_loop _ _ _). exists 0%Z. cbn. auto.
  - intros. apply cksum_fin.
  - intros w args. unfold CmpModel.cmp_main. destruct (CmpModel.parse_settings args) as [s|m|]; [|exists 2%Z; cbn; auto..].
    unfold CmpModel.cmp. destruct (CmpModel.open_both w s) as [[[b1 e1] [b2 e2]]|m|]; [apply cmp_fin|exists 2%Z; cbn; auto..].
  - apply cut_fin.
  - apply diff_fin.
  - intros w args. unfold TestModel.test_main. destruct (TestModel.parse w args) as [[] [e|]];
      (exists 2%Z; cbn; now auto) || (exists 0%Z; cbn; now auto) || (exists 1%Z; cbn; now auto).
  - now apply tsort_fin.
Qed.
Print Assumptions C142_exits_partial.
Example C142_exits_nonvacuous : (forall l : list bytes, Permutation ((fun x => x) l) l) /\
  (exists r, TsortModel.tsort_main (fun l => l) (fun _ => None) (B "a b b a", None) [] = Some r /\ fin r = Exit 1) /\
  (exists r, TsortModel.tsort_main (fun l => l) (fun _ => None) (B "a b b c", None) [] = Some r /\ fin r = Exit 0) /\
  fin (CutFlagModel.cut_program (fun x => x) [] 0 [B "-f"; B "1"]) = Exit 1 /\
  fin (CutFlagModel.cut_program (fun x => x) [] 0 [B "-x"]) = Exit 2.
Proof. split; [reflexivity|]. repeat split; try (eexists; split; vm_compute; reflexivity); vm_compute; reflexivity. Qed.
