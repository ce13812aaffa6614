(* C19: what cksum says on standard error. *)
From Verif Require Import GoBase GoFacts CksumModel.

(* operands that are files and can be read *)
Definition all_read (fs : bytes -> file_read) (l : list bytes) : Prop := forall f, In f l -> f <> B "-" /\ exists b, fs f = Reads b None.

Lemma skip_read : forall fs st l r o, all_read fs l -> exists o', run_files fs st o (l ++ r) = run_files fs st o' r.
Proof.
  induction l as [|f l IH]; intros r o H; [now exists o|]. destruct (H f (or_introl eq_refl)) as [N [b E]].
  cbn [app run_files]. destruct (beqb f (B "-")) eqn:Q; [apply beqb_eq in Q; contradiction|]. rewrite E.
  apply IH. intros g I. apply H. now right.
Qed.
Lemma run_args : forall fs st l f r, cksum_main fs st (l ++ f :: r) = run_files fs st [] (l ++ f :: r).
Proof. intros fs st [|g l] f r; reflexivity. Qed.

(* C19: the first operand that cannot be read ends the run with status 1, and the report is the error behind a text that
   tells an open that fails from a read that fails; the operands after it do not matter. *)
Theorem C19_reports : forall fs st l f r e b, all_read fs l ->
  (f <> B "-" -> fs f = OpenFails e ->
     errout (cksum_main fs st (l ++ f :: r)) = B "couldn't open file " ++ e /\ fin (cksum_main fs st (l ++ f :: r)) = Exit 1) /\
  (f <> B "-" -> fs f = Reads b (Some e) ->
     errout (cksum_main fs st (l ++ f :: r)) = B "couldn't read input " ++ e /\ fin (cksum_main fs st (l ++ f :: r)) = Exit 1) /\
  (f = B "-" -> st = (b, Some e) ->
     errout (cksum_main fs st (l ++ f :: r)) = B "couldn't read input " ++ e /\ fin (cksum_main fs st (l ++ f :: r)) = Exit 1).
Proof.
  intros fs st l f r e b H. rewrite run_args. destruct (skip_read fs st l (f :: r) [] H) as [o' ->]. cbn [run_files].
  split; [|split].
  - intros N E. destruct (beqb f (B "-")) eqn:Q; [apply beqb_eq in Q; contradiction|]. rewrite E. split; reflexivity.
  - intros N E. destruct (beqb f (B "-")) eqn:Q; [apply beqb_eq in Q; contradiction|]. rewrite E. split; reflexivity.
  - intros -> ->. split; reflexivity.
Qed.
Print Assumptions C19_reports.
Example C19_reports_nonvacuous :
  let fs := fun f => if beqb f (B "a") then Reads (B "x") None else if beqb f (B "d") then Reads [] (Some (B "is a directory")) else OpenFails (B "no such file") in
  all_read fs [B "a"; B "a"] /\ fs (B "d") = Reads [] (Some (B "is a directory")) /\
  errout (cksum_main fs ([], None) [B "a"; B "a"; B "zz"; B "a"]) = B "couldn't open file no such file".
Proof.
  intros fs. split; [|split; reflexivity]. intros f [<-|[<-|[]]]; (split; [discriminate|exists (B "x"); reflexivity]).
Qed.
