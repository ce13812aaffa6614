(* C110-C112: pkg/diff.  Statements only; proofs in DiffMoreProofs.v. *)
From Verif Require Import GoBase GoFacts DiffModel DiffSpec DiffProofs DiffPatchProofs DiffProps DiffMoreModel DiffMoreSpec DiffMoreProofs.

(* C110: Fuzz never panics.  It returns 1 if the separator line occurs and, after its first occurrence, does not
   occur again; and -1 on all other data. *)
Theorem C110_fuzz_never_panics : forall data,
  let two_parts := exists a b, data = a ++ (nl :: B "==========" ++ [nl]) ++ b /\
    (forall x y, data = x ++ (nl :: B "==========" ++ [nl]) ++ y -> List.length a <= List.length x) /\
    ~ occurs (nl :: B "==========" ++ [nl]) b in
  (two_parts /\ fuzz data = Some (Ok 1%Z)) \/ (~ two_parts /\ fuzz data = Some (Ok (-1)%Z)).
Proof.
  intros data two. assert (N : fuzz_separator <> []) by discriminate. pose proof (split_two fuzz_separator data N) as H.
  change (nl :: B "==========" ++ [nl]) with fuzz_separator in two. fold two in H. destruct (fuzz_result data) as [F|F].
  - left. split; [now apply H|now apply fuzz_two].
  - right. split; auto. intros T. apply H in T. apply fuzz_two in T. congruence.
Qed.
Print Assumptions C110_fuzz_never_panics.
(* C110: the two panics of Fuzz are a real check: areIdentical holds exactly of equal lists. *)
Theorem C110_are_identical : forall expected actual, are_identical expected actual = true <-> expected = actual.
Proof. exact identical_eq. Qed.
Print Assumptions C110_are_identical.
Example C110_nonvacuous : fuzz (unlines [B "a"; B "b"; B "=========="; B "b"]) = Some (Ok 1%Z) /\ fuzz (B "a") = Some (Ok (-1)%Z) /\
  fuzz (unlines [B "a"; B "=========="; B "b"; B "=========="; B "c"]) = Some (Ok (-1)%Z).
Proof. repeat split; vm_compute; reflexivity. Qed.

(* C111: no change of the printed difference removes and adds the same line, and between two changes there are
   unchanged lines, as many in the old file as in the new one. *)
Theorem C111_changes_apart : forall old new cs hs, (forall l, In l old -> ~ In nl l) -> (forall l, In l new -> ~ In nl l) ->
  diff old new = Some (Ok cs) -> read_diff (format cs) = Some hs ->
  (forall h l, In h hs -> In l (removed h) -> ~ In l (added h)) /\ apart hs.
Proof. exact hunks_apart. Qed.
Print Assumptions C111_changes_apart.
Example C111_nonvacuous : (forall l, In l demo_old -> ~ In nl l) /\ (forall l, In l demo_new -> ~ In nl l) /\
  exists cs h1 h2 h3, diff demo_old demo_new = Some (Ok cs) /\ read_diff (format cs) = Some [h1; h2; h3] /\
    removed h2 = [B "d"] /\ added h2 = [B "x"; B "y"] /\ ol2 h1 = 1%N /\ old_before h2 = 3%N.
Proof.
  destruct C07_nonvacuous as (H1&H2&_). split; [exact H1|]. split; [exact H2|].
  do 4 eexists. split; [vm_compute; reflexivity|]. split; [vm_compute; reflexivity|]. vm_compute. auto.
Qed.

(* C112 refuted, for a family of files: let the lines D stand before the blocks in the old file and after them in
   the new one, let each block be shorter than D and be followed by the line x in the old file and by y in the new
   one.  The difference removes and adds all the blocks, although it would do to move D and change x to y.  With
   blocks of many lines it is as many times too long as one likes. *)
Theorem C112_minimal_refuted : forall D x y blocks cs hs, D <> [] ->
  (forall a, In a blocks -> a <> [] /\ List.length a < List.length D /\ ~ In y a /\ forall l, In l D -> ~ In l a) ->
  ~ In x D -> ~ In y D -> x <> y ->
  let old := D ++ weave x blocks in let new := weave y blocks ++ D in
  (forall l, In l old -> ~ In nl l) -> (forall l, In l new -> ~ In nl l) ->
  diff old new = Some (Ok cs) -> read_diff (format cs) = Some hs ->
  removed_lines hs = weave x blocks /\ added_lines hs = weave y blocks /\
  size hs = 2 * (List.length (concat blocks) + List.length blocks) /\
  (exists hs', patches hs' 0 0 old new /\ size hs' = 2 * (List.length D + List.length blocks)) /\
  (List.length D < List.length (concat blocks) -> ~ minimal hs old new).
Proof.
  intros D x y blocks cs hs Nd H Xd Yd Xy old new Ho Hn E R.
  destruct (moved_size D x y blocks cs hs Nd H Xd Yd Xy Ho Hn E R) as (R1&R2&hs'&P&R3&R4).
  assert (S1 : size hs = 2 * (List.length (concat blocks) + List.length blocks)) by (unfold size; rewrite R1, R2, !weave_length; lia).
  assert (S2 : size hs' = 2 * (List.length D + List.length blocks)) by (unfold size; rewrite R3, R4, !app_length, !repeat_length; lia).
  repeat split; auto; [now exists hs'|]. intros L M. specialize (M hs' P). lia.
Qed.
Print Assumptions C112_minimal_refuted.
Example C112_refuted_nonvacuous : let D := [B "D"; B "D"] in let blocks := [[B "a"]; [B "b"]; [B "a"]] in
  (forall a, In a blocks -> a <> [] /\ List.length a < List.length D /\ ~ In (B "y") a /\ forall l, In l D -> ~ In l a) /\
  ~ In (B "x") D /\ ~ In (B "y") D /\ List.length D < List.length (concat blocks) /\
  D ++ weave (B "x") blocks = map B ["D"; "D"; "a"; "x"; "b"; "x"; "a"; "x"]%string /\
  weave (B "y") blocks ++ D = map B ["a"; "y"; "b"; "y"; "a"; "y"; "D"; "D"]%string.
Proof.
  cbn [In]. split; [|repeat split; try (vm_compute; auto; fail); intuition discriminate].
  intros a [<-|[<-|[<-|[]]]]; (repeat split; [discriminate|auto|intros [Q|[]]; discriminate|]);
    intros l [<-|[<-|[]]] [Q|[]]; discriminate.
Qed.
(* C112, what is true: if the lines that both files have occur once in each, and are in the same order in both, no
   list of changes removes and adds fewer lines; other lines may occur any number of times. *)
Theorem C112_ordered_minimal_partial : forall old new cs hs, (forall l, In l old -> ~ In nl l) -> (forall l, In l new -> ~ In nl l) ->
  NoDup (common old new) -> common old new = common new old ->
  diff old new = Some (Ok cs) -> read_diff (format cs) = Some hs -> minimal hs old new.
Proof. exact ordered_minimal. Qed.
Print Assumptions C112_ordered_minimal_partial.
Example C112_nonvacuous : NoDup (common demo_old demo_new) /\ common demo_old demo_new = common demo_new demo_old /\
  common demo_old demo_new = [B "b"; B "c"; B "e"] /\
  let old := map B ["x"; "a"; "x"; "b"]%string in let new := map B ["a"; "y"; "y"; "b"]%string in
  NoDup (common old new) /\ common old new = common new old /\ common old new = [B "a"; B "b"].
Proof.
  cbv zeta. split; [|split; [|split; [|split; [|split]]]]; try (vm_compute; reflexivity);
    match goal with |- NoDup ?l => let v := eval vm_compute in l in change (NoDup v) end;
    repeat (apply NoDup_cons; [vm_compute; intros Q; repeat (destruct Q as [Q|Q]; [discriminate Q|]); exact Q|]); apply NoDup_nil.
Qed.
