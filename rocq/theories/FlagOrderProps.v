(* C157: what the order and the grouping of options mean, and what a refused command line has done.  Statements
   only; proofs in FlagOrderProofs.v. *)
From Coq Require Import Permutation.
From Verif Require Import GoBase GoFacts Utf8Facts FlagModel FlagSpec FlagProofs FlagOrderSpec FlagOrderProofs FlagProps.

(* C157 is false: when an unknown flag is reported, every variable named by the flags before it has already been
   set, and there is at least one as soon as there is a flag; ... *)
Theorem C157_refused_refuted : forall p gs c x rest os, Forall (well_formed p) gs -> gs <> [] ->
  valid_rune c -> unregistered p c -> c <> 45%N ->
  parse p (Some (words gs ++ (B "-" ++ encode_rune c) :: x :: rest)) os = (flat_map group_writes gs, Fail err_unknown) /\
  exists a, held a (flat_map group_writes gs) <> None.
Proof.
  intros p gs c x rest os H N V U C. split.
  - rewrite composition by assumption. rewrite unknown_word by assumption. cbn [fst snd]. now rewrite List.app_nil_r.
  - destruct gs as [|g gs]; [congruence|]. inversion H as [|? ? Hg Hgs]; subst. destruct Hg as [Hg _].
    destruct (group_writes g) as [|w l] eqn:E; [now destruct (some_write p g Hg)|].
    exists (target w). intros Hn. apply (held_none _ _ Hn w); [|reflexivity]. cbn [flat_map]. rewrite E. now left.
Qed.
Print Assumptions C157_refused_refuted.
(* ... and a string flag with a non-ASCII name must not come before other flags: with an operand as its value, the
   groups after it are not parsed at all, though the other way round they are. *)
Theorem C157_exchange_refuted : forall p gs g c a v h os, Forall (well_formed p) gs -> group_ok p g ->
  value g = Some (VStr c a v) -> (128 <= c)%N -> v = [] \/ v = B "-" \/ hd "-"%char v <> "-"%char ->
  well_formed p h ->
  snd (parse p (Some (words (gs ++ [g; h]))) os) = Positional (v :: group_args h) /\
  snd (parse p (Some (words (gs ++ [h; g]))) os) = Positional [v].
Proof.
  intros p gs g c a v h os H Hg E W Q Hh.
  assert (Ea : forall tail, group_args g ++ tail = (B "-" ++ string_of_runes (names g)) :: v :: tail).
  { intros. unfold group_args. rewrite E. reflexivity. }
  assert (Ev : forall tail, parse p (Some (v :: tail)) os = ([], Positional (v :: tail))).
  { intros tail. apply (round_trip p [] (v :: tail) (v :: tail) os); [constructor|constructor|]. now apply eo_operand. }
  split; unfold words; rewrite flat_map_app; cbn [flat_map].
  - destruct (wf_split p gs H) as [G A]. rewrite Ea.
    rewrite (C36_round_trip_refuted p gs g c a v) by assumption. cbn [snd]. rewrite Ev. cbn [snd].
    now rewrite List.app_nil_r.
  - rewrite (List.app_assoc _ (group_args h)), List.app_nil_r.
    assert (H' : Forall (well_formed p) (gs ++ [h])) by (apply Forall_app; split; auto).
    destruct (wf_split p _ H') as [G A].
    pose proof (C36_round_trip_refuted p (gs ++ [h]) g c a v [v] os G A Hg E W) as R.
    rewrite flat_map_app in R. cbn [flat_map] in R. rewrite List.app_nil_r in R.
    rewrite <- (List.app_nil_r (group_args g)), Ea. rewrite R. cbn [snd]. now rewrite Ev.
Qed.
Print Assumptions C157_exchange_refuted.
(* What is written for the first groups does not depend on what comes after them, and the rest of the line is
   parsed as a line of its own. *)
Theorem C157_rest_partial : forall p gs tail os, Forall (well_formed p) gs ->
  parse p (Some (words gs ++ tail)) os =
  (flat_map group_writes gs ++ fst (parse p (Some tail) os), snd (parse p (Some tail) os)).
Proof. exact composition. Qed.
Print Assumptions C157_rest_partial.
(* Neighbouring groups that set no variable in common can be exchanged, whatever follows; ... *)
Theorem C157_exchange_partial : forall p gs g h hs tail os, Forall (well_formed p) (gs ++ g :: h :: hs) -> apart g h ->
  same_effect (parse p (Some (words (gs ++ g :: h :: hs) ++ tail)) os)
              (parse p (Some (words (gs ++ h :: g :: hs) ++ tail)) os).
Proof. exact exchanged. Qed.
Print Assumptions C157_exchange_partial.
(* ... groups which give no variable two different values can be given in any order; ... *)
Theorem C157_any_order_partial : forall p gs gs' tail os, Forall (well_formed p) gs -> Permutation gs gs' -> consistent gs ->
  same_effect (parse p (Some (words gs ++ tail)) os) (parse p (Some (words gs' ++ tail)) os).
Proof. exact permuted. Qed.
Print Assumptions C157_any_order_partial.
(* ... and Boolean flags can be given in words of their own or at the front of the word that follows. *)
Theorem C157_grouping_partial : forall p gs fs g hs tail os,
  Forall (well_formed p) (gs ++ {| flags := fs; value := None |} :: g :: hs) ->
  parse p (Some (words (gs ++ {| flags := fs ++ flags g; value := value g |} :: hs) ++ tail)) os =
  parse p (Some (words (gs ++ {| flags := fs; value := None |} :: g :: hs) ++ tail)) os.
Proof. exact split_group. Qed.
Print Assumptions C157_grouping_partial.

Example C157_nonvacuous :
  let p := StringVar (IntVar (BoolVar (StringVar new_parser 0 111) 1 118) 2 110) 3 233 in
  let o := {| flags := []; value := Some (VStr 111 0 (B "f")) |} in
  let v := {| flags := [(118%N, 1)]; value := None |} in
  let n := {| flags := []; value := Some (VInt 110 2 (B "7") 7) |} in
  let e := {| flags := []; value := Some (VStr 233 3 (B "x")) |} in
  Forall (well_formed p) [o; v; n; v] /\ consistent [o; v; n; v] /\ apart o v /\ group_ok p e /\
  unregistered p 120 /\
  parse p (Some [B "-o"; B "f"; B "-vn"; B "7"; B "-x"; B "y"]) [] = ([WStr 0 (B "f"); WBool 1; WInt 2 7], Fail err_unknown) /\
  held 2 [WStr 0 (B "f"); WInt 2 7; WInt 2 8] = Some (WInt 2 8).
Proof.
  cbv zeta. 
  assert (W7 : int64_text (B "7") 7) by (apply parse_int_spec; reflexivity).
  assert (Wo : well_formed (StringVar (IntVar (BoolVar (StringVar new_parser 0 111) 1 118) 2 110) 3 233)
    {| flags := []; value := Some (VStr 111 0 (B "f")) |}).
  { split; [|cbn; lia]. split; [discriminate|]. split; [discriminate|]. split; [repeat constructor|]. split; [constructor|]. split; reflexivity. }
  assert (Wv : well_formed (StringVar (IntVar (BoolVar (StringVar new_parser 0 111) 1 118) 2 110) 3 233)
    {| flags := [(118%N, 1)]; value := None |}).
  { split; [|exact I]. split; [discriminate|]. split; [discriminate|]. split; [repeat constructor|]. split; [|exact I].
    apply Forall_cons; [reflexivity|apply Forall_nil]. }
  assert (Wn : well_formed (StringVar (IntVar (BoolVar (StringVar new_parser 0 111) 1 118) 2 110) 3 233)
    {| flags := []; value := Some (VInt 110 2 (B "7") 7) |}).
  { split; [|cbn; lia]. split; [discriminate|]. split; [discriminate|]. split; [repeat constructor|]. split; [constructor|].
    split; [repeat split; reflexivity|exact W7]. }
  split; [repeat (apply Forall_cons; [assumption|]); apply Forall_nil|].
  split. { intros w w' I I'. cbn in I, I'.
    destruct I as [<-|[<-|[<-|[<-|[]]]]], I' as [<-|[<-|[<-|[<-|[]]]]]; cbn; intros T; congruence. }
  split. { intros w w' [<-|[]] [<-|[]]; discriminate. }
  split. { split; [discriminate|]. split; [discriminate|]. split; [repeat constructor|]. split; [constructor|]. split; reflexivity. }
  split; [repeat split; reflexivity|]. split; vm_compute; reflexivity.
Qed.
