(* C168: what head prints of a file, compared with the file by cmp. *)
From Verif Require Import GoBase GoFacts CmpModel CmpSpec CmpProofs CmpProps CmpDiffSpec CmpDiffProofs.
From Verif Require HeadModel HeadSpec HeadProofs.

(* head is run on a file of content c, and h holds its output; g is the file itself *)
Definition saved (hw : HeadModel.world) (cw : world) (items : list HeadSpec.item) (h g c : bytes) : Prop :=
  Forall HeadSpec.item_ok items /\ (exists f, HeadSpec.operands items = [f] /\ HeadSpec.gives hw 0 f (c, None)) /\
  plain_operand h /\ plain_operand g /\
  opens cw h = Some (out (HeadModel.head_main hw (HeadSpec.render items)), None) /\ opens cw g = Some (c, None).
(* the number of lines asked for *)
Definition wanted (items : list HeadSpec.item) : nat := Z.to_nat (HeadSpec.count items).

Lemma lines_app : forall a b : list bytes, unlines (a ++ b) = unlines a ++ unlines b.
Proof. induction a as [|x a IH]; intros b; [reflexivity|]. cbn [app]. rewrite !HeadProofs.unlines_cons, IH, <- !app_assoc. reflexivity. Qed.
Lemma newlines_app : forall a b, newlines (a ++ b) = newlines a + newlines b.
Proof. intros. unfold newlines. apply count_occ_app. Qed.
Lemma newlines_none : forall a, ~ In nl a -> newlines a = 0.
Proof. intros a H. unfold newlines. now apply count_occ_not_In. Qed.
Lemma newlines_lines : forall ls, Forall (fun l => ~ In nl l) ls -> newlines (unlines ls) = length ls.
Proof.
  induction 1 as [|l ls H _ IH]; [reflexivity|]. rewrite HeadProofs.unlines_cons, !newlines_app, IH, newlines_none by auto. reflexivity.
Qed.
Lemma saved_out : forall hw cw items h g c ls, saved hw cw items h g c -> HeadSpec.consists_of c ls -> Forall HeadSpec.short_line ls ->
  sees cw h g (unlines (map drop_cr (firstn (wanted items) ls)), None) (c, None) /\
  operands [h; g] = [h; g] /\ h <> [] /\ g <> [] /\ ~ In (B "-l") [h; g] /\ ~ In (B "-s") [h; g].
Proof.
  intros hw cw items h g c ls (H&(f&E&G)&P1&P2&O1&O2) C S.
  destruct (plain_not_option h P1) as (I1&E1&D1), (plain_not_option g P2) as (I2&E2&D2).
  assert (NI : forall o, is_option o = true -> ~ In o [h; g]) by (intros o Q [<-|[<-|[]]]; congruence).
  rewrite (HeadProofs.head_one hw items f ls) in O1; auto; [|exists c; split; auto]. cbn [out] in O1.
  split; [right; split; [now left|split; right; auto]|].
  split; [unfold operands; cbn [filter]; now rewrite I1, I2|]. repeat split; auto; apply NI; reflexivity.
Qed.

(* C168 refuted, for every file with a line that ends in a carriage return among those printed: the first such is where
   the output differs from the file. *)
Theorem C168_carriage_return_refuted : forall hw cw items h g c l1 p l2, saved hw cw items h g c ->
  HeadSpec.consists_of c (l1 ++ (p ++ [cr]) :: l2) -> Forall HeadSpec.short_line (l1 ++ (p ++ [cr]) :: l2) ->
  Forall HeadSpec.not_cr_ended l1 -> length l1 < wanted items ->
  cmp_main cw [h; g] = {| out := h ++ B " " ++ g ++ B " differ: char " ++ ntoa (length (unlines l1) + length p + 1) ++ B ", line "
                            ++ ntoa (length l1 + 1) ++ [nl]; errout := []; fin := Exit 1 |}.
Proof.
  intros hw cw items h g c l1 p l2 D C S N L.
  destruct (saved_out hw cw items h g c _ D C S) as (SE&OP&Nh&Ng&Nl&Ns).
  destruct (C20_first_difference cw h g [h; g] _ c OP Nh Ng Nl Ns SE) as (_&A&_&_).
  assert (Q : exists r, unlines (map drop_cr (firstn (wanted items) (l1 ++ (p ++ [cr]) :: l2))) = (unlines l1 ++ p) ++ nl :: r).
  { rewrite firstn_app, firstn_all2 by lia. destruct (wanted items - length l1) as [|k] eqn:K; [lia|]. cbn [firstn].
    rewrite map_app, lines_app, HeadProofs.map_drop_cr by auto. cbn [map]. rewrite HeadProofs.unlines_cons, HeadProofs.drop_cr_ended.
    eexists. rewrite <- !app_assoc. reflexivity. }
  assert (R : exists r, c = (unlines l1 ++ p) ++ cr :: r).
  { destruct C as [_ [->|(l&x&El&Nx&->)]].
    - rewrite lines_app, HeadProofs.unlines_cons. exists ([nl] ++ unlines l2). rewrite <- !app_assoc. reflexivity.
    - destruct (rev l2) as [|y r2] eqn:Er.
      + apply (f_equal (@rev bytes)) in Er. rewrite rev_involutive in Er. cbn in Er. subst l2.
        apply app_inj_tail in El as [-> <-]. exists []. rewrite <- !app_assoc. reflexivity.
      + apply (f_equal (@rev bytes)) in Er. rewrite rev_involutive in Er. cbn [rev] in Er. subst l2.
        rewrite app_comm_cons, app_assoc in El. apply app_inj_tail in El as [<- <-].
        rewrite lines_app, HeadProofs.unlines_cons. exists ([nl] ++ unlines (rev r2) ++ y). rewrite <- !app_assoc. reflexivity. }
  destruct Q as [r1 Q], R as [r2 R]. rewrite (A (unlines l1 ++ p) nl cr r1 r2 Q R) by discriminate.
  destruct C as [C _]. apply Forall_app in C as [C1 C2]. inversion C2 as [|u v Cp _]; subst u v.
  rewrite app_length, newlines_app, newlines_lines, (newlines_none p) by (auto; intros I; apply Cp, in_or_app; now left).
  rewrite Nat.add_0_r. reflexivity.
Qed.
Print Assumptions C168_carriage_return_refuted.
(* C168 refuted, for every file that lacks its final newline and is printed whole: the output goes on after its end. *)
Theorem C168_no_final_newline_refuted : forall hw cw items h g l x, saved hw cw items h g (unlines l ++ x) ->
  Forall (fun l => ~ In nl l) (l ++ [x]) -> x <> [] -> Forall HeadSpec.short_line (l ++ [x]) -> Forall HeadSpec.not_cr_ended (l ++ [x]) ->
  length l < wanted items ->
  cmp_main cw [h; g] = {| out := []; errout := B "cmp: EOF on " ++ g ++ [nl]; fin := Exit 1 |}.
Proof.
  intros hw cw items h g l x D F X S N L.
  assert (C : HeadSpec.consists_of (unlines l ++ x) (l ++ [x])) by (split; [auto|right; exists l, x; auto]).
  destruct (saved_out hw cw items h g _ _ D C S) as (SE&OP&Nh&Ng&Nl&Ns).
  destruct (C20_first_difference cw h g [h; g] _ _ OP Nh Ng Nl Ns SE) as (_&_&_&A).
  apply (A nl []). rewrite firstn_all2 by (rewrite app_length; cbn; lia). rewrite HeadProofs.map_drop_cr by auto.
  rewrite lines_app, HeadProofs.unlines_cons, <- !app_assoc. reflexivity.
Qed.
Print Assumptions C168_no_final_newline_refuted.
(* C168, what is true: without carriage returns at the ends of the lines printed, the output of head is the file if that ends
   in a newline and is printed whole, *)
Theorem C168_whole_partial : forall hw cw items h g ls, saved hw cw items h g (unlines ls) ->
  Forall (fun l => ~ In nl l) ls -> Forall HeadSpec.short_line ls -> Forall HeadSpec.not_cr_ended ls -> length ls <= wanted items ->
  cmp_main cw [h; g] = {| out := []; errout := []; fin := Exit 0 |}.
Proof.
  intros hw cw items h g ls D F S N L.
  assert (C : HeadSpec.consists_of (unlines ls) ls) by (split; auto).
  destruct (saved_out hw cw items h g _ _ D C S) as (SE&OP&Nh&Ng&Nl&Ns).
  destruct (C20_first_difference cw h g [h; g] _ _ OP Nh Ng Nl Ns SE) as (A&_&_&_).
  apply A. rewrite firstn_all2 by lia. now rewrite HeadProofs.map_drop_cr.
Qed.
Print Assumptions C168_whole_partial.
(* and otherwise a beginning of the file. *)
Theorem C168_beginning_partial : forall hw cw items h g c ls, saved hw cw items h g c -> HeadSpec.consists_of c ls ->
  Forall HeadSpec.short_line ls -> Forall HeadSpec.not_cr_ended (firstn (wanted items) ls) -> wanted items < length ls ->
  cmp_main cw [h; g] = {| out := []; errout := B "cmp: EOF on " ++ h ++ [nl]; fin := Exit 1 |}.
Proof.
  intros hw cw items h g c ls D C S N L.
  destruct (saved_out hw cw items h g _ _ D C S) as (SE&OP&Nh&Ng&Nl&Ns).
  destruct (C20_first_difference cw h g [h; g] _ _ OP Nh Ng Nl Ns SE) as (_&_&A&_).
  rewrite HeadProofs.map_drop_cr in A by auto.
  assert (Z : skipn (wanted items) ls <> []).
  { intros Q. apply (f_equal (@length bytes)) in Q. rewrite skipn_length in Q. cbn in Q. lia. }
  assert (R : exists t, c = unlines (firstn (wanted items) ls) ++ t /\ t <> []).
  { destruct C as [_ [->|(l&x&El&Nx&->)]].
    - exists (unlines (skipn (wanted items) ls)). split; [rewrite <- lines_app, firstn_skipn; reflexivity|].
      destruct (skipn (wanted items) ls) as [|y r]; [congruence|]. rewrite HeadProofs.unlines_cons. destruct y; discriminate.
    - assert (W : wanted items <= length l). { rewrite El, app_length in L. cbn in L. lia. }
      exists (unlines (skipn (wanted items) l) ++ x). split.
      + rewrite El, firstn_app. replace (wanted items - length l) with 0 by lia. cbn [firstn]. rewrite app_nil_r.
        rewrite app_assoc, <- lines_app, firstn_skipn. reflexivity.
      + intros Q. apply app_eq_nil in Q as [_ Q]. contradiction. }
  destruct R as ([|y r]&R&T); [congruence|]. exact (A y r R).
Qed.
Print Assumptions C168_beginning_partial.

Example C168_nonvacuous :
  let c := unlines [B "one"; B "two" ++ [cr]; B "three"] in
  let hw := {| HeadModel.opens := fun _ => Some (c, None); HeadModel.stdin_at := fun _ => ([], None) |} in
  let items := [HeadSpec.Count 2; HeadSpec.Operand (B "f")] in
  let cw := {| opens := fun f => if beqb f (B "h") then Some (out (HeadModel.head_main hw (HeadSpec.render items)), None) else Some (c, None);
               stdin := ([], None); both := (([], None), ([], None)) |} in
  saved hw cw items (B "h") (B "f") c /\ wanted items = 2 /\
  cmp_main cw [B "h"; B "f"] = {| out := B "h f differ: char 8, line 2" ++ [nl]; errout := []; fin := Exit 1 |}.
Proof.
  intros c hw items cw. split; [|split; [reflexivity|vm_compute; reflexivity]].
  split; [repeat constructor; try discriminate|].
  split; [exists (B "f"); split; [reflexivity|right; split; [discriminate|reflexivity]]|].
  split; [exists "h"%char, []; split; [reflexivity|discriminate]|]. split; [exists "f"%char, []; split; [reflexivity|discriminate]|].
  split; reflexivity.
Qed.
