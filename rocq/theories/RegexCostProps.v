(* C141: how many steps matching takes.  A step is a call of elementsMatch or of element.Matches; RegexCostModel.v is the
   matcher with a counter. *)
From Verif Require Import GoBase GoFacts RegexModel RegexGramSpec RegexCostModel RegexCostProofs.

(* the matcher with the counter returns what the matcher returns *)
Theorem C141_counted : forall b text, fst (Matches_steps b text) = Matches b text.
Proof. apply matches_same. Qed.
Print Assumptions C141_counted.

(* C141 is false: no polynomial in the lengths of the pattern and the text bounds the number of steps.  The pattern
   a*a*...a*b with k stars takes 2^k steps on a text of k letters a. *)
Theorem C141_steps_refuted : (forall k b, ParseBre (concat (repeat (B "a*") k) ++ B "b") = Ok b ->
    2 ^ k <= snd (Matches_steps b (repeat "a"%char k))) /\
  forall c d, exists pattern text b, ParseBre pattern = Ok b /\
    c * (List.length pattern + List.length text) ^ d < snd (Matches_steps b text).
Proof.
  split; [apply many_slow|]. intros c d. destruct (outgrows c d) as [k H].
  exists (many_text k), (repeat "a"%char k), {| anchorLeft := false; anchorRight := false; elements := many k |}.
  split; [apply many_parse|]. eapply Nat.lt_le_trans; [|apply many_slow, many_parse].
  rewrite many_length, repeat_length. replace (2 * k + 1 + k) with (3 * k + 1) by lia. exact H.
Qed.
Print Assumptions C141_steps_refuted.
(* the pattern does parse, for every k *)
Example C141_refuted_nonvacuous : forall k, exists b, ParseBre (concat (repeat (B "a*") k) ++ B "b") = Ok b.
Proof. intros. eexists. apply many_parse. Qed.

(* What does hold: for a pattern with e elements, v of which may occur a varying number of times, and a text of n
   characters there are at most (e+1) (n+2)^(v+2) steps.  So it is a polynomial for any given pattern, and with no varying
   element the square of the length. *)
Theorem C141_steps_partial : forall pattern b text, ParseBre pattern = Ok b ->
  let varies := fun d : dupl => negb (cmin (snd d) =? cmax (snd d))%Z in
  let n := List.length (runes_of text) in
  snd (Matches_steps b text) <= (List.length (elements b) + 1) * (n + 2) ^ (List.length (filter varies (elements b)) + 2).
Proof. intros pattern b text _ varies n. rewrite Nat.add_1_r. apply matches_cost. Qed.
Print Assumptions C141_steps_partial.
Example C141_nonvacuous : exists b, ParseBre (B "^x*y{3}z$") = Ok b /\ List.length (elements b) = 3 /\
  Matches_steps b (B "xxyyyz") = (true, 14).
Proof. eexists. split; [vm_compute; reflexivity|]. split; vm_compute; reflexivity. Qed.

(* An exact count: when the first element must occur and no character of the text matches it, every starting place costs one
   call and one comparison. *)
Theorem C141_nowhere : forall b e c es text, elements b = (e, c) :: es -> anchorLeft b = false -> (1 <= cmin c <= cmax c)%Z ->
  (forall r, In r (runes_of text) -> el_matches e r = false) -> runes_of text <> [] ->
  Matches_steps b text = (false, 2 * List.length (runes_of text)).
Proof.
  intros b e c es text E A C N T. unfold Matches_steps, matches_runes_steps. rewrite A.
  destruct (runes_of text) as [|r0 rs] eqn:R; [now elim T|]. cbn [orb]. clear R T. revert N. generalize (r0 :: rs). clear r0 rs.
  induction l as [|r l IH]; intros N; [reflexivity|]. cbn [match_from_steps]. rewrite E. cbn [elementsMatch_steps].
  destruct (Z.to_nat (Z.min (cmax c) (Z.of_nat (List.length (r :: l))))) as [|m] eqn:M; [cbn [List.length] in M; lia|].
  cbn [firstn count_loop_steps]. rewrite (N r (or_introl eq_refl)).
  replace (Z.of_nat 0 <? cmin c)%Z with true by (symmetry; apply Z.ltb_lt; lia). cbn [andb].
  rewrite IH by (intros x X; apply N; now right). f_equal. cbn [List.length]. lia.
Qed.
Print Assumptions C141_nowhere.
Example C141_nowhere_nonvacuous : exists b, ParseBre (B "xy*") = Ok b /\ Matches_steps b (B "abcab") = (false, 10).
Proof. eexists. split; vm_compute; reflexivity. Qed.
