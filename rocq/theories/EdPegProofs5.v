(* Facts used to state what command lines with numbers and text mean. *)
From Verif Require Import GoBase GoFacts NumFacts Utf8Facts RuneFacts EdModel EdSpec EdProofs EdProofs2 EdPegModel EdPegSpec EdPegProofs EdPegProofs2 EdPegProofs3 EdPegProofs4.
Local Open Scope Z_scope.

Lemma itoa_digits : forall n, 0 <= n -> digits (itoa n) /\ itoa n <> [].
Proof.
  intros n H. split; [|apply itoa_nonempty]. apply Forall_forall. intros c I. unfold itoa in I.
  replace (n <? 0) with false in I by lia. apply utoa_digits in I. destruct I as [d I]. now apply digit_of_spec in I.
Qed.
Lemma num_ok : forall n, 0 <= n -> waddr_ok (plain (Num (itoa n))).
Proof. intros n H. split; [exact (itoa_digits n H)|now left]. Qed.
Lemma read_num : forall n, read_as (plain (Num (itoa n))) = num_addr n.
Proof. intros n. unfold read_as, plain, waddr_text. cbn [w_base w_off base_text base_typ]. now rewrite List.app_nil_r. Qed.
Lemma num_text : forall n, waddr_text (plain (Num (itoa n))) = itoa n.
Proof. intros n. unfold waddr_text. cbn. apply List.app_nil_r. Qed.
Lemma uint_stop : forall ds acc n s ks, uint_value acc ds = Some n -> (n < 2 ^ 64)%N -> digit_of s = None -> uint_value acc (ds ++ s :: ks) = None.
Proof.
  induction ds as [|c ds IH]; intros acc n s ks H L D; cbn [app uint_value] in *.
  - now rewrite D.
  - destruct (digit_of c); [|discriminate]. destruct (2 ^ 64 <=? 10 * acc + n0)%N; [injection H as <-; now apply N.lt_irrefl in L|].
    eapply IH; eauto.
Qed.
Lemma atoi_broken : forall n s ks, 0 <= n <= max_int64 -> digit_of s = None -> atoi_value (itoa n ++ s :: ks) = 0.
Proof.
  intros n s ks H D. assert (E : itoa n = utoa (Z.to_N n)) by (unfold itoa; now replace (n <? 0) with false by lia).
  rewrite E. pose proof (utoa_nonempty (Z.to_N n)) as Ne.
  assert (U : uint_value 0 (utoa (Z.to_N n) ++ s :: ks) = None).
  { eapply uint_stop; eauto; [apply uint_value_dec; [apply dec_val_utoa|]|].
    - unfold max_int64 in H. change (2 ^ 64)%N with 18446744073709551616%N. lia.
    - unfold max_int64 in H. change (2 ^ 64)%N with 18446744073709551616%N. lia. }
  destruct (utoa (Z.to_N n)) as [|c r] eqn:Q; [congruence|]. cbn [app] in *. unfold atoi_value.
  assert (I : is_digit c) by (apply (utoa_digits (Z.to_N n)); rewrite Q; now left).
  destruct (digit_not_sign _ I) as [-> ->]. now rewrite U.
Qed.
Lemma sign_no_digit : forall s, s = "+"%char \/ s = "-"%char \/ s = " "%char \/ s = tab -> digit_of s = None.
Proof. intros s [-> |[-> |[-> | ->]]]; reflexivity. Qed.
Lemma short_ascii : forall t, ascii_only t -> List.length (runes_of t) = List.length t.
Proof. intros t A. now rewrite runes_ascii, R_length. Qed.
Lemma text_kept : forall t, firstn (List.length (runes_of t)) t = t <-> List.length (runes_of t) = List.length t.
Proof.
  intros t. pose proof (runes_of_length t) as L. split; intros H.
  - apply (f_equal (@List.length ascii)) in H. rewrite firstn_length in H. lia.
  - rewrite H. apply firstn_all.
Qed.
Lemma text_lines_command : forall lead r gap x ls trail, blanks lead -> wrange_ok r -> text_letter x -> text_range x r ->
  blanks gap -> (~ closed r -> gap = []) -> typed_lines ls -> dotless ls -> blanks trail ->
  parsed (lead ++ wrange_text r ++ gap ++ [x; nl] ++ join [nl] ls ++ [nl; "."%char] ++ trail ++ [nl])
    [the_command (text_typ x) (wrange_start r) (text_end x r) (firstn (List.length (runes_of (join [nl] ls))) (join [nl] ls)) []].
Proof.
  intros lead r gap x ls trail Hl Hr Hx Tx Hg Ng [Ne NL] D Ht. apply text_command; auto. apply no_term_lines; auto.
  intros l I. now apply NL.
Qed.
Lemma blank_no_digit : forall gap, blanks gap -> gap <> [] -> exists s ks, gap = s :: ks /\ digit_of s = None.
Proof.
  intros [|s ks] H N; [congruence|]. exists s, ks. split; auto. inversion H; subst. apply sign_no_digit. tauto.
Qed.
