(* []rune(s) of an arbitrary byte string, valid UTF-8 or not, cut at ASCII characters. *)
From Verif Require Import GoBase GoFacts Utf8Facts.
Local Open Scope N_scope.

Lemma decode_width : forall b r w, b <> [] -> decode_rune b = (r, w) -> (1 <= w <= List.length b)%nat.
Proof.
  intros [|c0 b] r w Ne E; [congruence|]. unfold decode_rune in E.
  destruct (byte_val c0 <? 128); [injection E as <- <-; cbn; lia|].
  destruct (in_range 194 223 c0).
  { destruct b as [|c1 b]; [|destruct (in_range 128 191 c1)]; injection E as <- <-; cbn; lia. }
  destruct (in_range 224 239 c0).
  { destruct b as [|c1 [|c2 b]]; [| |match type of E with context [if ?x then _ else _] => destruct x end]; injection E as <- <-; cbn; lia. }
  destruct (in_range 240 244 c0).
  { destruct b as [|c1 [|c2 [|c3 b]]]; [| | |match type of E with context [if ?x then _ else _] => destruct x end]; injection E as <- <-; cbn; lia. }
  injection E as <- <-; cbn; lia.
Qed.
Lemma in_range_iff : forall lo hi c, in_range lo hi c = true <-> lo <= byte_val c <= hi.
Proof. intros. unfold in_range. rewrite andb_true_iff, !N.leb_le. tauto. Qed.
(* an ASCII rune is one byte *)
Lemma decode_ascii : forall c b r w, decode_rune (c :: b) = (r, w) -> r < 128 -> byte_val c = r /\ w = 1%nat.
Proof.
  intros c0 b r w E L. unfold decode_rune in E.
  destruct (byte_val c0 <? 128); [injection E as <- <-; auto|].
  exfalso.
  destruct (in_range 194 223 c0) eqn:R0.
  { apply in_range_iff in R0. destruct b as [|c1 b]; [|destruct (in_range 128 191 c1) eqn:R1]; injection E as <- <-;
      try (vm_compute in L; discriminate). apply in_range_iff in R1. unfold cont in L. lia. }
  destruct (in_range 224 239 c0) eqn:R1.
  { apply in_range_iff in R1.
    destruct b as [|c1 [|c2 b]]; [| |match type of E with context [if ?x then _ else _] => destruct x eqn:R2 end]; injection E as <- <-;
      try (vm_compute in L; discriminate).
    apply andb_true_iff in R2 as [R2 R3]. apply in_range_iff in R2, R3. unfold cont in L.
    destruct (byte_val c0 =? 224) eqn:Q; [|apply N.eqb_neq in Q]; [apply N.eqb_eq in Q|]; rewrite ?Q in *; lia. }
  destruct (in_range 240 244 c0) eqn:R2.
  { apply in_range_iff in R2.
    destruct b as [|c1 [|c2 [|c3 b]]]; [| | |match type of E with context [if ?x then _ else _] => destruct x eqn:R3 end]; injection E as <- <-;
      try (vm_compute in L; discriminate).
    apply andb_true_iff in R3 as [R3 R5]. apply andb_true_iff in R3 as [R3 R4]. apply in_range_iff in R3, R4, R5. unfold cont in L.
    destruct (byte_val c0 =? 240) eqn:Q; [|apply N.eqb_neq in Q]; [apply N.eqb_eq in Q|]; rewrite ?Q in *; lia. }
  injection E as <- <-. vm_compute in L. discriminate.
Qed.
Lemma ascii_not_cont : forall lo hi c, 128 <= lo -> byte_val c < 128 -> in_range lo hi c = false.
Proof. intros lo hi c H L. destruct (in_range lo hi c) eqn:E; auto. apply in_range_iff in E. lia. Qed.
(* decoding does not look past an ASCII character *)
Lemma decode_app : forall x c b, x <> [] -> byte_val c < 128 -> decode_rune (x ++ c :: b) = decode_rune x.
Proof.
  intros [|c0 x] c b Ne L; [congruence|]. cbn [app]. unfold decode_rune.
  assert (NC : in_range 128 191 c = false) by (apply ascii_not_cont; auto; lia).
  destruct (byte_val c0 <? 128); auto.
  destruct (in_range 194 223 c0). { destruct x as [|c1 x]; cbn [app]; auto. now rewrite NC. }
  destruct (in_range 224 239 c0).
  { assert (NC' : forall hi, in_range (if byte_val c0 =? 224 then 160 else 128) hi c = false)
      by (intros; apply ascii_not_cont; auto; destruct (byte_val c0 =? 224); lia).
    destruct x as [|c1 [|c2 x]]; cbn [app]; auto.
    - destruct b; auto. now rewrite NC'.
    - rewrite NC, andb_false_r. reflexivity. }
  destruct (in_range 240 244 c0); auto.
  assert (NC' : forall hi, in_range (if byte_val c0 =? 240 then 144 else 128) hi c = false)
      by (intros; apply ascii_not_cont; auto; destruct (byte_val c0 =? 240); lia).
  destruct x as [|c1 [|c2 [|c3 x]]]; cbn [app]; auto.
  - destruct b as [|d [|e b]]; auto. now rewrite NC'.
  - destruct b as [|d b]; auto. rewrite NC, andb_false_r. reflexivity.
  - rewrite NC, !andb_false_r. reflexivity.
Qed.
(* one step of []rune(s) *)
Lemma runes_of_step : forall b r w, b <> [] -> decode_rune b = (r, w) -> runes_of b = r :: runes_of (skipn w b).
Proof.
  intros b r w Ne E. pose proof (decode_width _ _ _ Ne E) as W.
  unfold runes_of, range_runes. destruct b as [|c b]; [congruence|].
  cbn [List.length range_runes_from]. rewrite E. cbn [map snd]. f_equal.
  rewrite (range_runes_shift _ _ 0). f_equal. apply range_runes_fuel; [|lia].
  rewrite skipn_length. cbn [List.length] in *. lia.
Qed.
Lemma runes_of_nil : runes_of [] = []. Proof. reflexivity. Qed.
Lemma runes_of_ascii_cons : forall c b, byte_val c < 128 -> runes_of (c :: b) = byte_val c :: runes_of b.
Proof.
  intros c b L. rewrite (runes_of_step (c :: b) (byte_val c) 1); [reflexivity|congruence|].
  unfold decode_rune. apply N.ltb_lt in L. now rewrite L.
Qed.
(* []rune(s) of a text in which an ASCII character stands *)
Theorem runes_of_cut : forall a c b, byte_val c < 128 -> runes_of (a ++ c :: b) = runes_of a ++ byte_val c :: runes_of b.
Proof.
  intros a c b L. remember (List.length a) as n eqn:Hn. revert a Hn.
  induction n as [n IH] using lt_wf_ind. intros a ->.
  destruct a as [|x a]; [apply runes_of_ascii_cons; auto|].
  destruct (decode_rune (x :: a)) as [r w] eqn:E.
  pose proof (decode_width (x :: a) r w ltac:(congruence) E) as W.
  assert (E' : decode_rune ((x :: a) ++ c :: b) = (r, w)) by (rewrite decode_app; auto; congruence).
  rewrite (runes_of_step ((x :: a) ++ c :: b) r w ltac:(discriminate) E'), (runes_of_step (x :: a) r w ltac:(discriminate) E).
  cbn [app]. f_equal.
  replace (skipn w (x :: a ++ c :: b)) with (skipn w (x :: a) ++ c :: b).
  - apply (IH (List.length (skipn w (x :: a)))); auto. rewrite skipn_length. lia.
  - change (x :: a ++ c :: b) with ((x :: a) ++ c :: b). rewrite skipn_app.
    replace (w - List.length (x :: a))%nat with 0%nat by lia. reflexivity.
Qed.
(* the ASCII characters among the runes are those of the string *)
Lemma runes_of_in_ascii : forall b v, v < 128 -> In v (runes_of b) -> In (ascii_of_N v) b.
Proof.
  intros b v L. remember (List.length b) as n eqn:Hn. revert b Hn.
  induction n as [n IH] using lt_wf_ind. intros b -> I.
  destruct b as [|x b]; [destruct I|].
  destruct (decode_rune (x :: b)) as [r w] eqn:E.
  pose proof (decode_width (x :: b) r w ltac:(congruence) E) as W.
  rewrite (runes_of_step (x :: b) r w ltac:(discriminate) E) in I. destruct I as [->|I].
  - destruct (decode_ascii _ _ _ _ E L) as [<- _]. left. symmetry. apply ascii_of_byte_val.
  - apply (IH (List.length (skipn w (x :: b)))) in I; auto; [|rewrite skipn_length; lia].
    rewrite <- (firstn_skipn w (x :: b)). apply in_or_app. now right.
Qed.
Lemma runes_of_head_ascii : forall b v t, v < 128 -> runes_of b = v :: t -> exists b', b = ascii_of_N v :: b'.
Proof.
  intros [|x b] v t L E; [discriminate|]. destruct (decode_rune (x :: b)) as [r w] eqn:D.
  rewrite (runes_of_step (x :: b) r w ltac:(discriminate) D) in E. injection E as -> _.
  destruct (decode_ascii _ _ _ _ D L) as [<- _]. exists b. now rewrite ascii_of_byte_val.
Qed.
(* never more runes than bytes *)
Theorem runes_of_length : forall b, (List.length (runes_of b) <= List.length b)%nat.
Proof.
  intros b. remember (List.length b) as n eqn:Hn. revert b Hn.
  induction n as [n IH] using lt_wf_ind. intros b ->.
  destruct b as [|x b]; [cbn; lia|].
  destruct (decode_rune (x :: b)) as [r w] eqn:E.
  pose proof (decode_width (x :: b) r w ltac:(congruence) E) as W.
  rewrite (runes_of_step (x :: b) r w ltac:(discriminate) E). cbn [List.length].
  assert (H : (List.length (runes_of (skipn w (x :: b))) <= List.length (skipn w (x :: b)))%nat)
    by (apply (IH (List.length (skipn w (x :: b)))); auto; rewrite skipn_length; lia).
  rewrite skipn_length in H. cbn [List.length] in *. lia.
Qed.
