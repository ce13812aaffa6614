(* UTF-8 as modelled in GoBase.v: decoding inverts encoding. *)
From Verif Require Import GoBase GoFacts.
Local Open Scope N_scope.

(* a Unicode scalar value *)
Definition valid_rune (r : N) : Prop := r < 55296 \/ 57344 <= r < 1114112.

Lemma in_range_of_N : forall lo hi n, n < 256 -> in_range lo hi (ascii_of_N n) = ((lo <=? n) && (n <=? hi)).
Proof. intros. unfold in_range. now rewrite byte_val_of_N. Qed.
Lemma cont_of_N : forall n, n < 256 -> cont (ascii_of_N n) = n - 128.
Proof. intros. unfold cont. now rewrite byte_val_of_N. Qed.

Lemma div_lt : forall a b c, b <> 0 -> a < b * c -> a / b < c.
Proof. intros. apply N.div_lt_upper_bound; auto. Qed.
Lemma mod64 : forall a, a mod 64 < 64.
Proof. intros. apply N.mod_lt. discriminate. Qed.

Lemma decode_encode : forall r b, valid_rune r ->
  decode_rune (encode_rune r ++ b) = (r, List.length (encode_rune r)).
Proof.
  intros r b V. unfold encode_rune.
  destruct (r <? 128) eqn:E1.
  { cbn [app decode_rune List.length]. rewrite byte_val_of_N by lia. now rewrite E1. }
  destruct (r <? 2048) eqn:E2.
  { pose proof (N.div_mod r 64 ltac:(discriminate)) as D. pose proof (mod64 r).
    assert (r / 64 < 32) by (apply div_lt; lia).
    cbn [app decode_rune List.length]. rewrite byte_val_of_N by lia.
    replace (192 + r / 64 <? 128) with false by lia.
    rewrite !in_range_of_N by lia. 
    replace ((194 <=? 192 + r / 64) && (192 + r / 64 <=? 223)) with true by lia.
    replace ((128 <=? 128 + r mod 64) && (128 + r mod 64 <=? 191)) with true by lia.
    rewrite cont_of_N by lia. f_equal. lia. }
  destruct ((55296 <=? r) && (r <=? 57343)) eqn:E3; [unfold valid_rune in V; lia|].
  destruct (r <? 65536) eqn:E4.
  { pose proof (N.div_mod r 64 ltac:(discriminate)) as D. pose proof (mod64 r).
    pose proof (N.div_mod (r / 64) 64 ltac:(discriminate)) as D2. pose proof (mod64 (r / 64)).
    rewrite N.div_div in D2 by discriminate. change (64 * 64) with 4096 in D2.
    assert (r / 4096 < 16) by (apply div_lt; lia).
    cbn [app decode_rune List.length]. rewrite byte_val_of_N by lia.
    replace (224 + r / 4096 <? 128) with false by lia.
    rewrite !in_range_of_N by lia.
    replace ((194 <=? 224 + r / 4096) && (224 + r / 4096 <=? 223)) with false by lia.
    replace ((224 <=? 224 + r / 4096) && (224 + r / 4096 <=? 239)) with true by lia.
    rewrite !cont_of_N by lia.
    replace ((128 <=? 128 + r mod 64) && (128 + r mod 64 <=? 191)) with true by lia.
    assert (L : ((if 224 + r / 4096 =? 224 then 160 else 128) <=? 128 + r / 64 mod 64) = true).
    { destruct (224 + r / 4096 =? 224) eqn:Q; lia. }
    assert (U : (128 + r / 64 mod 64 <=? (if 224 + r / 4096 =? 237 then 159 else 191)) = true).
    { destruct (224 + r / 4096 =? 237) eqn:Q; [|lia]. unfold valid_rune in V. lia. }
    cbv zeta. rewrite L, U. cbn [andb]. f_equal. lia. }
  destruct (r <? 1114112) eqn:E5; [|unfold valid_rune in V; lia].
  pose proof (N.div_mod r 64 ltac:(discriminate)) as D. pose proof (mod64 r).
  pose proof (N.div_mod (r / 64) 64 ltac:(discriminate)) as D2. pose proof (mod64 (r / 64)).
  rewrite N.div_div in D2 by discriminate. change (64 * 64) with 4096 in D2.
  pose proof (N.div_mod (r / 4096) 64 ltac:(discriminate)) as D3. pose proof (mod64 (r / 4096)).
  rewrite N.div_div in D3 by discriminate. change (4096 * 64) with 262144 in D3.
  assert (r / 262144 < 5) by (apply div_lt; lia).
  cbn [app decode_rune List.length]. rewrite byte_val_of_N by lia.
  replace (240 + r / 262144 <? 128) with false by lia.
  rewrite !in_range_of_N by lia.
  replace ((194 <=? 240 + r / 262144) && (240 + r / 262144 <=? 223)) with false by lia.
  replace ((224 <=? 240 + r / 262144) && (240 + r / 262144 <=? 239)) with false by lia.
  replace ((240 <=? 240 + r / 262144) && (240 + r / 262144 <=? 244)) with true by lia.
  rewrite !cont_of_N by lia.
  replace ((128 <=? 128 + r mod 64) && (128 + r mod 64 <=? 191)) with true by lia.
  replace ((128 <=? 128 + r / 64 mod 64) && (128 + r / 64 mod 64 <=? 191)) with true by lia.
  assert (L : ((if 240 + r / 262144 =? 240 then 144 else 128) <=? 128 + r / 4096 mod 64) = true).
  { destruct (240 + r / 262144 =? 240) eqn:Q; lia. }
  assert (U : (128 + r / 4096 mod 64 <=? (if 240 + r / 262144 =? 244 then 143 else 191)) = true).
  { destruct (240 + r / 262144 =? 244) eqn:Q; lia. }
  cbv zeta. rewrite L, U. cbn [andb]. f_equal. lia.
Qed.

Lemma encode_nonempty : forall r, encode_rune r <> [].
Proof.
  intros r. unfold encode_rune. repeat match goal with |- (if ?b then _ else _) <> _ => destruct b end; discriminate.
Qed.

Lemma encode_ascii : forall r, r < 128 -> encode_rune r = [ascii_of_N r].
Proof. intros. unfold encode_rune. now replace (r <? 128) with true by lia. Qed.

Lemma encode_length_gt1 : forall r, valid_rune r -> 128 <= r -> (1 < List.length (encode_rune r))%nat.
Proof.
  intros r V H. unfold encode_rune. replace (r <? 128) with false by lia.
  repeat match goal with |- context [if ?b then _ else _] => destruct b end; cbn; lia.
Qed.

Lemma skipn_len_app : forall {A} (a b : list A), skipn (List.length a) (a ++ b) = b.
Proof. intros. rewrite skipn_app, skipn_all, Nat.sub_diag. reflexivity. Qed.

(* fuel does not matter once it covers the bytes *)
Lemma range_runes_fuel : forall f f' i b, (List.length b <= f)%nat -> (List.length b <= f')%nat ->
  range_runes_from f i b = range_runes_from f' i b.
Proof.
  induction f as [|f IH]; intros f' i b H H'.
  - destruct b; [|cbn in H; lia]. destruct f'; reflexivity.
  - destruct f' as [|f']; [destruct b; [reflexivity|cbn in H'; lia]|].
    destruct b as [|c b]; [reflexivity|]. cbn [range_runes_from].
    destruct (decode_rune (c :: b)) as [r w] eqn:E.
    assert (w <> 0)%nat.
    { intros ->. unfold decode_rune in E.
      repeat match type of E with context [if ?x then _ else _] => destruct x end;
      repeat match type of E with context [match ?x with [] => _ | _ :: _ => _ end] => destruct x end;
      repeat match type of E with context [if ?x then _ else _] => destruct x end; discriminate. }
    f_equal. apply IH; destruct w; try congruence; cbn [skipn]; pose proof (skipn_length w b); cbn in *; lia.
Qed.

Lemma range_runes_encode : forall r b i f, valid_rune r -> (List.length (encode_rune r ++ b) <= f)%nat ->
  range_runes_from f i (encode_rune r ++ b) =
  (i, r) :: range_runes_from (List.length b) (i + List.length (encode_rune r)) b.
Proof.
  intros r b i f V L. pose proof (encode_nonempty r) as Ne.
  destruct (encode_rune r) as [|c e] eqn:E; [congruence|].
  destruct f as [|f]; [cbn in L; lia|]. cbn [app range_runes_from].
  replace (decode_rune (c :: e ++ b)) with (decode_rune (encode_rune r ++ b)) by now rewrite E.
  rewrite decode_encode by auto. rewrite E.
  f_equal. replace (c :: e ++ b) with ((c :: e) ++ b) by reflexivity. rewrite skipn_len_app.
  apply range_runes_fuel; cbn in *; rewrite ?app_length in *; lia.
Qed.

(* offsets of the runes of a text *)
Fixpoint offsets (i : nat) (l : list N) : list (nat * N) :=
  match l with [] => [] | r :: t => (i, r) :: offsets (i + List.length (encode_rune r)) t end.

Lemma range_runes_string : forall l i f, Forall valid_rune l ->
  (List.length (string_of_runes l) <= f)%nat -> range_runes_from f i (string_of_runes l) = offsets i l.
Proof.
  induction l as [|r l IH]; intros i f V L.
  - destruct f; reflexivity.
  - inversion V; subst. change (string_of_runes (r :: l)) with (encode_rune r ++ string_of_runes l) in *.
    rewrite range_runes_encode by auto. cbn [offsets]. f_equal. apply IH; auto.
Qed.

Lemma runes_of_string : forall l, Forall valid_rune l -> runes_of (string_of_runes l) = l.
Proof.
  intros l V. unfold runes_of, range_runes. rewrite range_runes_string by auto.
  generalize 0%nat. induction V; intros i; cbn; auto. now rewrite IHV.
Qed.

Lemma range_runes_shift : forall f i j b, map snd (range_runes_from f i b) = map snd (range_runes_from f j b).
Proof.
  induction f as [|f IH]; intros i j b; cbn [range_runes_from]; auto.
  destruct b; auto. destruct (decode_rune _) as [r n]. cbn [map snd]. f_equal. apply IH.
Qed.

Lemma runes_of_app : forall l b, Forall valid_rune l -> runes_of (string_of_runes l ++ b) = l ++ runes_of b.
Proof.
  induction l as [|r l IH]; intros b V; auto. inversion V; subst.
  change (string_of_runes (r :: l)) with (encode_rune r ++ string_of_runes l). rewrite <- app_assoc.
  unfold runes_of, range_runes. rewrite range_runes_encode by auto. cbn [map snd app]. f_equal.
  change (map snd (range_runes_from (List.length b) 0 b)) with (runes_of b). rewrite <- (IH b H2).
  unfold runes_of, range_runes. apply range_runes_shift.
Qed.

Lemma string_of_ascii_runes : forall l, Forall (fun r => r < 128) l -> string_of_runes l = map ascii_of_N l.
Proof.
  induction 1; auto. change (string_of_runes (x :: l)) with (encode_rune x ++ string_of_runes l).
  rewrite encode_ascii, IHForall by auto. reflexivity.
Qed.
