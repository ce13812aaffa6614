(* Decoding of arbitrary bytes: what the bytes of a decoded rune are, and that decoding does not look past the first byte of a character. *)
From Verif Require Import GoBase GoFacts Utf8Facts RuneFacts.
Local Open Scope N_scope.

Lemma byte_back : forall c n, byte_val c = n -> ascii_of_N n = c.
Proof. intros c n <-. apply ascii_N_embedding. Qed.
Lemma split64 : forall a b, b < 64 -> (a * 64 + b) / 64 = a /\ (a * 64 + b) mod 64 = b.
Proof.
  intros a b H. split.
  - rewrite N.add_comm, N.div_add by discriminate. now rewrite N.div_small.
  - rewrite N.add_comm, N.mod_add by discriminate. now apply N.mod_small.
Qed.
Lemma div_64_64 : forall n, n / 4096 = n / 64 / 64. Proof. intros. now rewrite N.div_div. Qed.
Lemma div_64_64_64 : forall n, n / 262144 = n / 64 / 64 / 64. Proof. intros. rewrite !N.div_div by discriminate. reflexivity. Qed.

(* the bytes of a decoded rune are its encoding *)
Lemma encode_decode : forall b r w, b <> [] -> decode_rune b = (r, w) -> (r, w) <> (rune_error, 1%nat) ->
  valid_rune r /\ firstn w b = encode_rune r.
Proof.
  intros b r w Nb H Ne. destruct b as [|c0 b]; [now elim Nb|]. unfold valid_rune. unfold decode_rune in H.
  destruct (byte_val c0 <? 128) eqn:E0.
  { injection H as <- <-. unfold encode_rune. rewrite E0. split; [lia|]. cbn [firstn]. f_equal. symmetry. now apply byte_back. }
  destruct (in_range 194 223 c0) eqn:E1.
  { destruct b as [|c1 b]; [injection H as <- <-; now elim Ne|].
    destruct (in_range 128 191 c1) eqn:E2; [|injection H as <- <-; now elim Ne].
    apply in_range_iff in E1, E2. injection H as <- <-. unfold cont.
    destruct (split64 (byte_val c0 - 192) (byte_val c1 - 128) ltac:(lia)) as [Q1 Q2].
    split; [lia|]. unfold encode_rune. rewrite Q1, Q2. set (n := (byte_val c0 - 192) * 64 + (byte_val c1 - 128)) in *. replace (n <? 128) with false by (subst n; lia).
    replace (n <? 2048) with true by (subst n; lia). cbn [firstn].
    now rewrite (byte_back c0) by lia; rewrite (byte_back c1) by lia. }
  destruct (in_range 224 239 c0) eqn:E3.
  { destruct b as [|c1 [|c2 b]]; [injection H as <- <-; now elim Ne..|]. cbv zeta in H.
    match type of H with (if ?q then _ else _) = _ => destruct q eqn:E2 end; [|injection H as <- <-; now elim Ne].
    apply andb_true_iff in E2. destruct E2 as [E2 E4]. apply in_range_iff in E2, E3, E4. injection H as <- <-. unfold cont.
    assert (R2 : 128 <= byte_val c1 <= 191) by (destruct (byte_val c0 =? 224), (byte_val c0 =? 237); lia).
    assert (Lo : byte_val c0 = 224 -> 160 <= byte_val c1) by (intros X; rewrite X in E2; exact (proj1 E2)).
    assert (Hi : byte_val c0 = 237 -> byte_val c1 <= 159) by (intros X; rewrite X in E2; exact (proj2 E2)).
    destruct (split64 ((byte_val c0 - 224) * 64 + (byte_val c1 - 128)) (byte_val c2 - 128) ltac:(lia)) as [Q1 Q2].
    destruct (split64 (byte_val c0 - 224) (byte_val c1 - 128) ltac:(lia)) as [Q3 Q4].
    replace ((byte_val c0 - 224) * 4096 + (byte_val c1 - 128) * 64 + (byte_val c2 - 128)) with (((byte_val c0 - 224) * 64 + (byte_val c1 - 128)) * 64 + (byte_val c2 - 128)) by lia.
    split; [lia|]. unfold encode_rune. rewrite div_64_64, Q1, Q2, Q3, Q4. set (n := _ * 64 + (byte_val c2 - 128)) in *.
    replace (n <? 128) with false by (subst n; lia). replace (n <? 2048) with false by (subst n; lia).
    replace ((55296 <=? n) && (n <=? 57343)) with false by (subst n; lia). replace (n <? 65536) with true by (subst n; lia). cbn [firstn].
    now rewrite (byte_back c0) by lia; rewrite (byte_back c1) by lia; rewrite (byte_back c2) by lia. }
  destruct (in_range 240 244 c0) eqn:E5; [|injection H as <- <-; now elim Ne].
  destruct b as [|c1 [|c2 [|c3 b]]]; [injection H as <- <-; now elim Ne..|]. cbv zeta in H.
  match type of H with (if ?q then _ else _) = _ => destruct q eqn:E2 end; [|injection H as <- <-; now elim Ne].
  apply andb_true_iff in E2. destruct E2 as [E2 E6]. apply andb_true_iff in E2. destruct E2 as [E2 E4].
  apply in_range_iff in E2, E4, E5, E6. injection H as <- <-. unfold cont.
  assert (R2 : 128 <= byte_val c1 <= 191) by (destruct (byte_val c0 =? 240), (byte_val c0 =? 244); lia).
  assert (Lo : byte_val c0 = 240 -> 144 <= byte_val c1) by (intros X; rewrite X in E2; exact (proj1 E2)).
  assert (Hi : byte_val c0 = 244 -> byte_val c1 <= 143) by (intros X; rewrite X in E2; exact (proj2 E2)).
  destruct (split64 (((byte_val c0 - 240) * 64 + (byte_val c1 - 128)) * 64 + (byte_val c2 - 128)) (byte_val c3 - 128) ltac:(lia)) as [Q1 Q2].
  destruct (split64 ((byte_val c0 - 240) * 64 + (byte_val c1 - 128)) (byte_val c2 - 128) ltac:(lia)) as [Q3 Q4].
  destruct (split64 (byte_val c0 - 240) (byte_val c1 - 128) ltac:(lia)) as [Q5 Q6].
  replace ((byte_val c0 - 240) * 262144 + (byte_val c1 - 128) * 4096 + (byte_val c2 - 128) * 64 + (byte_val c3 - 128)) with
    ((((byte_val c0 - 240) * 64 + (byte_val c1 - 128)) * 64 + (byte_val c2 - 128)) * 64 + (byte_val c3 - 128)) by lia.
  split; [lia|]. unfold encode_rune. rewrite div_64_64_64, div_64_64, Q1, Q2, Q3, Q4, Q5, Q6. set (n := _ * 64 + (byte_val c3 - 128)) in *.
  replace (n <? 128) with false by (subst n; lia). replace (n <? 2048) with false by (subst n; lia).
  replace ((55296 <=? n) && (n <=? 57343)) with false by (subst n; lia). replace (n <? 65536) with false by (subst n; lia).
  replace (n <? 1114112) with true by (subst n; lia). cbn [firstn].
  now rewrite (byte_back c0) by lia; rewrite (byte_back c1) by lia; rewrite (byte_back c2) by lia; rewrite (byte_back c3) by lia.
Qed.

(* decoding does not look past a byte that begins a character *)
Definition lead (c : ascii) : Prop := in_range 128 191 c = false.
Lemma decode_app_lead : forall x c b, x <> [] -> lead c -> decode_rune (x ++ c :: b) = decode_rune x.
Proof.
  intros [|c0 x] c b Ne NC; [congruence|]. cbn [app]. unfold decode_rune, lead in *.
  assert (N' : forall lo hi, 128 <= lo -> hi <= 191 -> in_range lo hi c = false).
  { intros lo hi L1 L2. apply not_true_iff_false. intros X. apply in_range_iff in X. apply not_true_iff_false in NC. apply NC, in_range_iff. lia. }
  destruct (byte_val c0 <? 128); auto.
  destruct (in_range 194 223 c0). { destruct x as [|c1 x]; cbn [app]; auto. now rewrite NC. }
  destruct (in_range 224 239 c0).
  { assert (NC' : in_range (if byte_val c0 =? 224 then 160 else 128) (if byte_val c0 =? 237 then 159 else 191) c = false)
      by (apply N'; [destruct (byte_val c0 =? 224); lia|destruct (byte_val c0 =? 237); lia]).
    destruct x as [|c1 [|c2 x]]; cbn [app]; auto.
    - destruct b; auto. now rewrite NC'.
    - rewrite NC, andb_false_r. reflexivity. }
  destruct (in_range 240 244 c0); auto.
  assert (NC' : in_range (if byte_val c0 =? 240 then 144 else 128) (if byte_val c0 =? 244 then 143 else 191) c = false)
    by (apply N'; [destruct (byte_val c0 =? 240); lia|destruct (byte_val c0 =? 244); lia]).
  destruct x as [|c1 [|c2 [|c3 x]]]; cbn [app]; auto.
  - destruct b as [|d [|e b]]; auto. now rewrite NC'.
  - destruct b as [|d b]; auto. rewrite NC, andb_false_r. reflexivity.
  - rewrite NC, !andb_false_r. reflexivity.
Qed.
