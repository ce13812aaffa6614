(* What strconv.Atoi accepts (as modelled in GoBase.v), said without the parser. *)
From Verif Require Import GoBase GoFacts.

(* [numeral t z]: t is an optional sign followed by decimal digits, of value z *)
Definition digit_value (c : ascii) : N := (N_of_ascii c - 48)%N.
Definition is_dec_digit (c : ascii) : Prop := (48 <= N_of_ascii c <= 57)%N.
Definition digits_value (ds : bytes) : N := fold_left (fun acc c => (10 * acc + digit_value c)%N) ds 0%N.
Definition numeral (t : bytes) (z : Z) : Prop :=
  exists sgn ds, t = sgn ++ ds /\ ds <> [] /\ Forall is_dec_digit ds /\
    ((sgn = [] \/ sgn = B "+") /\ z = Z.of_N (digits_value ds) \/
     sgn = B "-" /\ z = (- Z.of_N (digits_value ds))%Z).

Lemma digit_of_spec : forall c d, digit_of c = Some d <-> is_dec_digit c /\ d = digit_value c.
Proof.
  intros c d. unfold digit_of, is_dec_digit, digit_value, byte_val.
  destruct ((48 <=? N_of_ascii c) && (N_of_ascii c <=? 57))%N eqn:E; split; intros H;
    try (injection H as <-); try discriminate; try (split; [lia|reflexivity]);
    destruct H as [H ->]; [reflexivity|lia].
Qed.

Lemma dec_val_spec : forall ds acc n, dec_val acc ds = Some n <->
  Forall is_dec_digit ds /\ n = fold_left (fun acc c => (10 * acc + digit_value c)%N) ds acc.
Proof.
  induction ds as [|c ds IH]; intros acc n; cbn [dec_val fold_left].
  - split; [intros [= <-]; auto|]. intros [_ ->]; auto.
  - destruct (digit_of c) as [d|] eqn:E.
    + apply digit_of_spec in E as [E ->]. rewrite IH. split; intros [H1 H2]; split; auto.
      now inversion H1.
    + split; [discriminate|]. intros [H _]. inversion H; subst.
      assert (digit_of c = Some (digit_value c)) by (apply digit_of_spec; auto). congruence.
Qed.

Lemma sign_not_digit : ~ is_dec_digit "-"%char /\ ~ is_dec_digit "+"%char.
Proof. unfold is_dec_digit. split; vm_compute; intros [H1 H2]; congruence. Qed.

Lemma parse_dec_spec : forall t z, parse_dec t = Some z <-> numeral t z.
Proof.
  intros t z. destruct sign_not_digit as [Nm Np]. unfold parse_dec, numeral. split.
  - destruct t as [|c r]; [discriminate|]. destruct (Ascii.eqb c "-") eqn:E1.
    + apply Ascii.eqb_eq in E1. subst. destruct r as [|d r]; [discriminate|].
      destruct (dec_val 0 (d :: r)) as [n|] eqn:D; [|discriminate]. intros [= <-].
      apply dec_val_spec in D as [D ->]. exists (B "-"), (d :: r). repeat split; auto. discriminate.
    + destruct (Ascii.eqb c "+") eqn:E2.
      * apply Ascii.eqb_eq in E2. subst. destruct r as [|d r]; [discriminate|].
        destruct (dec_val 0 (d :: r)) as [n|] eqn:D; [|discriminate]. intros [= <-].
        apply dec_val_spec in D as [D ->]. exists (B "+"), (d :: r). repeat split; auto. discriminate.
      * destruct (dec_val 0 (c :: r)) as [n|] eqn:D; [|discriminate]. intros [= <-].
        apply dec_val_spec in D as [D ->]. exists [], (c :: r). repeat split; auto. discriminate.
  - intros (sgn&ds&->&Hne&HD&Hs).
    assert (D : dec_val 0 ds = Some (digits_value ds)) by (apply dec_val_spec; auto).
    destruct ds as [|d ds]; [congruence|].
    assert (Hd : is_dec_digit d) by (inversion HD; auto).
    assert (E1 : Ascii.eqb d "-" = false) by (apply Ascii.eqb_neq; intros ->; contradiction).
    assert (E2 : Ascii.eqb d "+" = false) by (apply Ascii.eqb_neq; intros ->; contradiction).
    destruct Hs as [[[->| ->] ->]|[-> ->]].
    + cbn [app]. now rewrite E1, E2, D.
    + change (B "+" ++ d :: ds) with ("+"%char :: d :: ds). change (Ascii.eqb "+" "-") with false. cbv iota.
      rewrite Ascii.eqb_refl. now rewrite D.
    + change (B "-" ++ d :: ds) with ("-"%char :: d :: ds).
      cbv iota beta. rewrite Ascii.eqb_refl. now rewrite D.
Qed.

(* strconv.Atoi succeeds exactly on the numerals of int64 values *)
Lemma atoi_spec : forall t z, atoi t = Some z <-> numeral t z /\ (min_int64 <= z <= max_int64)%Z.
Proof.
  intros t z. unfold atoi. destruct (parse_dec t) as [y|] eqn:E.
  - apply parse_dec_spec in E as N. unfold in_int64. split.
    + destruct ((min_int64 <=? y)%Z && (y <=? max_int64)%Z)%bool eqn:R; [|discriminate].
      intros [= <-]. split; [auto|lia].
    + intros [N2 R]. apply parse_dec_spec in N2. assert (y = z) by congruence. subst.
      replace ((min_int64 <=? z)%Z && (z <=? max_int64)%Z)%bool with true by lia. reflexivity.
  - split; [discriminate|]. intros [N _]. apply parse_dec_spec in N. congruence.
Qed.

Lemma atoi_none : forall t, atoi t = None <-> ~ exists z, numeral t z /\ (min_int64 <= z <= max_int64)%Z.
Proof.
  intros t. split.
  - intros E (z&H). apply atoi_spec in H. congruence.
  - intros H. destruct (atoi t) as [z|] eqn:E; auto. exfalso. apply H. exists z. now apply atoi_spec.
Qed.

Lemma numeral_itoa : forall z, numeral (itoa z) z.
Proof. intros. apply parse_dec_spec, parse_dec_itoa. Qed.
