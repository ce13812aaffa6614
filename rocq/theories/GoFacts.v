(* Facts about the Go library model of GoBase.v *)
From Verif Require Import GoBase.
From Coq Require Import DecimalN DecimalPos.
Local Open Scope N_scope.

Lemma beqb_eq : forall a b, beqb a b = true <-> a = b.
Proof.
  induction a as [|x a IH]; destruct b as [|y b]; simpl; split; intros H; try congruence; auto.
  - apply andb_true_iff in H as [H1 H2]. apply Ascii.eqb_eq in H1. apply IH in H2. congruence.
  - inversion H; subst. rewrite Ascii.eqb_refl. simpl. now apply IH.
Qed.

Lemma beqb_refl : forall a, beqb a a = true.
Proof. intros; now apply beqb_eq. Qed.

Lemma beqb_neq : forall a b, beqb a b = false <-> a <> b.
Proof.
  intros. rewrite <- beqb_eq. destruct (beqb a b); split; congruence.
Qed.

Lemma beqb_sym : forall a b, beqb a b = beqb b a.
Proof.
  intros. destruct (beqb a b) eqn:E; symmetry.
  - apply beqb_eq in E. subst. apply beqb_refl.
  - apply beqb_neq. apply beqb_neq in E. congruence.
Qed.

Definition bytes_dec : forall a b : bytes, {a = b} + {a <> b} := list_eq_dec ascii_dec.

Lemma byte_val_lt : forall c, byte_val c < 256.
Proof. intros. unfold byte_val. apply N_ascii_bounded. Qed.

Lemma ascii_of_byte_val : forall c, ascii_of_N (byte_val c) = c.
Proof. intros. apply ascii_N_embedding. Qed.

Lemma byte_val_of_N : forall n, n < 256 -> byte_val (ascii_of_N n) = n.
Proof. intros. apply N_ascii_embedding. auto. Qed.

(* ---- decimal ---- *)
Definition is_digit (c : ascii) : Prop := exists d, digit_of c = Some d.

Ltac dstep := cbn [uint_bytes dec_val];
  try match goal with |- context [digit_of ?c] =>
    let v := eval vm_compute in (digit_of c) in change (digit_of c) with v; cbv iota beta end.

Lemma dec_val_pos : forall u p,
  dec_val (Npos p) (uint_bytes u) = Some (Npos (Pos.of_uint_acc u p)).
Proof.
  induction u; intros p; dstep; [reflexivity| ..]; cbn [Pos.of_uint_acc]; rewrite <- IHu;
    f_equal; lia.
Qed.

Lemma dec_val_uint : forall u, dec_val 0 (uint_bytes u) = Some (N.of_uint u).
Proof.
  unfold N.of_uint. induction u; dstep; [reflexivity|exact IHu| ..];
    cbn [Pos.of_uint]; rewrite <- dec_val_pos; f_equal.
Qed.

Lemma dec_val_utoa : forall n, dec_val 0 (utoa n) = Some n.
Proof. intros. unfold utoa. rewrite dec_val_uint. now rewrite DecimalN.Unsigned.of_to. Qed.

Lemma uint_bytes_digits : forall u c, In c (uint_bytes u) -> is_digit c.
Proof.
  induction u; simpl; intros c H; try contradiction; destruct H as [<-|H]; auto; eexists; reflexivity.
Qed.

Lemma utoa_digits : forall n c, In c (utoa n) -> is_digit c.
Proof. intros. eapply uint_bytes_digits; eauto. Qed.

Lemma utoa_nonempty : forall n, utoa n <> [].
Proof.
  intros n H. pose proof (dec_val_utoa n) as E. rewrite H in E. simpl in E. inversion E; subst.
  discriminate.
Qed.

Lemma utoa_inj : forall a b, utoa a = utoa b -> a = b.
Proof. intros a b H. pose proof (dec_val_utoa a). rewrite H, dec_val_utoa in H0. congruence. Qed.

Lemma digit_not_sign : forall c, is_digit c -> Ascii.eqb c "-" = false /\ Ascii.eqb c "+" = false.
Proof.
  intros c [d H]. split; apply Ascii.eqb_neq; intros ->; discriminate.
Qed.

Lemma parse_dec_itoa : forall z, parse_dec (itoa z) = Some z.
Proof.
  intros z. unfold itoa. destruct (z <? 0)%Z eqn:E.
  - simpl. destruct (utoa (Z.to_N (- z))) eqn:E2; [now apply utoa_nonempty in E2|].
    rewrite <- E2. rewrite dec_val_utoa. simpl. f_equal. lia.
  - unfold parse_dec. destruct (utoa (Z.to_N z)) eqn:E2; [now apply utoa_nonempty in E2|].
    assert (is_digit a) by (eapply (utoa_digits (Z.to_N z)); rewrite E2; left; auto).
    destruct (digit_not_sign _ H) as [-> ->]. rewrite <- E2, dec_val_utoa. simpl. f_equal. lia.
Qed.

Lemma atoi_itoa : forall z, (min_int64 <= z <= max_int64)%Z -> atoi (itoa z) = Some z.
Proof.
  intros. unfold atoi. rewrite parse_dec_itoa. unfold in_int64.
  replace ((min_int64 <=? z)%Z && (z <=? max_int64)%Z)%bool with true by lia. reflexivity.
Qed.

Lemma atoi_range : forall b z, atoi b = Some z -> (min_int64 <= z <= max_int64)%Z.
Proof.
  unfold atoi. intros b z. destruct (parse_dec b); [|discriminate].
  destruct (in_int64 z0) eqn:E; [|discriminate]. intros [= <-]. unfold in_int64 in E. lia.
Qed.

Lemma itoa_inj : forall a b, itoa a = itoa b -> a = b.
Proof. intros a b H. pose proof (parse_dec_itoa a). rewrite H, parse_dec_itoa in H0. congruence. Qed.

Lemma itoa_nonempty : forall z, itoa z <> [].
Proof. intros z. unfold itoa. destruct (z <? 0)%Z; [discriminate|]. apply utoa_nonempty. Qed.

Lemma ntoa_utoa : forall n, ntoa n = utoa (N.of_nat n).
Proof.
  intros. unfold ntoa, itoa. destruct (Z.of_nat n <? 0)%Z eqn:E; [lia|]. f_equal. lia.
Qed.

Lemma ntoa_digits : forall n c, In c (ntoa n) -> is_digit c.
Proof. intros n c. rewrite ntoa_utoa. apply utoa_digits. Qed.

Lemma ntoa_nonempty : forall n, ntoa n <> [].
Proof. intros n. rewrite ntoa_utoa. apply utoa_nonempty. Qed.

Lemma ntoa_inj : forall a b, ntoa a = ntoa b -> a = b.
Proof. intros a b. rewrite !ntoa_utoa. intros H. apply utoa_inj in H. lia. Qed.

(* ---- split / join ---- *)
Lemma split_on_nonempty : forall c b, split_on c b <> [].
Proof.
  induction b; simpl; [discriminate|]. destruct (Ascii.eqb a c); [discriminate|].
  destruct (split_on c b); discriminate.
Qed.

Lemma split_on_no_sep : forall c b, ~ In c b -> split_on c b = [b].
Proof.
  induction b as [|x r IH]; simpl; intros H; auto.
  destruct (Ascii.eqb x c) eqn:E.
  - apply Ascii.eqb_eq in E. subst. exfalso; apply H; auto.
  - rewrite IH; auto.
Qed.

Lemma split_on_app : forall c a b, ~ In c a -> split_on c (a ++ c :: b) = a :: split_on c b.
Proof.
  induction a as [|x r IH]; simpl; intros b H.
  - rewrite Ascii.eqb_refl. reflexivity.
  - destruct (Ascii.eqb x c) eqn:E.
    + apply Ascii.eqb_eq in E. subst. exfalso; apply H; auto.
    + rewrite IH; auto.
Qed.

Lemma split_join : forall c l, l <> [] -> (forall x, In x l -> ~ In c x) ->
  split_on c (join [c] l) = l.
Proof.
  induction l as [|x r IH]; intros Hne H; [congruence|].
  destruct r as [|y r'].
  - simpl. apply split_on_no_sep. apply H; left; auto.
  - change (join [c] (x :: y :: r')) with (x ++ c :: join [c] (y :: r')).
    rewrite split_on_app by (apply H; left; auto).
    rewrite IH; auto; [discriminate|]. intros; apply H; right; auto.
Qed.

Lemma join_split : forall c b, join [c] (split_on c b) = b.
Proof.
  induction b as [|x r IH]; simpl; auto.
  pose proof (split_on_nonempty c r).
  destruct (Ascii.eqb x c) eqn:E.
  - apply Ascii.eqb_eq in E. subst. destruct (split_on c r); [congruence|].
    simpl. simpl in IH. now rewrite IH.
  - destruct (split_on c r) as [|h t]; [congruence|].
    destruct t; simpl in *; now rewrite <- IH.
Qed.

Lemma split_on_pieces_no_sep : forall c b x, In x (split_on c b) -> ~ In c x.
Proof.
  induction b as [|y r IH]; simpl; intros x H.
  - destruct H as [<-|[]]. auto.
  - destruct (Ascii.eqb y c) eqn:E.
    + destruct H as [<-|H]; auto.
    + pose proof (split_on_nonempty c r). destruct (split_on c r) as [|h t]; [congruence|].
      apply Ascii.eqb_neq in E.
      destruct H as [<-|H].
      * intros [->|H2]; [congruence|]. apply (IH h); auto. left; auto.
      * apply IH. right; auto.
Qed.

(* ---- lines ---- *)
(* text made of newline-terminated lines *)
Definition unlines (l : list bytes) : bytes := flat_map (fun x => x ++ [nl]) l.

Lemma split_unlines : forall l, (forall x, In x l -> ~ In nl x) ->
  split_on nl (unlines l) = l ++ [[]].
Proof.
  induction l as [|x r IH]; intros H; auto.
  change (unlines (x :: r)) with ((x ++ [nl]) ++ unlines r). rewrite <- app_assoc.
  change ([nl] ++ unlines r) with (nl :: unlines r).
  rewrite split_on_app by (apply H; left; auto). simpl. rewrite IH; auto.
  intros; apply H; right; auto.
Qed.

Lemma raw_lines_unlines : forall l, (forall x, In x l -> ~ In nl x) -> raw_lines (unlines l) = l.
Proof.
  intros l H. unfold raw_lines. rewrite split_unlines by auto.
  rewrite last_last, removelast_last. reflexivity.
Qed.

(* text of lines where the last one, non-empty, lacks its newline *)
Lemma raw_lines_unlines_open : forall l x, (forall y, In y l -> ~ In nl y) -> ~ In nl x -> x <> [] ->
  raw_lines (unlines l ++ x) = l ++ [x].
Proof.
  intros l x H Hx Hne. unfold raw_lines.
  assert (E : split_on nl (unlines l ++ x) = l ++ [x]).
  { induction l as [|y r IH].
    - simpl. now apply split_on_no_sep.
    - change (unlines (y :: r)) with ((y ++ [nl]) ++ unlines r). rewrite <- !app_assoc.
      change ([nl] ++ unlines r ++ x) with (nl :: unlines r ++ x).
      rewrite split_on_app by (apply H; left; auto). simpl. rewrite IH; auto.
      intros; apply H; right; auto. }
  rewrite E, last_last. destruct x; [congruence|reflexivity].
Qed.

Lemma drop_cr_id : forall l, (forall x, last l x <> cr \/ l = []) -> drop_cr l = l.
Proof.
  intros l H. unfold drop_cr. destruct (rev l) as [|c r] eqn:E; auto.
  assert (L : l = rev r ++ [c]) by (rewrite <- (rev_involutive l), E; reflexivity).
  destruct (Ascii.eqb c cr) eqn:Ec; auto.
  apply Ascii.eqb_eq in Ec. subst c. destruct (H nl) as [H1|H1]; rewrite L in H1.
  - rewrite last_last in H1. congruence.
  - destruct (rev r); discriminate.
Qed.

(* a line the scanner returns unchanged *)
Definition plain_line (l : bytes) : Prop :=
  ~ In nl l /\ ~ In cr l /\ (N.of_nat (List.length l) < max_token)%N.

Lemma drop_cr_no_cr : forall l, ~ In cr l -> drop_cr l = l.
Proof.
  intros l H. unfold drop_cr. destruct (rev l) as [|c r] eqn:E; auto.
  destruct (Ascii.eqb c cr) eqn:Ec; auto. apply Ascii.eqb_eq in Ec. subst.
  exfalso; apply H. apply in_rev. rewrite E. left; auto.
Qed.

Lemma scan_segs_plain : forall l, Forall plain_line l -> scan_segs l = (l, false).
Proof.
  induction 1 as [|x l (H1&H2&H3) Hl IH]; simpl; auto.
  destruct (max_token <=? N.of_nat (length x)) eqn:E; [lia|].
  rewrite IH, drop_cr_no_cr; auto.
Qed.

Lemma scan_lines_plain : forall l, Forall plain_line l -> scan_lines (unlines l) = (l, false).
Proof.
  intros l H. unfold scan_lines. rewrite raw_lines_unlines.
  - now apply scan_segs_plain.
  - intros x Hx. rewrite Forall_forall in H. apply H in Hx as (?&?&?). auto.
Qed.
