(* Facts about the parser of ed (EdPegModel.v). *)
From Verif Require Import GoBase GoFacts NumFacts Utf8Facts EdModel EdPegModel EdPegSpec.
Local Open Scope nat_scope.

(* ---- the matcher ---- *)
Lemma star_loop_S : forall body k pos rest, star_loop body (S k) pos rest =
  match body pos rest with
  | POk p r t =>
      if p =? pos then PHang
      else match star_loop body k p r with POk p' r' t' => POk p' r' (t ++ t') | x => x end
  | PFail => POk pos rest []
  | PHang => PHang
  end.
Proof. reflexivity. Qed.

(* a match consumes a prefix of the input *)
Definition advances (f : nat -> list N -> pres) : Prop :=
  forall pos rest p r t, f pos rest = POk p r t -> exists u, rest = u ++ r /\ p = pos + List.length u.
Lemma star_advances : forall f k, advances f -> advances (star_loop f k).
Proof.
  intros f k A. induction k as [|k IH]; intros pos rest p r t H; [discriminate|].
  rewrite star_loop_S in H. destruct (f pos rest) as [p1 r1 t1| |] eqn:E; try discriminate.
  - destruct (p1 =? pos); try discriminate.
    destruct (star_loop f k p1 r1) as [p2 r2 t2| |] eqn:E2; try discriminate.
    injection H as <- <- <-. apply A in E as (u&->&->). apply IH in E2 as (v&->&->).
    exists (u ++ v). now rewrite app_assoc, app_length, Nat.add_assoc.
  - injection H as <- <- <-. exists []. now rewrite Nat.add_0_r.
Qed.
Lemma pmatch_advances : forall e, advances (pmatch e).
Proof.
  induction e; intros pos rest p r t H; cbn [pmatch] in H.
  - destruct rest as [|x rest]; [discriminate|]. destruct (N.eqb x c); [|discriminate].
    injection H as <- <- <-. exists [x]. cbn. split; auto; lia.
  - destruct rest as [|x rest]; [discriminate|]. destruct (_ && _)%bool; [|discriminate].
    injection H as <- <- <-. exists [x]. cbn. split; auto; lia.
  - destruct rest as [|x rest]; [discriminate|].
    injection H as <- <- <-. exists [x]. cbn. split; auto; lia.
  - destruct (pmatch e1 pos rest) as [p1 r1 t1| |] eqn:E1; try discriminate.
    destruct (pmatch e2 p1 r1) as [p2 r2 t2| |] eqn:E2; try discriminate.
    injection H as <- <- <-. apply IHe1 in E1 as (u&->&->). apply IHe2 in E2 as (v&->&->).
    exists (u ++ v). now rewrite app_assoc, app_length, Nat.add_assoc.
  - destruct (pmatch e1 pos rest) as [p1 r1 t1| |] eqn:E1; try discriminate; eauto.
    injection H as <- <- <-. eauto.
  - eapply star_advances in H; eauto.
  - destruct (pmatch e pos rest) as [p1 r1 t1| |] eqn:E1; try discriminate; injection H as <- <- <-; eauto.
    exists []. now rewrite Nat.add_0_r.
  - destruct (pmatch e pos rest) as [p1 r1 t1| |] eqn:E1; try discriminate; injection H as <- <- <-.
    exists []. now rewrite Nat.add_0_r.
  - destruct (pmatch e pos rest) as [p1 r1 t1| |] eqn:E1; try discriminate; injection H as <- <- <-; eauto.
  - injection H as <- <- <-. exists []. now rewrite Nat.add_0_r.
Qed.

(* expressions that may match nothing *)
Fixpoint nullable (e : pexp) : bool :=
  match e with
  | PChr _ | PRange _ _ | PDot => false
  | PSeq a b => nullable a && nullable b
  | PAlt a b => nullable a || nullable b
  | PStar _ | POpt _ | PNot _ | PAct _ => true
  | PText a => nullable a
  end%bool.
Lemma nonnullable_moves : forall e pos rest p r t, nullable e = false ->
  pmatch e pos rest = POk p r t -> pos < p.
Proof.
  induction e; intros pos rest p r t N H; cbn [pmatch nullable] in *; try discriminate.
  - destruct rest as [|x rest]; [discriminate|]. destruct (N.eqb x c); [|discriminate]. injection H as <- <- <-; lia.
  - destruct rest as [|x rest]; [discriminate|]. destruct (_ && _)%bool; [|discriminate]. injection H as <- <- <-; lia.
  - destruct rest as [|x rest]; [discriminate|]. injection H as <- <- <-; lia.
  - destruct (pmatch e1 pos rest) as [p1 r1 t1| |] eqn:E1; try discriminate.
    destruct (pmatch e2 p1 r1) as [p2 r2 t2| |] eqn:E2; try discriminate.
    injection H as <- <- <-.
    destruct (pmatch_advances _ _ _ _ _ _ E1) as (u&_&P1), (pmatch_advances _ _ _ _ _ _ E2) as (v&_&P2).
    apply andb_false_iff in N as [N|N]; [apply (IHe1 _ _ _ _ _ N) in E1|apply (IHe2 _ _ _ _ _ N) in E2]; lia.
  - apply orb_false_iff in N as [N1 N2].
    destruct (pmatch e1 pos rest) as [p1 r1 t1| |] eqn:E1; try discriminate; [|eauto].
    injection H as <- <- <-. eauto.
  - destruct (pmatch e pos rest) as [p1 r1 t1| |] eqn:E1; try discriminate.
    injection H as <- <- <-. eauto.
Qed.

(* repetitions only of expressions that consume something *)
Fixpoint sound (e : pexp) : bool :=
  match e with
  | PChr _ | PRange _ _ | PDot | PAct _ => true
  | PSeq a b | PAlt a b => sound a && sound b
  | PStar a => negb (nullable a) && sound a
  | POpt a | PNot a | PText a => sound a
  end%bool.
Lemma star_no_hang : forall f k pos rest, advances f ->
  (forall p r, f p r <> PHang) -> (forall p r p' r' t, f p r = POk p' r' t -> p < p') ->
  List.length rest < k -> star_loop f k pos rest <> PHang.
Proof.
  intros f. induction k as [|k IH]; intros pos rest A NH M L; [lia|].
  rewrite star_loop_S. destruct (f pos rest) as [p1 r1 t1| |] eqn:E; [|discriminate|now apply NH in E].
  pose proof (M _ _ _ _ _ E). destruct (Nat.eqb_spec p1 pos); [lia|].
  destruct (A _ _ _ _ _ E) as (u&->&->). rewrite app_length in L.
  specialize (IH (pos + List.length u) r1 A NH M ltac:(lia)).
  destruct (star_loop f k _ r1); congruence.
Qed.
Theorem sound_no_hang : forall e pos rest, sound e = true -> pmatch e pos rest <> PHang.
Proof.
  induction e; intros pos rest S; cbn [pmatch sound] in *.
  - destruct rest; [discriminate|]. now destruct (N.eqb n c).
  - destruct rest; [discriminate|]. now destruct (_ && _)%bool.
  - now destruct rest.
  - apply andb_true_iff in S as [S1 S2]. specialize (IHe1 pos rest S1).
    destruct (pmatch e1 pos rest) as [p1 r1 t1| |]; try congruence.
    specialize (IHe2 p1 r1 S2). now destruct (pmatch e2 p1 r1).
  - apply andb_true_iff in S as [S1 S2]. specialize (IHe1 pos rest S1).
    destruct (pmatch e1 pos rest) as [p1 r1 t1| |]; try congruence. auto.
  - apply andb_true_iff in S as [S1 S2]. apply negb_true_iff in S1.
    apply star_no_hang; auto using pmatch_advances. intros. eapply nonnullable_moves; eauto.
  - specialize (IHe pos rest S). now destruct (pmatch e pos rest).
  - specialize (IHe pos rest S). now destruct (pmatch e pos rest).
  - specialize (IHe pos rest S). now destruct (pmatch e pos rest).
  - discriminate.
Qed.

(* characters an expression may start with *)
Fixpoint starts (e : pexp) (c : N) : bool :=
  match e with
  | PChr x => N.eqb c x
  | PRange lo hi => N.leb lo c && N.leb c hi
  | PDot => true
  | PSeq a b => starts a c || (nullable a && starts b c)
  | PAlt a b => starts a c || starts b c
  | PStar a | POpt a | PText a => starts a c
  | PNot _ | PAct _ => false
  end%bool.
Lemma not_starts_stays : forall e c, starts e c = false -> forall pos t p r k,
  pmatch e pos (c :: t) = POk p r k -> p = pos /\ r = c :: t.
Proof.
  induction e; intros x S pos tl p r k H; cbn [pmatch starts] in *; try discriminate.
  - rewrite S in H. discriminate.
  - rewrite S in H. discriminate.
  - apply orb_false_iff in S as [S1 S2].
    destruct (pmatch e1 pos (x :: tl)) as [p1 r1 t1| |] eqn:E1; try discriminate.
    destruct (IHe1 _ S1 _ _ _ _ _ E1) as [-> ->].
    destruct (pmatch e2 pos (x :: tl)) as [p2 r2 t2| |] eqn:E2; try discriminate.
    injection H as <- <- <-. destruct (nullable e1) eqn:N; [eauto|].
    apply nonnullable_moves in E1; auto; lia.
  - apply orb_false_iff in S as [S1 S2].
    destruct (pmatch e1 pos (x :: tl)) as [p1 r1 t1| |] eqn:E1; try discriminate; [|eauto].
    injection H as <- <- <-. eauto.
  - rewrite star_loop_S in H.
    destruct (pmatch e pos (x :: tl)) as [p1 r1 t1| |] eqn:E1; try discriminate.
    + destruct (IHe _ S _ _ _ _ _ E1) as [-> ->]. rewrite Nat.eqb_refl in H. discriminate.
    + injection H as <- <- <-. auto.
  - destruct (pmatch e pos (x :: tl)) as [p1 r1 t1| |] eqn:E1; try discriminate; injection H as <- <- <-; eauto.
  - destruct (pmatch e pos (x :: tl)) as [p1 r1 t1| |] eqn:E1; try discriminate; injection H as <- <- <-; auto.
  - destruct (pmatch e pos (x :: tl)) as [p1 r1 t1| |] eqn:E1; try discriminate; injection H as <- <- <-; eauto.
  - injection H as <- <- <-. auto.
Qed.
(* an expression that must consume fails on a character it cannot start with *)
Lemma cannot_start : forall e pos c t, sound e = true -> nullable e = false -> starts e c = false ->
  pmatch e pos (c :: t) = PFail.
Proof.
  intros e pos c t S N H. destruct (pmatch e pos (c :: t)) as [p r k| |] eqn:E; auto.
  - pose proof (nonnullable_moves _ _ _ _ _ _ N E). destruct (not_starts_stays _ _ H _ _ _ _ _ E). lia.
  - now apply sound_no_hang in E.
Qed.
(* and at the end of the input *)
Lemma cannot_start_nil : forall e pos, sound e = true -> nullable e = false -> pmatch e pos [] = PFail.
Proof.
  intros e pos S N. destruct (pmatch e pos []) as [p r k| |] eqn:E; auto.
  - pose proof (nonnullable_moves _ _ _ _ _ _ N E). destruct (pmatch_advances _ _ _ _ _ _ E) as (u&U&->).
    destruct u; [cbn in *; lia|discriminate].
  - now apply sound_no_hang in E.
Qed.

(* the input does not go on with a character satisfying q *)
Definition ends_at (q : N -> bool) (rest : list N) : Prop := match rest with c :: _ => q c = false | [] => True end.
(* repeating an expression for one character of a class *)
Lemma star_class : forall a (q : N -> bool) rest ds pos k,
  (forall p c t, pmatch a p (c :: t) = if q c then POk (S p) t [] else PFail) -> (forall p, pmatch a p [] = PFail) ->
  Forall (fun c => q c = true) ds -> ends_at q rest -> List.length ds < k ->
  star_loop (pmatch a) k pos (ds ++ rest) = POk (pos + List.length ds) rest [].
Proof.
  intros a q rest ds pos k A A0 D E. revert pos k. induction D as [|c ds C D IH]; intros pos k L.
  - destruct k as [|k]; [cbn in L; lia|]. rewrite star_loop_S. cbn [app List.length].
    rewrite Nat.add_0_r. destruct rest as [|c rest]; [now rewrite A0|]. rewrite A. cbn in E. now rewrite E.
  - destruct k as [|k]; [cbn in L; lia|]. rewrite star_loop_S. cbn [app]. rewrite A, C.
    destruct (Nat.eqb_spec (S pos) pos); [lia|]. cbn in L. rewrite IH by lia. cbn [List.length app].
    f_equal. lia.
Qed.
Lemma plus_class : forall a (q : N -> bool) rest c ds pos,
  (forall p c t, pmatch a p (c :: t) = if q c then POk (S p) t [] else PFail) -> (forall p, pmatch a p [] = PFail) ->
  Forall (fun c => q c = true) (c :: ds) -> ends_at q rest ->
  pmatch (PPlus a) pos ((c :: ds) ++ rest) = POk (pos + List.length (c :: ds)) rest [].
Proof.
  intros a q rest c ds pos A A0 D E. inversion D; subst. unfold PPlus. cbn [pmatch app]. rewrite A, H1.
  rewrite star_class with (q := q); auto; [cbn [List.length app]; f_equal; lia|rewrite app_length; lia].
Qed.

(* ---- blanks ---- *)
Definition blankN (c : N) : bool := ((c =? 32) || (c =? 9))%N%bool.
Definition blanksN := Forall (fun c => blankN c = true).
Lemma blank_class : (forall p c t, pmatch (PAlt (chr " ") (chr tab)) p (c :: t) = if blankN c then POk (S p) t [] else PFail) /\
  (forall p, pmatch (PAlt (chr " ") (chr tab)) p [] = PFail).
Proof.
  split; auto. intros p c t. unfold blankN. cbn [pmatch chr].
  change (byte_val " ") with 32%N. change (byte_val tab) with 9%N.
  destruct (c =? 32)%N; auto.
Qed.
Lemma r_sp_ok : forall pos c bs rest, blanksN (c :: bs) -> ends_at blankN rest ->
  pmatch r_sp pos ((c :: bs) ++ rest) = POk (pos + List.length (c :: bs)) rest [].
Proof. intros. apply plus_class with (q := blankN); auto; apply blank_class. Qed.
Lemma r_sp_fails : forall pos rest, ends_at blankN rest -> pmatch r_sp pos rest = PFail.
Proof.
  intros pos [|c rest] E; [apply cannot_start_nil; reflexivity|]. apply cannot_start; try reflexivity.
  cbn in E. change (starts r_sp c) with (blankN c || false)%bool. now rewrite E.
Qed.
(* sp* *)
Lemma sps_ok : forall pos bs rest, blanksN bs -> ends_at blankN rest ->
  pmatch (PStar r_sp) pos (bs ++ rest) = POk (pos + List.length bs) rest [].
Proof.
  intros pos bs rest Bl E. cbn [pmatch]. destruct bs as [|c bs].
  - cbn [app List.length]. rewrite star_loop_S, r_sp_fails, Nat.add_0_r; auto.
  - rewrite star_loop_S, r_sp_ok by auto. destruct (Nat.eqb_spec (pos + List.length (c :: bs)) pos); [cbn in *; lia|].
    destruct (List.length ((c :: bs) ++ rest)) eqn:L; [discriminate|].
    rewrite star_loop_S, r_sp_fails; auto.
Qed.
Lemma sps_none : forall pos rest, ends_at blankN rest -> pmatch (PStar r_sp) pos rest = POk pos rest [].
Proof.
  intros pos rest H. pose proof (sps_ok pos [] rest (Forall_nil _) H) as E. cbn [app List.length] in E.
  now rewrite Nat.add_0_r in E.
Qed.
(* a sequence of the two expressions, step by step *)
Lemma seq_ok : forall a b pos rest p r t, pmatch a pos rest = POk p r t ->
  pmatch (PSeq a b) pos rest = match pmatch b p r with POk p' r' t' => POk p' r' (t ++ t') | x => x end.
Proof. intros. cbn [pmatch]. now rewrite H. Qed.
Lemma seq_fail : forall a b pos rest, pmatch a pos rest = PFail -> pmatch (PSeq a b) pos rest = PFail.
Proof. intros. cbn [pmatch]. now rewrite H. Qed.
Lemma alt_ok : forall a b pos rest p r t, pmatch a pos rest = POk p r t -> pmatch (PAlt a b) pos rest = POk p r t.
Proof. intros. cbn [pmatch]. now rewrite H. Qed.
Lemma alt_fail : forall a b pos rest, pmatch a pos rest = PFail -> pmatch (PAlt a b) pos rest = pmatch b pos rest.
Proof. intros. cbn [pmatch]. now rewrite H. Qed.
Lemma opt_ok : forall a pos rest p r t, pmatch a pos rest = POk p r t -> pmatch (POpt a) pos rest = POk p r t.
Proof. intros. cbn [pmatch]. now rewrite H. Qed.
Lemma opt_fail : forall a pos rest, pmatch a pos rest = PFail -> pmatch (POpt a) pos rest = POk pos rest [].
Proof. intros. cbn [pmatch]. now rewrite H. Qed.
Lemma chr_ok : forall c pos rest, pmatch (chr c) pos (byte_val c :: rest) = POk (S pos) rest [].
Proof. intros. cbn. now rewrite N.eqb_refl. Qed.
Lemma text_ok : forall a pos rest p r t, pmatch a pos rest = POk p r t ->
  pmatch (PText a) pos rest = POk p r (t ++ [TText pos p]).
Proof. intros. cbn [pmatch]. now rewrite H. Qed.

(* ---- ASCII text as runes ---- *)
Definition R (s : bytes) : list N := map byte_val s.
Lemma R_app : forall a b, R (a ++ b) = R a ++ R b. Proof. intros. apply map_app. Qed.
Lemma R_length : forall a, List.length (R a) = List.length a. Proof. intros. apply map_length. Qed.
Lemma runes_R : forall s b, ascii_only s -> runes_of (s ++ b) = R s ++ runes_of b.
Proof.
  intros s b A. rewrite <- (runes_of_app (R s) b).
  - f_equal. f_equal. rewrite string_of_ascii_runes.
    + unfold R. rewrite map_map. rewrite <- (map_id s) at 1. apply map_ext. intros c. symmetry. apply ascii_of_byte_val.
    + unfold R. apply Forall_map. exact A.
  - unfold R. apply Forall_map. eapply Forall_impl; [|exact A]. intros c H. left. cbn in *. lia.
Qed.
Lemma blanks_N : forall b, blanks b -> blanksN (R b).
Proof. intros b H. unfold R. apply Forall_map. eapply Forall_impl; [|exact H]. intros c [-> | ->]; reflexivity. Qed.
Definition digitN (c : N) : bool := (N.leb 48 c && N.leb c 57)%bool.
Lemma dec_digit_N : forall c, is_dec_digit c -> digitN (byte_val c) = true.
Proof. intros c H. unfold is_dec_digit in H. unfold digitN. apply andb_true_iff. rewrite !N.leb_le. unfold byte_val. lia. Qed.
Lemma digits_N : forall ds, digits ds -> Forall (fun c => digitN c = true) (R ds).
Proof. intros b H. unfold R. apply Forall_map. eapply Forall_impl; [|exact H]. intros c. apply dec_digit_N. Qed.
Lemma digit_class : (forall p c t, pmatch (rng "0" "9") p (c :: t) = if digitN c then POk (S p) t [] else PFail) /\ (forall p, pmatch (rng "0" "9") p [] = PFail).
Proof. split; reflexivity. Qed.

(* ---- addresses ---- *)
Definition signN (c : N) : bool := ((c =? 43) || (c =? 45))%N%bool.
Definition digit_or_sign (c : N) : bool := (digitN c || signN c)%bool.
Lemma ends_weaken : forall (q q' : N -> bool) T, (forall c, q' c = true -> q c = true) -> ends_at q T -> ends_at q' T.
Proof.
  intros q q' [|c T] H E; cbn in *; auto. destruct (q' c) eqn:Q; auto. apply H in Q. congruence.
Qed.

(* the tokens of an address at position p *)
Definition base_toks (p : nat) (b : base) : list token :=
  match b with
  | Num ds => [TText p (p + List.length ds); TAct 22]
  | Dot => [TAct 20]
  | Dollar => [TAct 21]
  | Regex _ => [TAct 24]
  | Mark _ => [TAct 23]
  | Back _ => [TAct 25]
  end.
Definition addr_toks (p : nat) (a : waddr) : list token :=
  base_toks p (w_base a) ++ [TText p (p + List.length (waddr_text a)); TAct 19].

Lemma byte_eqb : forall c d, (byte_val c =? byte_val d)%N = Ascii.eqb c d.
Proof.
  intros c d. destruct (Ascii.eqb_spec c d) as [->|Ne]; [apply N.eqb_refl|]. apply N.eqb_neq. intros Q. apply Ne.
  now rewrite <- (ascii_of_byte_val c), <- (ascii_of_byte_val d), Q.
Qed.

(* one character of an expression, and all of them *)
Definition r_expr_char (d : ascii) : pexp := PAlt (PSeq (chr "\") (chr d)) (PSeq (PNot (PAlt (chr nl) (chr d))) PDot).
Lemma expr_step : forall d re pos T, d <> nl -> d <> "\"%char -> re <> [] -> expression d re -> exists u re', re = u ++ re' /\ u <> [] /\ expression d re' /\
  pmatch (r_expr_char d) pos (R re ++ byte_val d :: T) = POk (pos + List.length u) (R re' ++ byte_val d :: T) [].
Proof.
  intros d re pos T Dn Db Ne H. destruct H as [|c r Cn Cd Cb H|r H]; [congruence| |].
  - exists [c], r. split; [reflexivity|]. split; [discriminate|]. split; [exact H|]. unfold r_expr_char. rewrite alt_fail.
    + cbn [pmatch chr R map app]. rewrite !byte_eqb. destruct (Ascii.eqb_spec c nl); [congruence|]. destruct (Ascii.eqb_spec c d); [congruence|].
      cbn [List.length]. rewrite Nat.add_1_r. reflexivity.
    + cbn [pmatch chr R map app]. rewrite byte_eqb. destruct (Ascii.eqb_spec c "\"); [|reflexivity].
      destruct (Cb e) as [N1 N2]. destruct r as [|z r]; [congruence|]. cbn [map app]. rewrite byte_eqb.
      destruct (Ascii.eqb_spec z d) as [->|]; [now elim (N2 r)|reflexivity].
  - exists ["\"%char; d], r. split; [reflexivity|]. split; [discriminate|]. split; [exact H|]. unfold r_expr_char. apply alt_ok.
    cbn [pmatch chr R map app]. rewrite N.eqb_refl. cbn [app]. rewrite N.eqb_refl. cbn [List.length]. f_equal. lia.
Qed.
Lemma regex_chars : forall d, d <> nl -> d <> "\"%char -> forall k re pos T, expression d re -> List.length re < k ->
  star_loop (pmatch (r_expr_char d)) k pos (R re ++ byte_val d :: T) = POk (pos + List.length re) (byte_val d :: T) [].
Proof.
  intros d Dn Db. induction k as [|k IH]; intros re pos T H L; [lia|]. rewrite star_loop_S.
  destruct re as [|c re].
  - cbn [R map app List.length]. rewrite Nat.add_0_r.
    assert (E : pmatch (r_expr_char d) pos (byte_val d :: T) = PFail); [|now rewrite E].
    unfold r_expr_char. rewrite alt_fail.
    + cbn [pmatch chr]. rewrite !byte_eqb, Ascii.eqb_refl. destruct (Ascii.eqb_spec d nl); [congruence|reflexivity].
    + cbn [pmatch chr]. rewrite byte_eqb. destruct (Ascii.eqb_spec d "\"); [congruence|reflexivity].
  - destruct (expr_step d (c :: re) pos T Dn Db) as (u&re'&E&Nu&H'&M); [discriminate|exact H|]. rewrite M.
    assert (Lu : 0 < List.length u) by (destruct u; [congruence|cbn; lia]). rewrite E, app_length in *.
    destruct (Nat.eqb_spec (pos + List.length u) pos); [lia|]. rewrite IH; auto; [|lia]. cbn [app]. f_equal. lia.
Qed.
Lemma regex_plus : forall d re pos T, d <> nl -> d <> "\"%char -> re <> [] -> expression d re ->
  pmatch (PPlus (r_expr_char d)) pos (R re ++ byte_val d :: T) = POk (pos + List.length re) (byte_val d :: T) [].
Proof.
  intros d re pos T Dn Db Ne H. destruct (expr_step d re pos T Dn Db Ne H) as (u&re'&E&Nu&H'&M).
  unfold PPlus. rewrite (seq_ok _ _ _ _ _ _ _ M).
  change (pmatch (PStar (r_expr_char d))) with (fun p rest => star_loop (pmatch (r_expr_char d)) (S (List.length rest)) p rest). cbv beta.
  rewrite regex_chars; auto; [|rewrite app_length, R_length; cbn [List.length]; lia]. rewrite E, app_length. cbn [app]. f_equal. lia.
Qed.

Lemma r_addr_ok : forall b pos T, base_ok b -> ends_at digitN T ->
  pmatch r_addr pos (R (base_text b) ++ T) = POk (pos + List.length (base_text b)) T (base_toks pos b).
Proof.
  intros [ds| | |re|c|re] pos T H E.
  - destruct H as [D Ne]. destruct ds as [|d ds]; [congruence|].
    unfold r_addr. do 5 apply alt_ok with (b := _). unfold r_literalAddr.
    erewrite seq_ok; [|apply text_ok; exact (plus_class _ digitN T (byte_val d) (R ds) pos (proj1 digit_class) (proj2 digit_class) (digits_N _ D) E)].
    cbn [pmatch app base_text base_toks List.length]. rewrite R_length. reflexivity.
  - change (R (base_text Dot)) with [byte_val "."]. unfold r_addr.
    apply alt_ok. rewrite alt_fail; [|apply cannot_start; reflexivity].
    rewrite (seq_ok _ _ _ _ _ _ _ (chr_ok "." pos T)). cbn [base_text List.length B list_ascii_of_string pmatch app base_toks].
    rewrite Nat.add_1_r. reflexivity.
  - change (R (base_text Dollar)) with [byte_val "$"]. unfold r_addr.
    rewrite alt_fail; [|apply cannot_start; reflexivity].
    cbn [app]. rewrite (seq_ok _ _ _ _ _ _ _ (chr_ok "$" pos T)). cbn [base_text List.length B list_ascii_of_string pmatch app base_toks].
    rewrite Nat.add_1_r. reflexivity.
  - destruct H as (Ne&As&Ex).
    change (R (base_text (Regex re)) ++ T) with (byte_val "/" :: (R (re ++ B "/") ++ T)).
    rewrite R_app, <- app_assoc. change (R (B "/") ++ T) with (byte_val "/" :: T).
    unfold r_addr. do 3 apply alt_ok. rewrite alt_fail; [|apply cannot_start; reflexivity].
    unfold r_regexAddr. erewrite seq_ok; [|apply chr_ok].
    assert (E1 : pmatch r_basic_regex (S pos) (R re ++ byte_val "/" :: T) = POk (S pos + List.length re) (byte_val "/" :: T) []).
    { apply (regex_plus "/"); auto; discriminate. }
    rewrite (seq_ok _ _ _ _ _ _ _ E1). rewrite (seq_ok _ _ _ _ _ _ _ (chr_ok "/" _ T)).
    cbn [pmatch app base_toks]. f_equal. cbn [base_text B list_ascii_of_string app List.length].
    rewrite app_length. cbn. lia.
  - cbn in H. change (R (base_text (Mark c)) ++ T) with (byte_val "'" :: byte_val c :: T).
    unfold r_addr. do 4 apply alt_ok. rewrite alt_fail; [|apply cannot_start; reflexivity].
    unfold r_markAddr. rewrite (seq_ok _ _ _ _ _ _ _ (chr_ok "'" _ _)).
    cbn [pmatch rng]. change (byte_val "a") with 97%N. change (byte_val "z") with 122%N.
    replace ((97 <=? byte_val c) && (byte_val c <=? 122))%N%bool with true
      by (symmetry; apply andb_true_iff; rewrite !N.leb_le; lia).
    cbn [app base_toks base_text List.length]. f_equal. lia.
  - destruct H as (Ne&As&Ex).
    change (R (base_text (Back re)) ++ T) with (byte_val "?" :: (R (re ++ B "?") ++ T)).
    rewrite R_app, <- app_assoc. change (R (B "?") ++ T) with (byte_val "?" :: T).
    unfold r_addr. do 2 apply alt_ok. rewrite alt_fail; [|apply cannot_start; reflexivity].
    unfold r_regexReverseAddr. erewrite seq_ok; [|apply chr_ok].
    assert (E1 : pmatch r_back_regex (S pos) (R re ++ byte_val "?" :: T) = POk (S pos + List.length re) (byte_val "?" :: T) []).
    { apply (regex_plus "?"); auto; discriminate. }
    rewrite (seq_ok _ _ _ _ _ _ _ E1). rewrite (seq_ok _ _ _ _ _ _ _ (chr_ok "?" _ T)).
    cbn [pmatch app base_toks]. f_equal. cbn [base_text B list_ascii_of_string app List.length].
    rewrite app_length. cbn. lia.
Qed.

Lemma offset_starts_sign : forall o, offset_ok o -> o <> [] -> exists s ks, o = s :: ks /\ signN (byte_val s) = true /\ digits ks /\ (s = "+"%char \/ s = "-"%char).
Proof. intros o [->|(s&ks&->&S&D)] H; [congruence|]. exists s, ks. repeat split; auto. destruct S as [-> | ->]; reflexivity. Qed.

Lemma r_offset_ok : forall o pos T, offset_ok o -> ends_at digit_or_sign T ->
  pmatch (POpt r_offset) pos (R o ++ T) = POk (pos + List.length o) T [].
Proof.
  intros o pos T [->|(s&ks&->&Sg&D)] E.
  - cbn [R map app List.length]. rewrite Nat.add_0_r. apply opt_fail.
    destruct T as [|c T]; [apply cannot_start_nil; reflexivity|]. apply cannot_start; try reflexivity.
    cbn in E. unfold digit_or_sign in E. apply orb_false_iff in E as [_ E].
    change (starts r_offset c) with (signN c || false)%bool. now rewrite E.
  - apply opt_ok. unfold r_offset. cbn [R map app].
    rewrite (seq_ok _ _ _ _ (S pos) (R ks ++ T) []).
    + cbn [pmatch]. rewrite star_class with (q := digitN); try apply digit_class; auto using digits_N.
      * rewrite R_length. cbn [app List.length]. f_equal. lia.
      * eapply ends_weaken; [|exact E]. unfold digit_or_sign. intros c ->. reflexivity.
      * rewrite app_length. lia.
    + destruct Sg as [-> | ->]; reflexivity.
Qed.

Lemma sign_not_digitN : forall c, signN c = true -> digitN c = false.
Proof.
  intros c H. unfold signN in H. apply orb_true_iff in H as [H|H]; apply N.eqb_eq in H; subst; reflexivity.
Qed.
Lemma r_addrO_ok : forall a pos T, waddr_ok a -> ends_at digit_or_sign T ->
  pmatch r_addrO pos (R (waddr_text a) ++ T) = POk (pos + List.length (waddr_text a)) T (addr_toks pos a).
Proof.
  intros [b o] pos T [Hb Ho] E. unfold waddr_text, addr_toks in *. cbn [w_base w_off] in *.
  unfold r_addrO. rewrite R_app, <- app_assoc.
  rewrite (seq_ok _ _ _ _ (pos + List.length (base_text b ++ o)) T (base_toks pos b ++ [TText pos (pos + List.length (base_text b ++ o))])).
  - cbn [pmatch]. rewrite <- app_assoc. reflexivity.
  - apply text_ok. rewrite (seq_ok _ _ _ _ _ _ _ (r_addr_ok b pos (R o ++ T) Hb ltac:(
      destruct Ho as [->|(s&ks&->&S&D)]; [eapply ends_weaken; [|exact E]; unfold digit_or_sign; intros c ->; reflexivity|
      cbn; apply sign_not_digitN; destruct S as [-> | ->]; reflexivity]))).
    rewrite r_offset_ok by auto. rewrite List.app_nil_r, app_length, Nat.add_assoc. reflexivity.
Qed.
(* characters an address starts with *)
Definition addr_start (c : N) : bool := starts r_addr c.
Lemma r_addrO_fails : forall pos T, ends_at addr_start T -> pmatch r_addrO pos T = PFail.
Proof.
  intros pos [|c T] E; [apply cannot_start_nil; reflexivity|]. apply cannot_start; try reflexivity.
  change (starts r_addr c = false) in E. change (starts r_addrO c) with ((starts r_addr c || false) || false)%bool. now rewrite E.
Qed.
Definition blank_or_digit_or_sign (c : N) : bool := (digit_or_sign c || blankN c)%bool.
Lemma nb_ends : forall bs T, blanksN bs -> ends_at blank_or_digit_or_sign T -> ends_at digit_or_sign (bs ++ T).
Proof.
  intros [|c bs] T Bl E; cbn [app].
  - eapply ends_weaken; [|exact E]. unfold blank_or_digit_or_sign. intros c ->. reflexivity.
  - inversion Bl; subst. cbn. unfold blankN in H1. apply orb_true_iff in H1 as [H|H]; apply N.eqb_eq in H; subst; reflexivity.
Qed.
(* an address with blanks around it *)
Lemma base_text_head : forall b, base_ok b -> exists c t, base_text b = c :: t /\ blankN (byte_val c) = false.
Proof.
  intros [ds| | |re|m|re] H.
  - destruct H as [D Ne]. destruct ds as [|d ds]; [congruence|]. exists d, ds. split; auto. inversion D; subst.
    apply dec_digit_N in H1. unfold digitN in H1. unfold blankN. apply andb_true_iff in H1. rewrite !N.leb_le in H1.
    apply orb_false_iff. rewrite !N.eqb_neq. lia.
  - exists "."%char, []. split; reflexivity.
  - exists "$"%char, []. split; reflexivity.
  - exists "/"%char, (re ++ B "/"). split; reflexivity.
  - exists "'"%char, [m]. split; reflexivity.
  - exists "?"%char, (re ++ B "?"). split; reflexivity.
Qed.
Lemma waddr_head : forall a T, waddr_ok a -> ends_at blankN (R (waddr_text a) ++ T).
Proof.
  intros a T [H _]. unfold waddr_text. destruct (base_text_head _ H) as (c&t&->&E). exact E.
Qed.
Lemma address_ok : forall n b1 a b2 pos T, blanksN b1 -> waddr_ok a -> blanksN b2 -> ends_at blank_or_digit_or_sign T ->
  pmatch (PSeq (PStar r_sp) (PSeq r_addrO (PSeq (PStar r_sp) (PAct n)))) pos (b1 ++ R (waddr_text a) ++ b2 ++ T) =
  POk (pos + List.length b1 + List.length (waddr_text a) + List.length b2) T
      (addr_toks (pos + List.length b1) a ++ [TAct n]).
Proof.
  intros n b1 a b2 pos T B1 A B2 E.
  rewrite (seq_ok _ _ _ _ _ _ _ (sps_ok pos b1 (R (waddr_text a) ++ b2 ++ T) B1 (waddr_head _ _ A))).
  rewrite (seq_ok _ _ _ _ _ _ _ (r_addrO_ok a (pos + List.length b1) (b2 ++ T) A (nb_ends _ _ B2 E))).
  rewrite (seq_ok _ _ _ _ _ _ _ (sps_ok (pos + List.length b1 + List.length (waddr_text a)) b2 T B2
    (ends_weaken _ _ _ (fun c H => proj2 (orb_true_iff _ _) (or_intror H)) E))).
  reflexivity.
Qed.

(* ---- ranges ---- *)
Definition comma (s : ascii) : bool := Ascii.eqb s ",".
Definition range_toks (p : nat) (r : wrange) : list token :=
  match r with
  | NoAddress => []
  | OneAddress a => addr_toks p a ++ [TAct 17; TAct 13]
  | Both a b1 s b2 b =>
      addr_toks p a ++ [TAct 17] ++
      addr_toks (p + List.length (waddr_text a) + List.length b1 + 1 + List.length b2) b ++ [TAct 18]
  | LeftOnly a b1 s => addr_toks p a ++ [TAct 17; TAct (if comma s then 9 else 11)]
  | RightOnly s b2 b => addr_toks (p + 1 + List.length b2) b ++ [TAct 18; TAct (if comma s then 10 else 12)]
  | Neither s => [TAct (if comma s then 14 else 15)]
  end.
Definition closedb (r : wrange) : bool :=
  match r with LeftOnly _ _ _ | Neither _ | NoAddress => false | _ => true end.
(* what may not follow a range, blanks apart *)
Definition loud (c : N) : bool := (blank_or_digit_or_sign c || addr_start c || (c =? 44)%N || (c =? 59)%N)%bool.
Lemma loud_bds : forall T, ends_at loud T -> ends_at blank_or_digit_or_sign T.
Proof. intros T. apply ends_weaken. unfold loud. now intros c ->. Qed.
Lemma loud_blank : forall T, ends_at loud T -> ends_at blankN T.
Proof. intros T. apply ends_weaken. unfold loud, blank_or_digit_or_sign. intros c ->. now rewrite orb_true_r. Qed.
Lemma loud_addr : forall T, ends_at loud T -> ends_at addr_start T.
Proof. intros T. apply ends_weaken. unfold loud. intros c ->. now rewrite orb_true_r. Qed.
Lemma loud_chr : forall T s, separator s -> ends_at loud T -> forall pos, pmatch (chr s) pos T = PFail.
Proof.
  intros [|c T] s S E pos; cbn; auto. cbn [ends_at] in E. unfold loud in E.
  apply orb_false_iff in E as [E E2]. apply orb_false_iff in E as [E E1].
  destruct S as [-> | ->]; [change (byte_val ",") with 44%N; now rewrite E1|change (byte_val ";") with 59%N; now rewrite E2].
Qed.
Lemma address_fails : forall n bs pos T, blanksN bs -> ends_at addr_start T -> ends_at blankN T ->
  pmatch (PSeq (PStar r_sp) (PSeq r_addrO (PSeq (PStar r_sp) (PAct n)))) pos (bs ++ T) = PFail.
Proof.
  intros n bs pos T Bl E E'. rewrite (seq_ok _ _ _ _ _ _ _ (sps_ok pos bs T Bl E')). rewrite seq_fail; auto.
  now apply r_addrO_fails.
Qed.
Lemma start_ok : forall a b2 pos T, waddr_ok a -> blanksN b2 -> ends_at blank_or_digit_or_sign T ->
  pmatch r_startAddr pos (R (waddr_text a) ++ b2 ++ T) =
  POk (pos + List.length (waddr_text a) + List.length b2) T (addr_toks pos a ++ [TAct 17]).
Proof.
  intros a b2 pos T A B2 E. pose proof (address_ok 17 [] a b2 pos T (Forall_nil _) A B2 E) as H.
  cbn [List.length app] in H. rewrite !Nat.add_0_r in H. exact H.
Qed.
Lemma end_ok : forall b1 a b2 pos T, blanksN b1 -> waddr_ok a -> blanksN b2 -> ends_at blank_or_digit_or_sign T ->
  pmatch r_endAddr pos (b1 ++ R (waddr_text a) ++ b2 ++ T) =
  POk (pos + List.length b1 + List.length (waddr_text a) + List.length b2) T
      (addr_toks (pos + List.length b1) a ++ [TAct 18]).
Proof. intros. now apply address_ok. Qed.
Lemma start_fails : forall pos T, ends_at addr_start T -> ends_at blankN T -> pmatch r_startAddr pos T = PFail.
Proof. intros. now apply (address_fails 17 [] pos T (Forall_nil _)). Qed.
Lemma waddr_head_addr : forall a, waddr_ok a -> exists c t, waddr_text a = c :: t /\ starts r_addr (byte_val c) = true.
Proof.
  intros [b o] [H _]. unfold waddr_text. cbn [w_base w_off] in *. destruct b as [ds| | |re|m|re].
  - destruct H as [D Ne]. destruct ds as [|d ds]; [congruence|]. exists d, (ds ++ o). split; auto. inversion D; subst.
    apply dec_digit_N in H1. unfold digitN in H1.
    change (starts r_addr (byte_val d)) with
      ((((((((N.leb 48 (byte_val d) && N.leb (byte_val d) 57) || false) || false) || starts r_markAddr (byte_val d)) ||
        starts r_regexAddr (byte_val d)) || starts r_regexReverseAddr (byte_val d)) ||
        starts (PSeq (chr ".") (PAct 20)) (byte_val d)) || starts (PSeq (chr "$") (PAct 21)) (byte_val d))%bool.
    now rewrite H1.
  - exists "."%char, o. split; reflexivity.
  - exists "$"%char, o. split; reflexivity.
  - exists "/"%char. eexists. split; [cbn [base_text B list_ascii_of_string app]; reflexivity|reflexivity].
  - exists "'"%char. eexists. split; [cbn [base_text B list_ascii_of_string app]; reflexivity|reflexivity].
  - exists "?"%char. eexists. split; [cbn [base_text B list_ascii_of_string app]; reflexivity|reflexivity].
Qed.
Lemma sep_not_addr : forall s c, separator s -> starts r_addr (byte_val c) = true -> (byte_val c =? byte_val s)%N = false.
Proof.
  intros s c S H. rewrite byte_eqb. destruct (Ascii.eqb_spec c s) as [->|]; auto.
  destruct S as [-> | ->]; vm_compute in H; discriminate.
Qed.
Lemma chr_addr_fails : forall s a T pos, separator s -> waddr_ok a -> pmatch (chr s) pos (R (waddr_text a) ++ T) = PFail.
Proof.
  intros s a T pos S A. destruct (waddr_head_addr _ A) as (c&t&->&E). cbn. now rewrite sep_not_addr.
Qed.
Lemma chr_other : forall s s' T pos, s <> s' -> pmatch (chr s) pos (byte_val s' :: T) = PFail.
Proof. intros. cbn. rewrite byte_eqb. destruct (Ascii.eqb_spec s' s); congruence. Qed.
Lemma sep_bds : forall s T, separator s -> ends_at blank_or_digit_or_sign (byte_val s :: T).
Proof. intros s T [-> | ->]; reflexivity. Qed.
Lemma sep_start_fails : forall s T pos, separator s -> pmatch r_startAddr pos (byte_val s :: T) = PFail.
Proof. intros s T pos [-> | ->]; apply start_fails; reflexivity. Qed.

(* startAddr and a separator that is not there *)
Lemma start_chr_fails : forall s a b2 pos T X, waddr_ok a -> blanksN b2 -> ends_at blank_or_digit_or_sign T ->
  (forall p, pmatch (chr s) p T = PFail) ->
  pmatch (PSeq r_startAddr (PSeq (chr s) X)) pos (R (waddr_text a) ++ b2 ++ T) = PFail.
Proof. intros. rewrite (seq_ok _ _ _ _ _ _ _ (start_ok _ _ _ _ H H0 H1)). now rewrite seq_fail. Qed.
Lemma start_chr_ok : forall s a b2 pos T X, separator s -> waddr_ok a -> blanksN b2 ->
  pmatch (PSeq r_startAddr (PSeq (chr s) X)) pos (R (waddr_text a) ++ b2 ++ byte_val s :: T) =
  match pmatch X (pos + List.length (waddr_text a) + List.length b2 + 1) T with
  | POk p r t => POk p r ((addr_toks pos a ++ [TAct 17]) ++ t)
  | x => x
  end.
Proof.
  intros s a b2 pos T X S A B2. rewrite (seq_ok _ _ _ _ _ _ _ (start_ok _ _ _ _ A B2 (sep_bds _ _ S))).
  rewrite (seq_ok _ _ _ _ _ _ _ (chr_ok s _ T)). rewrite Nat.add_1_r. now destruct (pmatch X _ T).
Qed.

(* alternatives as a list *)
Fixpoint first_of (l : list pexp) (pos : nat) (rest : list N) : pres :=
  match l with [] => PFail | a :: r => match pmatch a pos rest with PFail => first_of r pos rest | x => x end end.
Fixpoint spine (n : nat) (e : pexp) : list pexp :=
  match n, e with S k, PAlt a b => spine k a ++ [b] | _, _ => [e] end.
Lemma first_app : forall l l' pos rest, first_of (l ++ l') pos rest =
  match first_of l pos rest with PFail => first_of l' pos rest | x => x end.
Proof. induction l as [|a l IH]; intros l' pos rest; cbn [first_of app]; auto. destruct (pmatch a pos rest); auto. Qed.
Lemma spine_ok : forall n e pos rest, pmatch e pos rest = first_of (spine n e) pos rest.
Proof.
  induction n as [|n IH]; intros e pos rest; [cbn; now destruct (pmatch e pos rest)|].
  destruct e; try (cbn [spine first_of]; now destruct (pmatch _ pos rest)).
  cbn [spine]. rewrite first_app, <- IH. cbn [pmatch first_of].
  destruct (pmatch e1 pos rest); auto. now destruct (pmatch e2 pos rest).
Qed.
Lemma first_skip : forall a l pos rest, pmatch a pos rest = PFail -> first_of (a :: l) pos rest = first_of l pos rest.
Proof. intros. cbn. now rewrite H. Qed.
Lemma first_take : forall a l pos rest p r t, pmatch a pos rest = POk p r t -> first_of (a :: l) pos rest = POk p r t.
Proof. intros. cbn. now rewrite H. Qed.
Lemma comma_sep : separator ",". Proof. now left. Qed.
Lemma semi_sep : separator ";". Proof. now right. Qed.
Definition range_alts : list pexp :=
  [PSeq r_startAddr (PSeq (chr ",") r_endAddr); PSeq r_startAddr (PSeq (chr ",") (PAct 9));
   PSeq (chr ",") (PSeq r_endAddr (PAct 10));
   PSeq r_startAddr (PSeq (chr ";") r_endAddr); PSeq r_startAddr (PSeq (chr ";") (PAct 11));
   PSeq (chr ";") (PSeq r_endAddr (PAct 12));
   PSeq r_startAddr (PAct 13); PSeq (chr ",") (PAct 14); PSeq (chr ";") (PAct 15)].
Lemma range_alts_ok : forall pos rest, pmatch r_range pos rest = first_of range_alts pos rest.
Proof. intros. exact (spine_ok 8 r_range pos rest). Qed.

Lemma range_ok : forall r pos gap T, wrange_ok r -> r <> NoAddress -> blanksN gap -> ends_at loud T ->
  pmatch r_range pos (R (wrange_text r) ++ gap ++ T) =
  POk (pos + List.length (wrange_text r) + if closedb r then List.length gap else 0)
      (if closedb r then T else gap ++ T) (range_toks pos r).
Proof.
  intros r pos gap T H Ne G E. pose proof (loud_bds _ E) as Eb. pose proof (loud_blank _ E) as El. pose proof (loud_addr _ E) as Ea.
  pose proof comma_sep as CS. pose proof semi_sep as SS.
  rewrite range_alts_ok. unfold range_alts.
  destruct r as [|a|a b1 s b2 b|a b1 s|s b2 b|s]; [congruence| | | | |]; cbn [wrange_ok wrange_text closedb range_toks] in *.
  - assert (F : forall s X, separator s -> pmatch (PSeq r_startAddr (PSeq (chr s) X)) pos (R (waddr_text a) ++ gap ++ T) = PFail).
    { intros s X S. apply start_chr_fails; auto. intros. now apply loud_chr. }
    repeat first [rewrite first_skip by (apply F; assumption) | rewrite first_skip by (apply seq_fail, chr_addr_fails; assumption)].
    apply first_take. rewrite (seq_ok _ _ _ _ _ _ _ (start_ok _ _ _ _ H G Eb)). cbn [pmatch]. rewrite <- app_assoc. reflexivity.
  - destruct H as (Ha&Hb1&S&Hb2&Hb).
    assert (Hr : R (waddr_text a ++ b1 ++ [s] ++ b2 ++ waddr_text b) ++ gap ++ T =
      R (waddr_text a) ++ R b1 ++ byte_val s :: (R b2 ++ R (waddr_text b) ++ gap ++ T)).
    { unfold R. rewrite !map_app, <- !app_assoc. reflexivity. }
    rewrite Hr. clear Hr. apply blanks_N in Hb1, Hb2.
    assert (OK : pmatch (PSeq r_startAddr (PSeq (chr s) r_endAddr)) pos (R (waddr_text a) ++ R b1 ++ byte_val s :: (R b2 ++ R (waddr_text b) ++ gap ++ T)) =
      POk (pos + List.length (waddr_text a ++ b1 ++ [s] ++ b2 ++ waddr_text b) + List.length gap) T
        (addr_toks pos a ++ [TAct 17] ++ addr_toks (pos + List.length (waddr_text a) + List.length b1 + 1 + List.length b2) b ++ [TAct 18])).
    { rewrite start_chr_ok by auto. rewrite end_ok by auto. rewrite !R_length, !app_length, <- !app_assoc. cbn [List.length app]. f_equal; lia. }
    assert (F : forall s' X, separator s' -> s' <> s -> pmatch (PSeq r_startAddr (PSeq (chr s') X)) pos
      (R (waddr_text a) ++ R b1 ++ byte_val s :: (R b2 ++ R (waddr_text b) ++ gap ++ T)) = PFail).
    { intros s' X S' D. apply start_chr_fails; auto using sep_bds. intros. now apply chr_other. }
    destruct S as [-> | ->].
    + apply first_take. exact OK.
    + repeat first [rewrite first_skip by (apply F; [assumption|discriminate]) | rewrite first_skip by (apply seq_fail, chr_addr_fails; assumption)].
      apply first_take. exact OK.
  - destruct H as (Ha&Hb1&S).
    assert (Hr : R (waddr_text a ++ b1 ++ [s]) ++ gap ++ T = R (waddr_text a) ++ R b1 ++ byte_val s :: (gap ++ T)).
    { unfold R. rewrite !map_app, <- !app_assoc. reflexivity. }
    rewrite Hr. clear Hr. apply blanks_N in Hb1.
    assert (OK : forall n, pmatch (PSeq r_startAddr (PSeq (chr s) (PAct n))) pos (R (waddr_text a) ++ R b1 ++ byte_val s :: (gap ++ T)) =
      POk (pos + List.length (waddr_text a ++ b1 ++ [s]) + 0) (gap ++ T) (addr_toks pos a ++ [TAct 17; TAct n])).
    { intros n. rewrite start_chr_ok by auto. cbn [pmatch]. rewrite !R_length, !app_length, <- !app_assoc. cbn [List.length app]. f_equal; lia. }
    assert (F : forall s' X, separator s' -> s' <> s -> pmatch (PSeq r_startAddr (PSeq (chr s') X)) pos
      (R (waddr_text a) ++ R b1 ++ byte_val s :: (gap ++ T)) = PFail).
    { intros s' X S' D. apply start_chr_fails; auto using sep_bds. intros. now apply chr_other. }
    assert (F2 : pmatch (PSeq r_startAddr (PSeq (chr s) r_endAddr)) pos (R (waddr_text a) ++ R b1 ++ byte_val s :: (gap ++ T)) = PFail).
    { rewrite start_chr_ok by auto. unfold r_endAddr. now rewrite address_fails. }
    destruct S as [-> | ->].
    + rewrite first_skip by exact F2. apply first_take. apply OK.
    + do 3 first [rewrite first_skip by (apply F; [assumption|discriminate]) | rewrite first_skip by (apply seq_fail, chr_addr_fails; assumption)].
      rewrite first_skip by exact F2. apply first_take. apply OK.
  - destruct H as (S&Hb2&Hb).
    assert (Hr : R ([s] ++ b2 ++ waddr_text b) ++ gap ++ T = byte_val s :: (R b2 ++ R (waddr_text b) ++ gap ++ T)).
    { unfold R. rewrite !map_app, <- !app_assoc. reflexivity. }
    rewrite Hr. clear Hr. apply blanks_N in Hb2.
    assert (OK : forall n, pmatch (PSeq (chr s) (PSeq r_endAddr (PAct n))) pos (byte_val s :: (R b2 ++ R (waddr_text b) ++ gap ++ T)) =
      POk (pos + List.length ([s] ++ b2 ++ waddr_text b) + List.length gap) T (addr_toks (pos + 1 + List.length b2) b ++ [TAct 18; TAct n])).
    { intros n. rewrite (seq_ok _ _ _ _ _ _ _ (chr_ok s _ _)). rewrite (seq_ok _ _ _ _ _ _ _ (end_ok _ _ _ _ _ Hb2 Hb G Eb)).
      cbn [pmatch]. rewrite !R_length, !app_length, <- !app_assoc. cbn [List.length app].
      f_equal; [lia|]. f_equal. f_equal. lia. }
    assert (F : forall X, pmatch (PSeq r_startAddr X) pos (byte_val s :: (R b2 ++ R (waddr_text b) ++ gap ++ T)) = PFail).
    { intros. apply seq_fail, sep_start_fails; auto. }
    destruct S as [-> | ->].
    + do 2 (rewrite first_skip by apply F). apply first_take. apply OK.
    + do 2 (rewrite first_skip by apply F). rewrite first_skip by (apply seq_fail, chr_other; discriminate).
      do 2 (rewrite first_skip by apply F). apply first_take. apply OK.
  - rename H into S. change (R [s] ++ gap ++ T) with (byte_val s :: gap ++ T).
    assert (OK : forall n, pmatch (PSeq (chr s) (PAct n)) pos (byte_val s :: gap ++ T) =
      POk (pos + List.length [s] + 0) (gap ++ T) [TAct n]).
    { intros n. rewrite (seq_ok _ _ _ _ _ _ _ (chr_ok s _ _)). cbn [pmatch app List.length]. f_equal; lia. }
    assert (F : forall X, pmatch (PSeq r_startAddr X) pos (byte_val s :: gap ++ T) = PFail).
    { intros. apply seq_fail, sep_start_fails; auto. }
    assert (F2 : forall X, pmatch (PSeq (chr s) (PSeq r_endAddr X)) pos (byte_val s :: gap ++ T) = PFail).
    { intros. rewrite (seq_ok _ _ _ _ _ _ _ (chr_ok s _ _)). rewrite seq_fail; auto. unfold r_endAddr. now apply address_fails. }
    destruct S as [-> | ->].
    + do 2 (rewrite first_skip by apply F). rewrite first_skip by apply F2. do 2 (rewrite first_skip by apply F).
      rewrite first_skip by (apply seq_fail, chr_other; discriminate). rewrite first_skip by apply F.
      apply first_take. apply OK.
    + do 2 (rewrite first_skip by apply F). rewrite first_skip by (apply seq_fail, chr_other; discriminate).
      do 2 (rewrite first_skip by apply F). rewrite first_skip by apply F2.
      rewrite first_skip by apply F. rewrite first_skip by (apply seq_fail, chr_other; discriminate).
      apply first_take. apply OK.
Qed.
(* no range *)
Lemma range_fails : forall pos T, ends_at loud T -> pmatch r_range pos T = PFail.
Proof.
  intros pos T E. pose proof (loud_blank _ E) as El. pose proof (loud_addr _ E) as Ea.
  rewrite range_alts_ok. unfold range_alts.
  repeat first [rewrite first_skip by (apply seq_fail, start_fails; assumption) |
          rewrite first_skip by (apply seq_fail, loud_chr; (assumption || apply comma_sep || apply semi_sep))].
  reflexivity.
Qed.
(* range? *)
Definition used (r : wrange) (gap : list N) : nat := if closedb r then List.length gap else 0.
Lemma opt_range_ok : forall r pos gap T, wrange_ok r -> (r = NoAddress -> gap = []) -> blanksN gap -> ends_at loud T ->
  pmatch (POpt r_range) pos (R (wrange_text r) ++ gap ++ T) =
  POk (pos + List.length (wrange_text r) + used r gap)
      (if closedb r then T else gap ++ T) (range_toks pos r).
Proof.
  intros r pos gap T H Hg G E. destruct r eqn:Er; try (apply opt_ok; apply range_ok; auto; discriminate).
  rewrite Hg by auto. cbn [wrange_text R map app closedb used List.length range_toks]. rewrite !Nat.add_0_r.
  apply opt_fail. now apply range_fails.
Qed.
