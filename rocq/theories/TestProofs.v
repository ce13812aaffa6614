From Verif Require Import GoBase GoFacts NumFacts TestModel TestSpec.

(* ---- mode bits ---- *)
Lemma land_bit : forall m n, (N.land m (bit n) =? bit n)%N = N.testbit m n.
Proof.
  intros m n. unfold bit. rewrite N.shiftl_1_l. destruct (N.testbit m n) eqn:E.
  - apply N.eqb_eq. apply N.bits_inj. intros k. rewrite N.land_spec, N.pow2_bits_eqb.
    destruct (n =? k)%N eqn:Q; [|apply andb_false_r]. apply N.eqb_eq in Q. subst. now rewrite E.
  - apply N.eqb_neq. intros H. assert (Q : N.testbit (N.land m (2 ^ n)) n = N.testbit (2 ^ n) n) by now rewrite H.
    rewrite N.land_spec, E, N.pow2_bits_true in Q. discriminate.
Qed.

Lemma land_bit0 : forall m n, (N.land m (bit n) =? 0)%N = negb (N.testbit m n).
Proof.
  intros m n. unfold bit. rewrite N.shiftl_1_l. destruct (N.testbit m n) eqn:E; cbn [negb].
  - apply N.eqb_neq. intros H. assert (Q : N.testbit (N.land m (2 ^ n)) n = N.testbit 0 n) by now rewrite H.
    rewrite N.land_spec, E, N.pow2_bits_true, N.bits_0 in Q. discriminate.
  - apply N.eqb_eq. apply N.bits_inj. intros k. rewrite N.land_spec, N.pow2_bits_eqb, N.bits_0.
    destruct (n =? k)%N eqn:Q; [|apply andb_false_r]. apply N.eqb_eq in Q. subst. now rewrite E.
Qed.

Lemma is_regular_spec : forall fi, IsRegular (mode fi) = true <-> regular fi.
Proof.
  intros fi. unfold IsRegular, regular, has. rewrite N.eqb_eq. unfold ModeType.
  cbn [fold_left]. rewrite !N.land_lor_distr_r. rewrite !N.lor_eq_0_iff.
  assert (Z : forall n, N.land (mode fi) (bit n) = 0%N <-> N.testbit (mode fi) n <> true).
  { intros n. rewrite <- N.eqb_eq, land_bit0. destruct (N.testbit (mode fi) n); cbn; split; congruence. }
  unfold ModeDir, ModeSymlink, ModeNamedPipe, ModeSocket, ModeDevice, ModeCharDevice, ModeIrregular.
  rewrite !Z. split.
  - intros ((((((H1&H2)&H3)&H4)&H5)&H6)&H7) n Hn. cbn [In] in Hn.
    repeat (destruct Hn as [<-|Hn]; [assumption|]). contradiction.
  - intros H. repeat split; apply H; cbn [In]; auto 10.
Qed.

(* truth of a result *)
Definition truth (r : result) (P : Prop) : Prop :=
  snd r = None /\ (fst r = true <-> P).

Lemma truth_bool : forall b (P : Prop), (b = true <-> P) -> truth (b, None) P.
Proof. intros. split; auto. Qed.

Lemma file_primary_ok : forall c w p P, file_primary c w p = Some P ->
  exists f, flag_lookup c = Some f /\ truth (f w p) P.
Proof.
  intros c w p P. unfold file_primary.
  assert (S1 : forall n, truth (modeIs (bit n) w p) (stat_is w p (has n))).
  { intros n. unfold modeIs, stat_is, has. destruct (stat w p) as [fi|]; apply truth_bool.
    - rewrite land_bit. split; [intros H; exists fi; auto|intros (fi'&[= <-]&H); auto].
    - split; [discriminate|intros (?&[=]&_)]. }
  assert (S2 : forall g (Q : file_info -> Prop), (forall fi, g fi = true <-> Q fi) -> truth (info g w p) (stat_is w p Q)).
  { intros g Q H. unfold info, stat_is. destruct (stat w p) as [fi|]; apply truth_bool.
    - rewrite H. split; [intros X; exists fi; auto|intros (fi'&[= <-]&X); auto].
    - split; [discriminate|intros (?&[=]&_)]. }
  assert (S3 : truth (isLink w p) (exists fi, lstat w p = Some fi /\ has 27 fi)).
  { unfold isLink, has, ModeSymlink. destruct (lstat w p) as [fi|]; apply truth_bool.
    - rewrite land_bit. split; [intros H; exists fi; auto|intros (fi'&[= <-]&H); auto].
    - split; [discriminate|intros (?&[=]&_)]. }
  repeat match goal with |- (if Ascii.eqb c ?d then _ else _) = _ -> _ =>
    destruct (Ascii.eqb c d) eqn:?E; [apply Ascii.eqb_eq in E; subst c; intros [= <-];
      eexists; (split; [cbn; reflexivity|])|clear E] end; try discriminate; try (apply (S1 _)); try exact S3; try apply S2;
    try (intros fi; unfold has; rewrite <- land_bit; reflexivity).
  - intros fi. change (IsDir (mode fi) = true <-> has 31 fi). unfold IsDir, ModeDir, has. rewrite land_bit0, negb_involutive. reflexivity.
  - intros; split; auto.
  - apply is_regular_spec.
  - intros fi. cbn beta. lia.
Qed.

(* ---- parse ---- *)
Lemma parse_cons : forall w a b r, parse w (a :: b :: r) =
  if beqb a (B "!") then (negb (fst (parse w (b :: r))), snd (parse w (b :: r)))
  else if beqb a [] then (false, None)
  else match prefix_of a with
       | Some f => f w b
       | None => match r with
                 | [c] => match infix_lookup b with
                          | Some f => f a c
                          | None => (false, Some (B "idk what to do about this"))
                          end
                 | _ => (false, Some (B "idk what to do about this"))
                 end
       end.
Proof.
  intros. change (parse w (a :: b :: r)) with
    (if beqb a (B "!") then let '(ok, err) := parse w (b :: r) in (negb ok, err)
  else if beqb a [] then (false, None)
  else match prefix_of a with
       | Some f => f w b
       | None => match r with
                 | [c] => match infix_lookup b with
                          | Some f => f a c
                          | None => (false, Some (B "idk what to do about this"))
                          end
                 | _ => (false, Some (B "idk what to do about this"))
                 end
       end). destruct (parse w (b :: r)). reflexivity.
Qed.

Lemma status_spec : forall w args, status w args =
  match snd (parse w args) with Some _ => 2%Z | None => if fst (parse w args) then 0%Z else 1%Z end.
Proof. intros. unfold status, test_main. destruct (parse w args) as [[|] [e|]]; reflexivity. Qed.

Lemma truth_status : forall w args P, truth (parse w args) P ->
  (P -> status w args = 0%Z) /\ (~ P -> status w args = 1%Z).
Proof.
  intros w args P [H1 H2]. rewrite status_spec, H1. destruct (fst (parse w args)); split; intros H; auto.
  - exfalso. apply H, H2; auto.
  - apply H2 in H. discriminate.
Qed.

Lemma parse_bang : forall w e, e <> [] -> parse w (B "!" :: e) = (negb (fst (parse w e)), snd (parse w e)).
Proof. intros w [|b r] H; [congruence|]. rewrite parse_cons, beqb_refl. reflexivity. Qed.

(* ---- numbers ---- *)
Lemma int_text_atoi : forall t z, int_text t z <-> atoi t = Some z.
Proof. intros. unfold int_text. now rewrite atoi_spec. Qed.

Lemma num_op_lookup : forall op R, num_op op R -> exists g, infix_lookup op = Some (numcmp g) /\
  forall x y, g x y = true <-> R x y.
Proof.
  intros op R H. destruct H; eexists; (split; [reflexivity|]); intros x y; cbn beta; lia.
Qed.

Lemma num_prefix : forall t z, numeral t z -> beqb t (B "!") = false /\ beqb t [] = false /\ prefix_of t = None.
Proof.
  intros t z (sgn&ds&->&Hne&Hd&Hs). destruct ds as [|d ds]; [congruence|].
  assert (Hdd : is_dec_digit d) by (inversion Hd; auto).
  assert (X : sgn = [] \/ sgn = B "+" \/ sgn = B "-") by (destruct Hs as [[[|] _]|[]]; auto).
  assert (Nd : forall c, is_dec_digit c -> flag_lookup c = None).
  { intros c Hc. unfold flag_lookup. cbn [find flag_map fst].
    repeat match goal with |- context [Ascii.eqb ?k c] =>
      let E := fresh in destruct (Ascii.eqb k c) eqn:E;
      [apply Ascii.eqb_eq in E; subst c; exfalso; revert Hc; unfold is_dec_digit; vm_compute; intros [? ?]; congruence|clear E] end.
    reflexivity. }
  destruct X as [->|[->| ->]].
  - cbn [app]. repeat split; auto.
    + apply beqb_neq. intros E. change (B "!") with ["!"%char] in E. injection E as -> _.
      revert Hdd. unfold is_dec_digit. vm_compute. intros [? ?]; congruence.
    + unfold prefix_of. destruct ds as [|d2 [|? ?]]; auto.
      destruct (Ascii.eqb d "-") eqn:E; auto. apply Ascii.eqb_eq in E. subst.
      revert Hdd. unfold is_dec_digit. vm_compute. intros [? ?]; congruence.
  - change (B "+" ++ d :: ds) with ("+"%char :: d :: ds). repeat split; auto.
    unfold prefix_of. destruct ds; reflexivity.
  - change (B "-" ++ d :: ds) with ("-"%char :: d :: ds). repeat split; auto.
    unfold prefix_of. destruct ds; [|reflexivity]. rewrite Ascii.eqb_refl. auto.
Qed.

Lemma num_compare : forall w op R a b x y, num_op op R -> int_text a x -> int_text b y ->
  truth (parse w [a; op; b]) (R x y).
Proof.
  intros w op R a b x y O A Bt. rewrite parse_cons. destruct (num_prefix a x) as (->&->&->); [apply A|].
  destruct (num_op_lookup op R O) as (g&->&G). unfold numcmp. apply int_text_atoi in A, Bt. rewrite A, Bt.
  apply truth_bool, G.
Qed.

Lemma prefix_letters : forall a, (exists f, prefix_of a = Some f) <->
  exists c, In c (B "acdefghLnprSstuwxz") /\ a = ["-"%char; c].
Proof.
  intros a. split.
  - intros [f H]. destruct a as [|d [|c [|? ?]]]; try discriminate. cbn [prefix_of] in H.
    destruct (Ascii.eqb d "-") eqn:E; [|discriminate]. apply Ascii.eqb_eq in E. subst d.
    exists c. split; auto. unfold flag_lookup in H.
    destruct (find (fun p => Ascii.eqb (fst p) c) flag_map) as [[c' g]|] eqn:F; [|discriminate].
    apply find_some in F. destruct F as [F1 F2]. cbn [fst] in F2. apply Ascii.eqb_eq in F2. subst c'.
    apply (in_map fst) in F1. exact F1.
  - intros (c&Hc&->). cbn [prefix_of]. rewrite Ascii.eqb_refl.
    repeat (destruct Hc as [<-|Hc]; [eexists; reflexivity|]). contradiction.
Qed.

Lemma operator_like_prefix : forall a, operator_like a <-> a = [] \/ a = B "!" \/ exists f, prefix_of a = Some f.
Proof. intros a. unfold operator_like. now rewrite <- prefix_letters. Qed.

Lemma num_bad : forall w op R a b, num_op op R -> ~ operator_like a ->
  (forall x y, ~ (int_text a x /\ int_text b y)) -> status w [a; op; b] = 2%Z.
Proof.
  intros w op R a b O N H. rewrite operator_like_prefix in N. rewrite status_spec, parse_cons.
  destruct (beqb a (B "!")) eqn:E1; [exfalso; apply N; right; left; now apply beqb_eq|].
  destruct (beqb a []) eqn:E2; [exfalso; apply N; left; now apply beqb_eq|].
  destruct (prefix_of a) as [f|] eqn:E3; [exfalso; apply N; right; right; eauto|].
  destruct (num_op_lookup op R O) as (g&->&G). unfold numcmp.
  destruct (atoi a) as [x|] eqn:Ea; [|reflexivity]. destruct (atoi b) as [y|] eqn:Eb; [|reflexivity].
  exfalso. apply (H x y). rewrite !int_text_atoi. auto.
Qed.

(* ---- unary ---- *)
Lemma unary_ok : forall w o p P, unary w o p P -> truth (parse w [o; p]) P.
Proof.
  intros w o p P H. rewrite parse_cons. inversion H; subst.
  - destruct (file_primary_ok _ _ _ _ H0) as (f&Hf&T).
    replace (beqb ["-"%char; c] (B "!")) with false by reflexivity.
    replace (beqb ["-"%char; c] []) with false by reflexivity.
    unfold prefix_of. rewrite Ascii.eqb_refl, Hf. exact T.
  - cbn. destruct p; apply truth_bool; cbn; split; congruence.
  - cbn. destruct p; apply truth_bool; cbn; split; congruence.
Qed.

Lemma binary_ok : forall w a o b P, binary a o b P -> ~ operator_like a -> truth (parse w [a; o; b]) P.
Proof.
  intros w a o b P H N. rewrite operator_like_prefix in N. inversion H; subst; [| |eapply num_compare; eauto]; rewrite parse_cons;
  (destruct (beqb a (B "!")) eqn:E1; [exfalso; apply N; right; left; now apply beqb_eq|]);
  (destruct (beqb a []) eqn:E2; [exfalso; apply N; left; now apply beqb_eq|]);
  (destruct (prefix_of a) as [f|] eqn:E3; [exfalso; apply N; right; right; eauto|]).
  - change (infix_lookup (B "=")) with (Some (fun a b => (beqb a b, @None bytes))). cbv iota. apply truth_bool, beqb_eq.
  - change (infix_lookup (B "!=")) with (Some (fun a b => (negb (beqb a b), @None bytes))). cbv iota. apply truth_bool.
    rewrite negb_true_iff. apply beqb_neq.
Qed.

Lemma truth_neg : forall w e P, e <> [] -> truth (parse w e) P -> truth (parse w (B "!" :: e)) (~ P).
Proof.
  intros w e P Hne [H1 H2]. rewrite parse_bang by auto. split; cbn [fst snd]; auto.
  rewrite <- H2. destruct (fst (parse w e)); cbn; split; congruence.
Qed.

Lemma binary_is_op : forall a o b P, binary a o b P -> binary_op o.
Proof.
  intros a o b P H. unfold binary_op. inversion H; subst; [left; auto|right; left; auto|].
  inversion H0; subst; cbn [map In]; auto 10.
Qed.

Lemma posix_ok : forall w args P, posix w args P -> ~ ambiguous args -> truth (parse w args) P.
Proof.
  intros w args P H. induction H; intros N.
  - split; [reflexivity|]. cbn. split; [discriminate|contradiction].
  - split; [reflexivity|]. cbn. destruct a; cbn; split; congruence.
  - rewrite parse_bang by discriminate. split; [reflexivity|]. cbn. destruct a; cbn; split; congruence.
  - now apply unary_ok.
  - apply binary_ok; auto. intros O. apply N. exists [], a, o, b. repeat split; auto. eapply binary_is_op; eauto.
  - apply truth_neg; [discriminate|]. apply IHposix. intros (pre&x&o&y&E&_). 
    apply (f_equal (@List.length bytes)) in E. rewrite app_length in E. cbn in E. lia.
  - apply truth_neg; [discriminate|]. apply IHposix. intros (pre&x&o&y&E&Hp&O1&O2).
    destruct Hp as [->| ->]; [|discriminate]. injection E as -> -> ->. apply N. exists [B "!"], x, o, y. auto.
Qed.

(* ---- negation ---- *)
Lemma not_status : forall w e, e <> [] ->
  (status w e = 0%Z -> status w (B "!" :: e) = 1%Z) /\
  (status w e = 1%Z -> status w (B "!" :: e) = 0%Z) /\
  (status w e = 2%Z -> status w (B "!" :: e) = 2%Z) /\
  errout (test_main w (B "!" :: e)) = errout (test_main w e).
Proof.
  intros w e H. rewrite !status_spec. unfold test_main. rewrite parse_bang by auto.
  destruct (parse w e) as [[|] [m|]]; cbn; repeat split; try discriminate; auto.
Qed.

Lemma not_many : forall w e n, e <> [] ->
  test_main w (repeat (B "!") n ++ e) = if Nat.even n then test_main w e else test_main w (B "!" :: e).
Proof.
  intros w e n H.
  assert (G : forall n, parse w (repeat (B "!") n ++ e) = if Nat.even n then parse w e else
     (negb (fst (parse w e)), snd (parse w e))).
  { induction n0 as [|n0 IH].
    - cbn. destruct (parse w e); auto.
    - cbn [repeat app]. rewrite parse_bang.
      + rewrite IH, Nat.even_succ, <- Nat.negb_even. destruct (Nat.even n0); cbn [negb fst snd]; [reflexivity|].
        rewrite negb_involutive. destruct (parse w e); reflexivity.
      + destruct n0; [exact H|discriminate]. }
  unfold test_main. rewrite G, parse_bang by auto. destruct (Nat.even n); reflexivity.
Qed.

Lemma status_range : forall w args, status w args = 0%Z \/ status w args = 1%Z \/ status w args = 2%Z.
Proof. intros. rewrite status_spec. destruct (parse w args) as [[|] [e|]]; cbn; auto. Qed.

Lemma run_shape : forall w args,
  test_main w args = {| out := []; errout := []; fin := Exit 0 |} \/
  test_main w args = {| out := []; errout := []; fin := Exit 1 |} \/
  exists m, test_main w args = complains m.
Proof. intros. unfold test_main. destruct (parse w args) as [[|] [e|]]; unfold complains; eauto. Qed.

Lemma infix_ops : forall o, binary_op o <-> exists f, infix_lookup o = Some f.
Proof.
  intros o. split.
  - intros H. repeat (destruct H as [<-|H]; [eexists; reflexivity|]). contradiction.
  - intros [f H]. unfold infix_lookup in H.
    destruct (find (fun p => beqb (fst p) o) infix_map) as [[o' g]|] eqn:F; [|discriminate].
    apply find_some in F. destruct F as [F1 F2]. cbn [fst] in F2. apply beqb_eq in F2. subst o'.
    apply (in_map fst) in F1. exact F1.
Qed.

Lemma not_understood : forall w a b r, ~ operator_like a ->
  (forall c, r = [c] -> ~ binary_op b) ->
  test_main w (a :: b :: r) = complains (B "idk what to do about this").
Proof.
  intros w a b r N H. rewrite operator_like_prefix in N. unfold test_main. rewrite parse_cons.
  destruct (beqb a (B "!")) eqn:E1; [exfalso; apply N; right; left; now apply beqb_eq|].
  destruct (beqb a []) eqn:E2; [exfalso; apply N; left; now apply beqb_eq|].
  destruct (prefix_of a) eqn:E3; [exfalso; apply N; right; right; eauto|].
  destruct r as [|c [|? ?]]; try reflexivity.
  destruct (infix_lookup b) eqn:E4; [|reflexivity].
  exfalso. apply (H c eq_refl). apply infix_ops. eauto.
Qed.

Lemma minus_a : forall w p, truth (parse w [B "-a"; p]) (stat_is w p (has 26)).
Proof.
  intros w p. change (parse w [B "-a"; p]) with (modeIs (bit 26) w p).
  unfold modeIs, stat_is, has. destruct (stat w p) as [fi|]; apply truth_bool.
  - rewrite land_bit. split; [intros H; exists fi; auto|intros (fi'&[= <-]&H); auto].
  - split; [discriminate|intros (?&[=]&_)].
Qed.
