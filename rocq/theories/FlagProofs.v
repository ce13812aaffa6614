From Verif Require Import GoBase GoFacts NumFacts Utf8Facts FlagModel FlagSpec.
From Coq Require Import DecimalN DecimalPos DecimalFacts.

(* ---- integers ---- *)
Lemma digit36_table : forall c d base, (base <= 16)%N ->
  (digit36 c = Some d /\ (d < base)%N) <-> (In (c, d) digit_table /\ (d < base)%N).
Proof.
  intros c d base Hb.
  assert (G : forall c d, (d < 16)%N -> (digit36 c = Some d <-> In (c, d) digit_table)).
  { clear. intros c d H.
    assert (T : forallb (fun c => match digit36 c with
                 | Some d => if (d <? 16)%N then existsb (fun p => Ascii.eqb (fst p) c && N.eqb (snd p) d) digit_table
                             else negb (existsb (fun p => Ascii.eqb (fst p) c) digit_table)
                 | None => negb (existsb (fun p => Ascii.eqb (fst p) c) digit_table) end)
               (map ascii_of_nat (seq 0 256)) = true) by (vm_compute; reflexivity).
    assert (U : forallb (fun p => match digit36 (fst p) with Some d => N.eqb d (snd p) | None => false end) digit_table = true)
      by (vm_compute; reflexivity).
    rewrite forallb_forall in T, U. split.
    - intros E. specialize (T c). rewrite E in T. replace (d <? 16)%N with true in T by lia.
      assert (X : existsb (fun p => Ascii.eqb (fst p) c && N.eqb (snd p) d) digit_table = true).
      { apply T. apply in_map_iff. exists (nat_of_ascii c). split; [apply ascii_nat_embedding|].
        apply in_seq. pose proof (nat_ascii_bounded c). lia. }
      apply existsb_exists in X as ([c' d']&X1&X2). apply andb_true_iff in X2 as [X2 X3]. cbn in X2, X3.
      apply Ascii.eqb_eq in X2. apply N.eqb_eq in X3. now subst.
    - intros I. apply U in I. cbn in I. destruct (digit36 c); [|discriminate]. apply N.eqb_eq in I. now subst. }
  split; intros [H1 H2]; split; auto; apply G; auto; lia.
Qed.

Lemma base_val_app : forall base a b acc, base_val base acc (a ++ b) =
  match base_val base acc a with Some n => base_val base n b | None => None end.
Proof.
  induction a as [|c a IH]; intros b acc; [reflexivity|]. cbn [app base_val].
  destruct (digit36 c) as [d|]; [|reflexivity]. destruct (d <? base)%N; [apply IH|reflexivity].
Qed.

Lemma base_val_spec : forall base ds n, (base <= 16)%N -> base_val base 0 ds = Some n <-> in_base base ds n.
Proof.
  intros base ds n Hb. split.
  - revert n. induction ds as [|c ds IH] using rev_ind; intros n H.
    + cbn in H. injection H as <-. constructor.
    + rewrite base_val_app in H. destruct (base_val base 0 ds) as [m|] eqn:E; [|discriminate].
      cbn [base_val] in H. destruct (digit36 c) as [d|] eqn:D; [|discriminate].
      destruct (d <? base)%N eqn:L; [|discriminate]. injection H as <-.
      apply N.ltb_lt in L. destruct (proj1 (digit36_table c d base Hb) (conj D L)).
      constructor; auto.
  - induction 1 as [|ds c d n H IH T L]; [reflexivity|].
    rewrite base_val_app, IH. cbn [base_val].
    destruct (proj2 (digit36_table c d base Hb) (conj T L)) as [-> _].
    replace (d <? base)%N with true by lia. reflexivity.
Qed.

Lemma parse_uint_spec : forall t n, parse_uint t = Some n <-> magnitude t n.
Proof.
  intros t n. split.
  - destruct t as [|c r]; [discriminate|]. cbn [parse_uint]. destruct (Ascii.eqb c "0") eqn:E.
    + apply Ascii.eqb_eq in E. subst. destruct r as [|x r].
      * intros [= <-]. apply m_oct. constructor.
      * destruct (Ascii.eqb x "x" || Ascii.eqb x "X")%bool eqn:X.
        -- destruct r as [|y r]; [discriminate|]. intros H. apply base_val_spec in H; [|lia].
           apply m_hex; auto; [|discriminate]. apply orb_true_iff in X as [X|X]; apply Ascii.eqb_eq in X; auto.
        -- intros H. apply m_oct. apply base_val_spec; auto. lia.
    + intros H. apply m_dec; [now apply Ascii.eqb_neq|]. apply base_val_spec; auto. lia.
  - intros H. inversion H; subst; cbn [parse_uint].
    + apply Ascii.eqb_neq in H0. rewrite H0. apply base_val_spec; auto. lia.
    + rewrite Ascii.eqb_refl. apply base_val_spec in H0; [|lia]. destruct ds as [|x r].
      * cbn in H0. congruence.
      * destruct (Ascii.eqb x "x" || Ascii.eqb x "X")%bool eqn:X; [|auto].
        exfalso. apply orb_true_iff in X as [X|X]; apply Ascii.eqb_eq in X; subst x; vm_compute in H0; discriminate.
    + rewrite Ascii.eqb_refl. apply base_val_spec in H2; [|lia].
      replace (Ascii.eqb x "x" || Ascii.eqb x "X")%bool with true by (destruct H0; subst; reflexivity).
      destruct ds; [congruence|auto].
Qed.

Lemma magnitude_no_sign : forall c t n, magnitude (c :: t) n -> c <> "-"%char /\ c <> "+"%char.
Proof.
  intros c t n H. apply parse_uint_spec in H. split; intros ->; vm_compute in H; discriminate.
Qed.

Lemma parse_int_spec : forall t z, parse_int t = Some z <-> int64_text t z.
Proof.
  intros t z. unfold int64_text. split.
  - destruct t as [|c r]; [discriminate|]. unfold parse_int. destruct (Ascii.eqb c "-") eqn:E1.
    + apply Ascii.eqb_eq in E1. subst. destruct (parse_uint r) as [n|] eqn:P; [|discriminate].
      cbn [option_map]. destruct (in_int64 _) eqn:R; [|discriminate]. intros [= <-].
      apply parse_uint_spec in P. split; [now apply il_minus|]. unfold in_int64 in R. lia.
    + destruct (Ascii.eqb c "+") eqn:E2.
      * apply Ascii.eqb_eq in E2. subst. destruct (parse_uint r) as [n|] eqn:P; [|discriminate].
        cbn [option_map]. destruct (in_int64 _) eqn:R; [|discriminate]. intros [= <-].
        apply parse_uint_spec in P. split; [now apply il_plus|]. unfold in_int64 in R. lia.
      * destruct (parse_uint (c :: r)) as [n|] eqn:P; [|discriminate].
        cbn [option_map]. destruct (in_int64 _) eqn:R; [|discriminate]. intros [= <-].
        apply parse_uint_spec in P. split; [now apply il_plain|]. unfold in_int64 in R. lia.
  - intros [H R]. assert (I : in_int64 z = true) by (unfold in_int64; lia).
    inversion H; subst; unfold parse_int.
    + destruct t as [|c r]; [inversion H0|]. destruct (magnitude_no_sign _ _ _ H0) as [N1 N2].
      apply Ascii.eqb_neq in N1, N2. rewrite N1, N2. apply parse_uint_spec in H0. rewrite H0. cbn [option_map].
      now rewrite I.
    + change (Ascii.eqb "+" "-") with false. rewrite Ascii.eqb_refl. apply parse_uint_spec in H0. rewrite H0.
      cbn [option_map]. now rewrite I.
    + rewrite Ascii.eqb_refl. apply parse_uint_spec in H0. rewrite H0.
      cbn [option_map]. now rewrite I.
Qed.

Lemma digit36_dec : forall c d, digit_of c = Some d -> digit36 c = Some d /\ (d <? 10)%N = true.
Proof.
  intros c d H. apply digit_of_spec in H as [[H1 H2] ->]. unfold digit36, digit_value, byte_val.
  replace ((48 <=? N_of_ascii c) && (N_of_ascii c <=? 57))%N with true by lia. split; [reflexivity|lia].
Qed.

Lemma base_val_dec : forall ds acc n, dec_val acc ds = Some n -> base_val 10 acc ds = Some n.
Proof.
  induction ds as [|c ds IH]; intros acc n H; cbn in *; auto.
  destruct (digit_of c) as [d|] eqn:D; [|discriminate]. destruct (digit36_dec _ _ D) as [-> ->]. auto.
Qed.

Lemma utoa_head : forall n t, utoa n = "0"%char :: t -> n = 0%N.
Proof.
  intros n t H. unfold utoa in H.
  pose proof (DecimalN.Unsigned.to_of (N.to_uint n)) as Q. rewrite DecimalN.Unsigned.of_to in Q.
  destruct (N.to_uint n) as [|u|u|u|u|u|u|u|u|u|u] eqn:E; cbn [uint_bytes] in H; try discriminate.
  clear H t. rewrite <- (DecimalN.Unsigned.of_to n), E. unfold Decimal.unorm in Q. cbn [Decimal.nzhead] in Q.
  pose proof (DecimalFacts.nzhead_nonzero u) as NZ.
  destruct (Decimal.nzhead u) eqn:Z; try discriminate.
  - injection Q as ->. reflexivity.
  - exfalso. eapply NZ. reflexivity.
Qed.

Lemma parse_int_itoa : forall z, (min_int64 <= z <= max_int64)%Z -> parse_int (itoa z) = Some z.
Proof.
  assert (U : forall n, parse_uint (utoa n) = Some n).
  { intros n. destruct (utoa n) as [|c t] eqn:E; [now apply utoa_nonempty in E|].
    cbn [parse_uint]. destruct (Ascii.eqb c "0") eqn:Z.
    - apply Ascii.eqb_eq in Z. subst c. apply utoa_head in E as E'. subst n.
      vm_compute in E. injection E as <-. reflexivity.
    - rewrite <- E. apply base_val_dec, dec_val_utoa. }
  intros z R. assert (I : in_int64 z = true) by (unfold in_int64; lia). unfold itoa.
  destruct (z <? 0)%Z eqn:S.
  - unfold parse_int. rewrite Ascii.eqb_refl, U. cbn [option_map].
    replace (- Z.of_N (Z.to_N (- z)))%Z with z by lia. now rewrite I.
  - destruct (utoa (Z.to_N z)) as [|c t] eqn:E; [now apply utoa_nonempty in E|]. unfold parse_int.
    assert (is_digit c) by (eapply (utoa_digits (Z.to_N z)); rewrite E; left; auto).
    destruct (digit_not_sign _ H) as [-> ->]. rewrite <- E, U. cbn [option_map].
    replace (Z.of_N (Z.to_N z)) with z by lia. now rewrite I.
Qed.

(* ---- one argument ---- *)
Lemma bundle_step : forall p arg j c t rest ws, parse_bundle p arg ((j, c) :: t) rest ws =
  match assoc c (bools p) with
  | Some a => parse_bundle p arg t rest (ws ++ [WBool a])
  | None =>
      match skipn (j + 2) arg with
      | [] => match rest with
              | [] => BPanic ws
              | value :: rest' => match apply_value p c value ws with
                                  | inl ws' => parse_bundle p arg t rest' ws'
                                  | inr e => BErr e ws end
              end
      | value => match apply_value p c value ws with
                 | inl ws' => parse_bundle p arg t rest ws'
                 | inr e => BErr e ws end
      end
  end.
Proof. reflexivity. Qed.

Lemma bundle_bools : forall p arg fs i t rest ws, Forall (fun f => is_bool p (fst f) (snd f)) fs ->
  parse_bundle p arg (offsets i (map fst fs) ++ t) rest ws =
  parse_bundle p arg t rest (ws ++ map (fun f => WBool (snd f)) fs).
Proof.
  induction fs as [|[c a] fs IH]; intros i t rest ws H.
  - cbn. now rewrite List.app_nil_r.
  - inversion H; subst. cbn [map fst offsets app]. rewrite bundle_step. cbn [fst snd] in H2. rewrite H2.
    rewrite IH by auto. cbn [map snd]. now rewrite <- List.app_assoc.
Qed.

Lemma offsets_snoc : forall l i c,
  offsets i (l ++ [c]) = offsets i l ++ [((i + length (string_of_runes l))%nat, c)].
Proof.
  induction l as [|r l IH]; intros i c.
  - cbn. now rewrite Nat.add_0_r.
  - cbn [app offsets]. rewrite IH. change (string_of_runes (r :: l)) with (encode_rune r ++ string_of_runes l).
    rewrite List.app_length. cbn [app]. now rewrite Nat.add_assoc.
Qed.

Lemma string_app : forall a b, string_of_runes (a ++ b) = string_of_runes a ++ string_of_runes b.
Proof. intros. unfold string_of_runes. apply flat_map_app. Qed.

Lemma range_runes_str : forall l, Forall valid_rune l -> range_runes (string_of_runes l) = offsets 0 l.
Proof. intros. unfold range_runes. apply range_runes_string; auto. Qed.

Lemma vflag_apply : forall p f ws, vflag_ok p f -> assoc (vname f) (bools p) = None /\
  apply_value p (vname f) (vtext f) ws = inl (ws ++ [vwrite f]).
Proof.
  intros p [c a v|c a t z] ws H; cbn [vflag_ok vname vtext vwrite] in *.
  - destruct H as [H1 H2]. split; auto. unfold apply_value. now rewrite H2.
  - destruct H as [(H1&H2&H3) H4]. split; auto. unfold apply_value. rewrite H2, H3.
    apply parse_int_spec in H4. now rewrite H4.
Qed.

Lemma skipn_past : forall {A} n (l : list A), (length l <= n)%nat -> skipn n l = [].
Proof. intros. now apply skipn_all2. Qed.

(* a value flag named by an ASCII character takes the next argument *)
Definition ascii_value (g : group) : Prop :=
  match value g with Some f => (vname f < 128)%N | None => True end.

Lemma group_bundle : forall p g rest ws, group_ok p g -> ascii_value g ->
  parse_bundle p (B "-" ++ string_of_runes (names g)) (range_runes (string_of_runes (names g)))
    (match value g with Some f => [vtext f] | None => [] end ++ rest) ws =
  BDone rest (ws ++ group_writes g).
Proof.
  intros p [fs [f|]] rest ws (N1&N2&V&F&Q) A; unfold names, group_writes in *; cbn [flags value] in *.
  - rewrite range_runes_str by auto. rewrite offsets_snoc, bundle_bools by auto.
    destruct (vflag_apply p f (ws ++ map (fun f => WBool (snd f)) fs) Q) as [E1 E2].
    rewrite bundle_step, E1, string_app.
    assert (Sk : skipn (0 + length (string_of_runes (map fst fs)) + 2)
       (B "-" ++ string_of_runes (map fst fs) ++ string_of_runes [vname f]) = []).
    { apply skipn_past. rewrite !List.app_length. unfold ascii_value in A. cbn [value] in A.
      unfold string_of_runes at 2. cbn [flat_map]. rewrite encode_ascii by auto. cbn. lia. }
    rewrite Sk. cbn [app]. rewrite E2. cbn [parse_bundle]. now rewrite List.app_assoc.
  - rewrite !List.app_nil_r in *. rewrite range_runes_str by auto.
    rewrite <- (List.app_nil_r (offsets 0 (map fst fs))), bundle_bools by auto. reflexivity.
Qed.

(* ---- fuel ---- *)
Lemma bundle_consumes : forall p arg l rest ws rest' ws', parse_bundle p arg l rest ws = BDone rest' ws' ->
  exists used, rest = used ++ rest' /\ forall r2, parse_bundle p arg l (used ++ r2) ws = BDone r2 ws'.
Proof.
  induction l as [|[j c] t IH]; intros rest ws rest' ws' H.
  - cbn in H. injection H as <- <-. exists []. split; auto.
  - rewrite bundle_step in H. destruct (assoc c (bools p)) as [a|] eqn:Ea.
    + apply IH in H as (used&->&H). exists used. split; auto. intros r2. rewrite bundle_step, Ea. auto.
    + destruct (skipn (j + 2) arg) as [|x v] eqn:Es.
      * destruct rest as [|v rest]; [discriminate|]. destruct (apply_value p c v ws) as [ws1|] eqn:Ev; [|discriminate].
        apply IH in H as (used&->&H). exists (v :: used). split; auto. intros r2.
        rewrite bundle_step, Ea, Es. cbn [app]. rewrite Ev. auto.
      * destruct (apply_value p c (x :: v) ws) as [ws1|] eqn:Ev; [|discriminate].
        apply IH in H as (used&->&H). exists used. split; auto. intros r2.
        rewrite bundle_step, Ea, Es, Ev. auto.
Qed.

Lemma parse_from_step : forall fuel p arg rest ws, parse_from (S fuel) p (arg :: rest) ws =
  if non_option arg then (ws, Positional (arg :: rest))
  else if beqb arg (B "--") then (ws, Positional rest)
  else match parse_bundle p arg (range_runes (skipn 1 arg)) rest ws with
       | BDone rest' ws' => parse_from fuel p rest' ws'
       | BErr e ws' => (ws', Fail e)
       | BPanic ws' => (ws', Crash)
       end.
Proof. reflexivity. Qed.

Lemma parse_fuel : forall f f' p input ws, (length input <= f)%nat -> (length input <= f')%nat ->
  parse_from f p input ws = parse_from f' p input ws.
Proof.
  induction f as [|f IH]; intros f' p input ws H H'.
  - destruct input; [|cbn in H; lia]. destruct f'; reflexivity.
  - destruct f' as [|f']; [destruct input; [reflexivity|cbn in H'; lia]|].
    destruct input as [|arg rest]; [reflexivity|]. rewrite !parse_from_step.
    destruct (non_option arg); [reflexivity|]. destruct (beqb arg (B "--")); [reflexivity|].
    destruct (parse_bundle _ _ _ _ _) as [rest' ws'| |] eqn:E; try reflexivity.
    apply bundle_consumes in E as (used&->&_). cbn [length] in *. rewrite List.app_length in *.
    apply IH; lia.
Qed.

Lemma parse_no_fuel : forall f p input ws, (length input <= f)%nat -> snd (parse_from f p input ws) <> OutOfFuel.
Proof.
  induction f as [|f IH]; intros p input ws H.
  - destruct input; [discriminate|cbn in H; lia].
  - destruct input as [|arg rest]; [discriminate|]. rewrite parse_from_step.
    destruct (non_option arg); [discriminate|]. destruct (beqb arg (B "--")); [discriminate|].
    destruct (parse_bundle _ _ _ _ _) as [rest' ws'| |] eqn:E; try discriminate.
    apply bundle_consumes in E as (used&->&_). cbn [length] in *. rewrite List.app_length in *. apply IH; lia.
Qed.

(* ---- whole command lines ---- *)
Lemma group_not_end : forall p g, group_ok p g ->
  non_option (B "-" ++ string_of_runes (names g)) = false /\
  beqb (B "-" ++ string_of_runes (names g)) (B "--") = false.
Proof.
  intros p g (N1&N2&V&_). change (B "-" ++ string_of_runes (names g)) with ("-"%char :: string_of_runes (names g)).
  destruct (names g) as [|c l] eqn:E; [congruence|].
  assert (Ne : string_of_runes (c :: l) <> []).
  { change (string_of_runes (c :: l)) with (encode_rune c ++ string_of_runes l).
    pose proof (encode_nonempty c). destruct (encode_rune c); [congruence|discriminate]. }
  split.
  - unfold non_option. rewrite Ascii.eqb_refl. destruct (string_of_runes (c :: l)); [congruence|reflexivity].
  - apply beqb_neq. intros Q. change (B "--") with ("-"%char :: ["-"%char]) in Q. injection Q as Q.
    change (string_of_runes (c :: l) = ["-"%char]) in Q.
    assert (R : runes_of (string_of_runes (c :: l)) = [45%N]) by (rewrite Q; reflexivity).
    rewrite runes_of_string in R by auto. congruence.
Qed.

Lemma ends_parse : forall f p tail rest ws, ends_options tail rest -> (length tail <= f)%nat ->
  parse_from f p tail ws = (ws, Positional rest).
Proof.
  intros f p tail rest ws H L. destruct H as [|r|a r H].
  - destruct f; reflexivity.
  - destruct f; [cbn in L; lia|]. rewrite parse_from_step.
    change (non_option (B "--")) with false. rewrite beqb_refl. reflexivity.
  - destruct f; [cbn in L; lia|]. rewrite parse_from_step.
    assert (E : non_option a = true).
    { destruct H as [->|[->|H]]; try reflexivity. destruct a as [|c a]; [reflexivity|]. cbn [hd] in H.
      unfold non_option. apply Ascii.eqb_neq in H. now rewrite H. }
    now rewrite E.
Qed.

Lemma round_trip_from : forall p gs tail rest f ws, Forall (group_ok p) gs -> Forall ascii_value gs ->
  ends_options tail rest -> (length (flat_map group_args gs ++ tail) <= f)%nat ->
  parse_from f p (flat_map group_args gs ++ tail) ws = (ws ++ flat_map group_writes gs, Positional rest).
Proof.
  induction gs as [|g gs IH]; intros tail rest f ws G A E L.
  - cbn [flat_map app]. rewrite List.app_nil_r. apply ends_parse; auto.
  - inversion G as [|? ? Hg Hgs]; subst. inversion A as [|? ? Ha Has]; subst.
    cbn [flat_map] in *. rewrite <- List.app_assoc in *. unfold group_args at 1. unfold group_args at 1 in L.
    cbn [app length] in *. destruct f as [|f]; [lia|]. rewrite parse_from_step.
    destruct (group_not_end p g Hg) as [-> ->].
    change (skipn 1 (B "-" ++ string_of_runes (names g))) with (string_of_runes (names g)).
    rewrite group_bundle by auto. rewrite List.app_length in L.
    rewrite (IH tail rest) by (auto; lia). now rewrite List.app_assoc.
Qed.

Lemma round_trip : forall p gs tail rest os, Forall (group_ok p) gs -> Forall ascii_value gs ->
  ends_options tail rest ->
  parse p (Some (flat_map group_args gs ++ tail)) os = (flat_map group_writes gs, Positional rest).
Proof. intros. unfold parse. now rewrite (round_trip_from p gs tail rest). Qed.

(* ---- positional arguments ---- *)
Lemma non_option_spec : forall a, non_option a = true <-> a = [] \/ a = B "-" \/ hd "-"%char a <> "-"%char.
Proof.
  intros [|c r]; cbn [non_option hd].
  - split; auto.
  - rewrite orb_true_iff, negb_true_iff, Ascii.eqb_neq. split.
    + intros [H|H]; auto. destruct r; [|discriminate].
      destruct (Ascii.eqb c "-") eqn:E; [apply Ascii.eqb_eq in E; subst; auto|apply Ascii.eqb_neq in E; auto].
    + intros [H|[H|H]]; auto; [discriminate|]. change (B "-") with ["-"%char] in H. injection H as _ ->. auto.
Qed.

Definition positional_from (p : parser) (input : list bytes) (ws ws' : list write) (l : list bytes) : Prop :=
  exists pre, input = pre ++ l /\
    (l = [] \/
     (exists pre0, pre = pre0 ++ [B "--"] /\
       forall l' f, (length (pre ++ l') <= f)%nat -> parse_from f p (pre ++ l') ws = (ws', Positional l')) \/
     (exists a r, l = a :: r /\ (a = [] \/ a = B "-" \/ hd "-"%char a <> "-"%char) /\
       forall r' f, (length (pre ++ a :: r') <= f)%nat ->
         parse_from f p (pre ++ a :: r') ws = (ws', Positional (a :: r')))).

Lemma positional : forall f p input ws ws' l, (length input <= f)%nat ->
  parse_from f p input ws = (ws', Positional l) -> positional_from p input ws ws' l.
Proof.
  induction f as [|f IH]; intros p input ws ws' l L H.
  - destruct input; [|cbn in L; lia]. cbn in H. injection H as <- <-. exists []. auto.
  - destruct input as [|arg rest]; [cbn in H; injection H as <- <-; exists []; auto|].
    rewrite parse_from_step in H. destruct (non_option arg) eqn:E1.
    { injection H as <- <-. exists []. split; auto. right; right. exists arg, rest. split; auto.
      split; [now apply non_option_spec|]. intros r' f' L'. cbn [app] in *. destruct f'; [cbn in L'; lia|].
      rewrite parse_from_step, E1. reflexivity. }
    destruct (beqb arg (B "--")) eqn:E2.
    { injection H as <- <-. apply beqb_eq in E2. subst arg. exists [B "--"]. split; auto. right; left.
      exists []. split; auto. intros l' f' L'. cbn [app] in *. destruct f'; [cbn in L'; lia|].
      rewrite parse_from_step, beqb_refl. reflexivity. }
    destruct (parse_bundle _ _ _ _ _) as [rest' ws1| |] eqn:E; try discriminate.
    apply bundle_consumes in E as (used&->&E). cbn [length] in L. rewrite List.app_length in L.
    apply IH in H; [|lia]. destruct H as (pre&->&H). exists (arg :: used ++ pre).
    split; [cbn [app]; now rewrite <- List.app_assoc|].
    assert (X : forall q f', (length (arg :: used ++ q) <= f')%nat ->
       parse_from f' p (arg :: used ++ q) ws = parse_from (length q) p q ws1).
    { intros q f' L'. destruct f'; [cbn in L'; lia|]. rewrite parse_from_step, E1, E2, E.
      cbn [length] in L'. rewrite List.app_length in L'. apply parse_fuel; lia. }
    destruct H as [->|[(pre0&->&H)|(a&r&->&Ha&H)]]; [auto| |].
    + right; left. exists (arg :: used ++ pre0). split; [cbn [app]; now rewrite <- List.app_assoc|].
      intros l' f' L'. replace ((arg :: used ++ pre0 ++ [B "--"]) ++ l') with (arg :: used ++ ((pre0 ++ [B "--"]) ++ l')) in *
        by (cbn [app]; now rewrite <- !List.app_assoc). rewrite X by auto. apply H. auto.
    + right; right. exists a, r. split; auto. split; auto. intros r' f' L'.
      replace ((arg :: used ++ pre) ++ a :: r') with (arg :: used ++ (pre ++ a :: r')) in *
        by (cbn [app]; now rewrite <- !List.app_assoc). rewrite X by auto. apply H. auto.
Qed.

Lemma positional_suffix : forall p input os ws l, parse p (Some input) os = (ws, Positional l) ->
  exists pre, input = pre ++ l /\
    (l = [] \/
     (exists pre0, pre = pre0 ++ [B "--"] /\
       forall l', parse p (Some (pre ++ l')) os = (ws, Positional l')) \/
     (exists a r, l = a :: r /\ (a = [] \/ a = B "-" \/ hd "-"%char a <> "-"%char) /\
       forall r', parse p (Some (pre ++ a :: r')) os = (ws, Positional (a :: r')))).
Proof.
  intros p input os ws l H. apply positional in H; auto. destruct H as (pre&E&H). exists pre. split; auto.
  destruct H as [H|[(pre0&E0&H)|(a&r&E0&Ha&H)]]; auto; right; [left|right].
  - exists pre0. split; auto. intros l'. apply H. auto.
  - exists a, r. split; auto. split; auto. intros r'. apply H. auto.
Qed.

(* ---- attached values ---- *)
Lemma apply_value_extends : forall p c v ws ws', apply_value p c v ws = inl ws' -> exists w, ws' = ws ++ [w].
Proof.
  intros p c v ws ws' H. unfold apply_value in H. destruct (assoc c (strings p)); [injection H as <-; eauto|].
  destruct (assoc c (ints p)); [|discriminate]. destruct (parse_int v); [|discriminate]. injection H as <-; eauto.
Qed.

Definition bundle_writes (r : bundle_result) : list write :=
  match r with BDone _ ws => ws | BErr _ ws => ws | BPanic ws => ws end.

Lemma bundle_extends : forall p arg l rest ws, exists more,
  bundle_writes (parse_bundle p arg l rest ws) = ws ++ more /\
  (forall rest' ws', parse_bundle p arg l rest ws = BDone rest' ws' -> length more = length l).
Proof.
  induction l as [|[j c] t IH]; intros rest ws.
  - exists []. split; [cbn; now rewrite List.app_nil_r|]. reflexivity.
  - rewrite bundle_step. 
    assert (K : forall w rest0, exists more, bundle_writes (parse_bundle p arg t rest0 (ws ++ [w])) = ws ++ more /\
      (forall rest' ws', parse_bundle p arg t rest0 (ws ++ [w]) = BDone rest' ws' -> length more = length ((j, c) :: t))).
    { intros w rest0. destruct (IH rest0 (ws ++ [w])) as (more&M1&M2). exists (w :: more).
      rewrite M1, <- List.app_assoc. split; auto. intros rest' ws' E. cbn [length]. f_equal. eapply M2; eauto. }
    assert (Z : forall r, bundle_writes r = ws -> (forall a b, r <> BDone a b) ->
      exists more, bundle_writes r = ws ++ more /\ (forall rest' ws', r = BDone rest' ws' -> length more = length ((j, c) :: t))).
    { intros r R N. exists []. rewrite List.app_nil_r. split; auto. intros a b E. now apply N in E. }
    destruct (assoc c (bools p)); [apply K|].
    destruct (skipn (j + 2) arg).
    + destruct rest as [|v rest]; [apply Z; [reflexivity|discriminate]|].
      destruct (apply_value p c v ws) as [ws1|] eqn:Ev; [|apply Z; [reflexivity|discriminate]].
      apply apply_value_extends in Ev as [w ->]. apply K.
    + destruct (apply_value p c (a :: l) ws) as [ws1|] eqn:Ev; [|apply Z; [reflexivity|discriminate]].
      apply apply_value_extends in Ev as [w ->]. apply K.
Qed.

Lemma parse_extends : forall f p input ws, exists more, fst (parse_from f p input ws) = ws ++ more.
Proof.
  induction f as [|f IH]; intros p input ws.
  - exists []. rewrite List.app_nil_r. destruct input; reflexivity.
  - destruct input as [|arg rest]; [exists []; now rewrite List.app_nil_r|]. rewrite parse_from_step.
    destruct (non_option arg); [exists []; now rewrite List.app_nil_r|].
    destruct (beqb arg (B "--")); [exists []; now rewrite List.app_nil_r|].
    destruct (bundle_extends p arg (range_runes (skipn 1 arg)) rest ws) as (more&M&_).
    destruct (parse_bundle _ _ _ _ _) as [rest' ws1| |]; cbn [bundle_writes] in M; subst.
    + destruct (IH p rest' (ws ++ more)) as [m2 E]. exists (more ++ m2). now rewrite E, List.app_assoc.
    + exists more; reflexivity.
    + exists more; reflexivity.
Qed.

Lemma range_runes_nonempty : forall b i, b <> [] -> exists r, In r (range_runes_from (length b) i b).
Proof.
  intros [|c b] i H; [congruence|]. cbn [length range_runes_from].
  destruct (decode_rune (c :: b)). eexists. left. reflexivity.
Qed.

(* the first flag of an argument, followed by text: *)
Lemma attached : forall p c a v rest os, (c < 128)%N -> is_string p c a -> v <> [] -> "-"%char :: ascii_of_N c :: v <> B "--" ->
  exists more, fst (parse p (Some ((B "-" ++ [ascii_of_N c] ++ v) :: rest)) os) = WStr a v :: more /\
    (forall l, snd (parse p (Some ((B "-" ++ [ascii_of_N c] ++ v) :: rest)) os) = Positional l -> more <> []).
Proof.
  intros p c a v rest os C (H1&H2) V Nd.
  change (B "-" ++ [ascii_of_N c] ++ v) with ("-"%char :: ascii_of_N c :: v).
  unfold parse. cbn [length]. rewrite parse_from_step.
  replace (non_option ("-"%char :: ascii_of_N c :: v)) with false by reflexivity.
  rewrite (proj2 (beqb_neq _ _) Nd). cbn [skipn].
  assert (RR : range_runes (ascii_of_N c :: v) = (0, c) :: range_runes_from (length v) 1 v).
  { unfold range_runes. change (ascii_of_N c :: v) with ([ascii_of_N c] ++ v). rewrite <- (encode_ascii c) by auto.
    rewrite range_runes_encode; [|unfold valid_rune; lia|auto]. rewrite encode_ascii by auto. reflexivity. }
  rewrite RR, bundle_step, H1.
  change (skipn (0 + 2) ("-"%char :: ascii_of_N c :: v)) with v. destruct v as [|x v']; [congruence|].
  unfold apply_value. rewrite H2. cbn [app].
  destruct (bundle_extends p ("-"%char :: ascii_of_N c :: x :: v') (range_runes_from (length (x :: v')) 1 (x :: v')) rest
    [WStr a (x :: v')]) as (more&M1&M2).
  destruct (parse_bundle _ _ _ _ _) as [rest' ws1|e ws1|ws1]; cbn [bundle_writes] in M1; subst ws1.
  - destruct (parse_extends (length rest) p rest' ([WStr a (x :: v')] ++ more)) as [m2 E].
    exists (more ++ m2). split; [exact E|]. intros l _.
    destruct (range_runes_nonempty (x :: v') 1) as [r R]; [discriminate|].
    specialize (M2 _ _ eq_refl). destruct more; [|discriminate]. cbn [length] in M2. destruct (range_runes_from _ _ _); [contradiction|discriminate].
  - exists more. split; [reflexivity|discriminate].
  - exists more. split; [reflexivity|discriminate].
Qed.

(* ---- errors ---- *)
Definition name_text (c : N) : bytes := encode_rune c.

Lemma bad_flag_from : forall p fs c v rest f ws, Forall (fun f => is_bool p (fst f) (snd f)) fs ->
  Forall valid_rune (map fst fs) -> valid_rune c ->
  assoc c (bools p) = None ->
  B "-" ++ string_of_runes (map fst fs) ++ encode_rune c ++ v <> B "--" ->
  parse_from (S f) p ((B "-" ++ string_of_runes (map fst fs) ++ encode_rune c ++ v) :: rest) ws =
  match parse_bundle p (B "-" ++ string_of_runes (map fst fs) ++ encode_rune c ++ v)
     ((length (string_of_runes (map fst fs)), c) :: range_runes_from (length v)
        (length (string_of_runes (map fst fs)) + length (encode_rune c)) v) rest (ws ++ map (fun f => WBool (snd f)) fs) with
       | BDone rest' ws' => parse_from f p rest' ws'
       | BErr e ws' => (ws', Fail e)
       | BPanic ws' => (ws', Crash)
       end.
Proof.
  intros p fs c v rest f ws F Vf Vc A Nd. rewrite parse_from_step.
  assert (No : non_option (B "-" ++ string_of_runes (map fst fs) ++ encode_rune c ++ v) = false).
  { change (B "-" ++ string_of_runes (map fst fs) ++ encode_rune c ++ v) with
      ("-"%char :: string_of_runes (map fst fs) ++ encode_rune c ++ v). unfold non_option. rewrite Ascii.eqb_refl.
    pose proof (encode_nonempty c). destruct (encode_rune c); [congruence|].
    destruct (string_of_runes (map fst fs)); reflexivity. }
  rewrite No, (proj2 (beqb_neq _ _) Nd).
  change (skipn 1 (B "-" ++ string_of_runes (map fst fs) ++ encode_rune c ++ v)) with
     (string_of_runes (map fst fs) ++ encode_rune c ++ v).
  assert (RR : forall l i, Forall valid_rune l ->
    range_runes_from (length (string_of_runes l ++ encode_rune c ++ v)) i (string_of_runes l ++ encode_rune c ++ v) =
    offsets i l ++ (i + length (string_of_runes l), c) ::
      range_runes_from (length v) (i + length (string_of_runes l) + length (encode_rune c)) v).
  { induction l as [|r l IH]; intros i Hl.
    - cbn [string_of_runes flat_map app offsets length]. rewrite range_runes_encode by auto. now rewrite Nat.add_0_r.
    - inversion Hl; subst. change (string_of_runes (r :: l)) with (encode_rune r ++ string_of_runes l).
      rewrite <- List.app_assoc. rewrite range_runes_encode by auto. cbn [offsets app]. rewrite IH by auto.
      rewrite List.app_length. rewrite !Nat.add_assoc. reflexivity. }
  unfold range_runes at 1. rewrite RR by auto. rewrite bundle_bools by auto. reflexivity.
Qed.

Lemma skipn_name : forall s (e v : bytes), e <> [] ->
  skipn (length s + 2) (B "-" ++ s ++ e ++ v) = skipn 1 e ++ v.
Proof.
  intros s e v H. change (B "-" ++ s ++ e ++ v) with ("-"%char :: s ++ e ++ v).
  replace (length s + 2) with (S (length s + 1)) by lia. cbn [skipn].
  rewrite skipn_app. rewrite skipn_all2 by lia.
  replace (length s + 1 - length s) with 1 by lia. cbn [app]. destruct e; [congruence|reflexivity].
Qed.

(* an unregistered flag *)
Lemma unknown_flag : forall p fs c v rest os, Forall (fun f => is_bool p (fst f) (snd f)) fs ->
  Forall valid_rune (map fst fs) -> valid_rune c -> unregistered p c ->
  B "-" ++ string_of_runes (map fst fs) ++ encode_rune c ++ v <> B "--" ->
  snd (parse p (Some ((B "-" ++ string_of_runes (map fst fs) ++ encode_rune c ++ v) :: rest)) os) =
  (if orb (128 <=? c)%N (orb (negb (beqb v [])) (match rest with [] => false | _ => true end)) then Fail err_unknown else Crash).
Proof.
  intros p fs c v rest os F Vf Vc (U1&U2&U3) Nd. unfold parse. cbn [length]. rewrite bad_flag_from by auto.
  rewrite bundle_step, U1. rewrite skipn_name by apply encode_nonempty.
  assert (AV : forall v' ws, apply_value p c v' ws = inr err_unknown).
  { intros. unfold apply_value. now rewrite U2, U3. }
  destruct (skipn 1 (encode_rune c) ++ v) as [|x r] eqn:E.
  - apply app_eq_nil in E as [E1 ->]. 
    destruct (128 <=? c)%N eqn:C.
    + pose proof (encode_length_gt1 c Vc ltac:(lia)). destruct (encode_rune c) as [|? [|? ?]]; cbn in *; try lia; discriminate.
    + cbn [beqb negb orb]. destruct rest; [reflexivity|]. now rewrite AV.
  - rewrite AV. cbn [snd]. destruct (128 <=? c)%N eqn:C; [reflexivity|]. rewrite encode_ascii in E by lia.
    cbn [skipn app] in E. subst v. reflexivity.
Qed.

(* a value flag at the very end *)
Lemma missing_value : forall p fs c os, Forall (fun f => is_bool p (fst f) (snd f)) fs ->
  Forall valid_rune (map fst fs) -> (c < 128)%N -> assoc c (bools p) = None ->
  map fst fs ++ [c] <> [45%N] ->
  snd (parse p (Some [B "-" ++ string_of_runes (map fst fs ++ [c])]) os) = Crash.
Proof.
  intros p fs c os F Vf C A Nd. rewrite string_app. unfold string_of_runes at 2. cbn [flat_map].
  assert (Vc : valid_rune c) by (unfold valid_rune; lia).
  assert (N2 : B "-" ++ string_of_runes (map fst fs) ++ encode_rune c ++ [] <> B "--").
  { intros Q. change (B "--") with ("-"%char :: ["-"%char]) in Q. injection Q as Q. apply Nd.
    assert (R : runes_of (string_of_runes (map fst fs ++ [c])) = [45%N]).
    { rewrite string_app. unfold string_of_runes at 2. cbn [flat_map]. rewrite Q. reflexivity. }
    rewrite runes_of_string in R; auto. apply Forall_app. auto. }
  unfold parse. cbn [length]. rewrite bad_flag_from by auto.
  rewrite bundle_step, A, skipn_name by apply encode_nonempty. rewrite encode_ascii by auto. reflexivity.
Qed.

(* integer flags *)
Lemma int_flag : forall p c a t rest os, (c < 128)%N -> c <> 45%N -> is_int p c a ->
  (forall z, int64_text t z -> exists more, fst (parse p (Some ([ "-"%char; ascii_of_N c] :: t :: rest)) os) = WInt a z :: more) /\
  (forall tail, ends_options tail rest -> forall z, int64_text t z ->
     parse p (Some ([ "-"%char; ascii_of_N c] :: t :: tail)) os = ([WInt a z], Positional rest)) /\
  ((forall z, ~ int64_text t z) ->
     parse p (Some ([ "-"%char; ascii_of_N c] :: t :: rest)) os = ([], Fail err_non_int)).
Proof.
  intros p c a t rest os C Nd (I1&I2&I3). assert (Vc : valid_rune c) by (unfold valid_rune; lia).
  assert (St : forall r, parse p (Some (["-"%char; ascii_of_N c] :: t :: r)) os =
     match parse_int t with Some z => parse_from (S (length r)) p r [WInt a z] | None => ([], Fail err_non_int) end).
  { intros r. unfold parse. cbn [length]. rewrite parse_from_step.
    replace (non_option ["-"%char; ascii_of_N c]) with false by reflexivity.
    assert (Q : beqb ["-"%char; ascii_of_N c] (B "--") = false).
    { apply beqb_neq. intros Q. change (B "--") with ["-"%char; "-"%char] in Q. injection Q as Q. apply Nd.
      rewrite <- (N_ascii_embedding c) by lia. rewrite Q. reflexivity. }
    rewrite Q. cbn [skipn]. rewrite <- (encode_ascii c) by auto.
    unfold range_runes. rewrite <- (List.app_nil_r (encode_rune c)). rewrite range_runes_encode by auto.
    cbn [length range_runes_from app]. rewrite bundle_step, I1. rewrite encode_ascii by auto.
    cbn [Nat.add skipn app]. unfold apply_value. rewrite I2, I3.
    destruct (parse_int t); reflexivity. }
  split; [|split].
  - intros z Hz. rewrite St. apply parse_int_spec in Hz. rewrite Hz.
    destruct (parse_extends (S (length rest)) p rest [WInt a z]) as [more E]. exists more. now rewrite E.
  - intros tail E z Hz. rewrite St. apply parse_int_spec in Hz. rewrite Hz. apply ends_parse; auto.
  - intros Hn. rewrite St. destruct (parse_int t) as [z|] eqn:P; [|reflexivity].
    apply parse_int_spec in P. now apply Hn in P.
Qed.

(* ---- the writes made before do not matter ---- *)
Definition add_writes (w0 : list write) (r : bundle_result) : bundle_result :=
  match r with BDone rest ws => BDone rest (w0 ++ ws) | BErr e ws => BErr e (w0 ++ ws) | BPanic ws => BPanic (w0 ++ ws) end.

Lemma apply_value_prefix : forall p c v w0 ws, apply_value p c v (w0 ++ ws) =
  match apply_value p c v ws with inl ws' => inl (w0 ++ ws') | inr e => inr e end.
Proof.
  intros. unfold apply_value. destruct (assoc c (strings p)); [now rewrite List.app_assoc|].
  destruct (assoc c (ints p)); auto. destruct (parse_int v); auto. now rewrite List.app_assoc.
Qed.

Lemma bundle_prefix : forall p arg l rest w0 ws,
  parse_bundle p arg l rest (w0 ++ ws) = add_writes w0 (parse_bundle p arg l rest ws).
Proof.
  induction l as [|[j c] t IH]; intros rest w0 ws; [reflexivity|]. rewrite !bundle_step.
  destruct (assoc c (bools p)).
  - rewrite <- List.app_assoc. apply IH.
  - destruct (skipn (j + 2) arg).
    + destruct rest as [|v rest]; [reflexivity|]. rewrite apply_value_prefix.
      destruct (apply_value p c v ws); [apply IH|reflexivity].
    + rewrite apply_value_prefix. destruct (apply_value _ _ _ ws); [apply IH|reflexivity].
Qed.

Lemma parse_prefix : forall f p input w0 ws, parse_from f p input (w0 ++ ws) =
  (w0 ++ fst (parse_from f p input ws), snd (parse_from f p input ws)).
Proof.
  induction f as [|f IH]; intros p input w0 ws; destruct input as [|arg rest]; try reflexivity.
  rewrite !parse_from_step. destruct (non_option arg); [reflexivity|]. destruct (beqb arg (B "--")); [reflexivity|].
  rewrite bundle_prefix. destruct (parse_bundle p arg (range_runes (skipn 1 arg)) rest ws); cbn [add_writes]; auto.
Qed.

(* ---- a value flag with a non-ASCII name takes the rest of its own name ---- *)
Lemma encode_wide : forall c, (128 <= c)%N -> exists b0 b1 r, encode_rune c = b0 :: b1 :: r /\ (128 <= N_of_ascii b1)%N.
Proof.
  intros c L. unfold encode_rune. replace (c <? 128)%N with false by lia.
  assert (G : forall x, (x < 64)%N -> (128 <= N_of_ascii (ascii_of_N (128 + x)))%N).
  { intros x X. rewrite N_ascii_embedding; lia. }
  assert (M : forall x, (x mod 64 < 64)%N) by (intros; apply N.mod_lt; discriminate).
  destruct (c <? 2048)%N; [do 3 eexists; split; [reflexivity|auto]|].
  destruct ((55296 <=? c) && (c <=? 57343))%N; [do 3 eexists; split; [reflexivity|vm_compute; discriminate]|].
  destruct (c <? 65536)%N; [do 3 eexists; split; [reflexivity|auto]|].
  destruct (c <? 1114112)%N; do 3 eexists; (split; [reflexivity|]); auto. vm_compute. discriminate.
Qed.

Lemma parse_int_wide : forall b r, (128 <= N_of_ascii b)%N -> parse_int (b :: r) = None.
Proof.
  intros b r L. unfold parse_int.
  assert (N : forall x, (N_of_ascii x < 128)%N -> Ascii.eqb b x = false).
  { intros x X. apply Ascii.eqb_neq. intros ->. lia. }
  rewrite !N by reflexivity. cbn [parse_uint]. rewrite N by reflexivity. cbn [base_val].
  unfold digit36, byte_val. replace ((48 <=? N_of_ascii b) && (N_of_ascii b <=? 57))%N with false by lia.
  replace ((97 <=? N_of_ascii b) && (N_of_ascii b <=? 122))%N with false by lia.
  replace ((65 <=? N_of_ascii b) && (N_of_ascii b <=? 90))%N with false by lia. reflexivity.
Qed.

Lemma wide_value : forall p gs g f rest os, Forall (group_ok p) gs ->
  Forall (fun g => match value g with Some f => (vname f < 128)%N | None => True end) gs ->
  group_ok p g -> value g = Some f -> (128 <= vname f)%N ->
  parse p (Some (flat_map group_args gs ++ (B "-" ++ string_of_runes (names g)) :: rest)) os =
  let ws := flat_map group_writes gs ++ map (fun f => WBool (snd f)) (flags g) in
  match f with
  | VStr c a _ => (ws ++ WStr a (tl (encode_rune c)) :: fst (parse p (Some rest) os), snd (parse p (Some rest) os))
  | VInt _ _ _ _ => (ws, Fail err_non_int)
  end.
Proof.
  intros p gs g f rest os G A (N1&N2&V&F&Q) E W. cbv zeta.
  assert (R : forall gs ws f0, Forall (group_ok p) gs -> Forall ascii_value gs -> forall tail,
    (length (flat_map group_args gs ++ tail) <= f0)%nat ->
    parse_from f0 p (flat_map group_args gs ++ tail) ws = parse_from (length tail) p tail (ws ++ flat_map group_writes gs)).
  { clear. induction gs as [|g gs IH]; intros ws f0 G A tail L.
    - cbn [flat_map app] in *. rewrite List.app_nil_r. apply parse_fuel; auto.
    - inversion G as [|? ? Hg Hgs]; subst. inversion A as [|? ? Ha Has]; subst.
      cbn [flat_map] in *. rewrite <- List.app_assoc in *. unfold group_args at 1. unfold group_args at 1 in L.
      cbn [app length] in *. destruct f0 as [|f0]; [lia|]. rewrite parse_from_step.
      destruct (group_not_end p g Hg) as [-> ->].
      change (skipn 1 (B "-" ++ string_of_runes (names g))) with (string_of_runes (names g)).
      rewrite group_bundle by auto. rewrite List.app_length in L.
      rewrite IH by (auto; lia). now rewrite List.app_assoc. }
  unfold parse at 1. rewrite R by auto. cbn [app]. clear R. cbn [length]. rewrite parse_from_step.
  destruct (group_not_end p g) as [E1 E2]; [split; auto|]. rewrite E1, E2. clear E1 E2.
  change (skipn 1 (B "-" ++ string_of_runes (names g))) with (string_of_runes (names g)).
  rewrite range_runes_str by auto. unfold names in *. rewrite E in *.
  rewrite offsets_snoc, bundle_bools by auto. rewrite bundle_step.
  destruct (vflag_apply p f [] Q) as [E1 _]. rewrite E1.
  destruct (encode_wide (vname f) W) as (b0&b1&r&Ec&Lb).
  assert (Sk : skipn (0 + length (string_of_runes (map fst (flags g))) + 2)
     (B "-" ++ string_of_runes (map fst (flags g) ++ [vname f])) = b1 :: r).
  { rewrite string_app. unfold string_of_runes at 3. cbn [flat_map]. rewrite Ec, List.app_nil_r.
    change (B "-" ++ ?x) with ("-"%char :: x).
    replace (0 + length (string_of_runes (map fst (flags g))) + 2)%nat with
      (S (length (string_of_runes (map fst (flags g))) + 1)) by lia.
    cbn [skipn]. rewrite skipn_app, skipn_past by lia.
    replace (_ + 1 - _)%nat with 1%nat by lia. reflexivity. }
  rewrite Sk. destruct f as [c a v|c a t z]; cbn [vname vflag_ok] in *.
  - destruct Q as [_ Q]. unfold apply_value. rewrite Q. cbn [parse_bundle]. rewrite Ec. cbn [tl].
    set (w0 := (flat_map group_writes gs ++ _) ++ _).
    rewrite <- (List.app_nil_r w0) at 1. rewrite parse_prefix. unfold w0. unfold parse.
    now rewrite <- !List.app_assoc.
  - destruct Q as [(_&Q1&Q2) _]. unfold apply_value. rewrite Q1, Q2, parse_int_wide by auto. reflexivity.
Qed.

(* ---- registration ---- *)
Lemma assoc_snoc : forall (f : parser -> list (N * nat)) k c l,
  (forall p r, f (register p r) = if match r_kind r, k with KBool, KBool | KString, KString | KInt, KInt => true | _, _ => false end
                                  then (r_name r, r_var r) :: f p else f p) -> f new_parser = [] ->
  (forall a, assoc c (f (registered l)) = Some a <-> last_as k c a l) /\ (assoc c (f (registered l)) = None <-> never_as k c l).
Proof.
  intros f k c l H E. induction l as [|r l IH] using rev_ind.
  - unfold registered. cbn [fold_left]. rewrite E. cbn. split.
    + intros a. split; [discriminate|]. intros (b&d&Q&_). now destruct b.
    + split; auto. intros _ r [].
  - unfold registered. rewrite fold_left_app. cbn [fold_left]. fold (registered l). rewrite H.
    set (g := match r_kind r, k with KBool, KBool | KString, KString | KInt, KInt => true | _, _ => false end).
    assert (G : g = true <-> r_kind r = k).
    { unfold g. destruct (r_kind r), k; split; intros Q; try reflexivity; discriminate Q. }
    assert (Other : (r_kind r = k -> r_name r <> c) ->
      (forall a, last_as k c a (l ++ [r]) <-> last_as k c a l) /\ (never_as k c (l ++ [r]) <-> never_as k c l)).
    { intros N. split.
      - intros a. split.
        + intros (b&d&Q&L). destruct d as [|z d _] using rev_ind.
          * apply app_inj_tail in Q as [_ ->]. cbn in N. exfalso. now apply N.
          * rewrite app_comm_cons, app_assoc in Q. apply app_inj_tail in Q as [-> ->]. exists b, d. split; auto.
            intros z' I. apply L. apply in_or_app. now left.
        + intros (b&d&->&L). exists b, (d ++ [r]). split; [now rewrite <- app_assoc|]. intros z I.
          apply in_app_or in I as [I|[<-|[]]]; auto.
      - split; intros L z I; [apply L; apply in_or_app; now left|]. apply in_app_or in I as [I|[<-|[]]]; auto. }
    destruct IH as [I1 I2]. destruct g.
    + assert (K : r_kind r = k) by now apply G. unfold assoc. cbn [find fst]. destruct (N.eqb_spec (r_name r) c) as [C|C].
      * cbn [option_map snd]. split.
        -- intros a. split.
           ++ intros [= <-]. exists l, []. split; [|intros z []]. subst k c. now destruct r.
           ++ intros (b&d&Q&L). destruct d as [|z d _] using rev_ind.
              ** apply app_inj_tail in Q as [_ ->]. reflexivity.
              ** rewrite app_comm_cons, app_assoc in Q. apply app_inj_tail in Q as [_ ->]. exfalso. apply (L z); auto. apply in_or_app. right. now left.
        -- split; [discriminate|]. intros L. exfalso. apply (L r); auto. apply in_or_app. right. now left.
      * fold (assoc c (f (registered l))). destruct Other as [O1 O2]; auto. split; [intros a; now rewrite O1|now rewrite O2].
    + destruct Other as [O1 O2]; [intros K; apply G in K; discriminate|]. split; [intros a; now rewrite O1|now rewrite O2].
Qed.
Lemma registered_bool : forall l c, (forall a, assoc c (bools (registered l)) = Some a <-> last_as KBool c a l) /\
  (assoc c (bools (registered l)) = None <-> never_as KBool c l).
Proof. intros. apply assoc_snoc; auto. intros p [[] n a]; reflexivity. Qed.
Lemma registered_string : forall l c, (forall a, assoc c (strings (registered l)) = Some a <-> last_as KString c a l) /\
  (assoc c (strings (registered l)) = None <-> never_as KString c l).
Proof. intros. apply assoc_snoc; auto. intros p [[] n a]; reflexivity. Qed.
Lemma registered_int : forall l c, (forall a, assoc c (ints (registered l)) = Some a <-> last_as KInt c a l) /\
  (assoc c (ints (registered l)) = None <-> never_as KInt c l).
Proof. intros. apply assoc_snoc; auto. intros p [[] n a]; reflexivity. Qed.
