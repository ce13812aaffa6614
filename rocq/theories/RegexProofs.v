From Verif Require Import GoBase GoFacts NumFacts Utf8Facts RegexModel RegexSpec.

(* ---- matching ---- *)
Lemma el_matches_spec : forall e r, el_matches e r = true <-> accepts e r.
Proof.
  intros [c| |cs] r; cbn.
  - rewrite N.eqb_eq. split; auto.
  - split; auto.
  - rewrite existsb_exists. split.
    + intros (x&H&E). apply N.eqb_eq in E. now subst.
    + intros H. exists r. split; auto. apply N.eqb_refl.
Qed.

Lemma count_loop_ge : forall e mn l k, (mn <= Z.of_nat k)%Z ->
  exists k', count_loop e mn l k = Some k' /\ k <= k' <= k + length l.
Proof.
  induction l as [|r t IH]; intros k H; cbn [count_loop length].
  - exists k. split; auto. lia.
  - destruct (el_matches e r).
    + destruct (IH (S k)) as (k'&E&L); [lia|]. exists k'. split; auto. lia.
    + replace (Z.of_nat k <? mn)%Z with false by lia. destruct (IH k H) as (k'&E&L). exists k'. split; auto. lia.
Qed.

Lemma count_loop_app : forall e mn u t k, Forall (accepts e) u ->
  count_loop e mn (u ++ t) k = count_loop e mn t (k + length u).
Proof.
  induction u as [|r u IH]; intros t k H; cbn [app count_loop length].
  - now rewrite Nat.add_0_r.
  - inversion H; subst. apply el_matches_spec in H2. rewrite H2, IH by auto. f_equal. lia.
Qed.

Lemma count_loop_le : forall e mn l k k', count_loop e mn l k = Some k' -> k <= k' <= k + length l.
Proof.
  induction l as [|r t IH]; intros k k' H; cbn [count_loop length] in *.
  - injection H as <-. lia.
  - destruct (el_matches e r); [apply IH in H; lia|].
    destruct (Z.of_nat k <? mn)%Z; [discriminate|]. apply IH in H. lia.
Qed.

(* as long as no more than the minimum can be reached, all runes must match *)
Lemma count_loop_exact : forall e mn l k k', (Z.of_nat (k + length l) <= mn)%Z ->
  count_loop e mn l k = Some k' -> Forall (accepts e) l /\ k' = k + length l.
Proof.
  induction l as [|r t IH]; intros k k' L H; cbn [count_loop length] in *.
  - injection H as <-. split; auto.
  - destruct (el_matches e r) eqn:E.
    + apply IH in H as [H1 ->]; [|lia]. split; [|lia]. constructor; auto. now apply el_matches_spec.
    + replace (Z.of_nat k <? mn)%Z with true in H by lia. discriminate.
Qed.

Lemma backtrack_unfold : forall f mn i, backtrack f mn i =
  if (Z.of_nat i <? mn)%Z then (false, 0)
  else if fst (f i) then (true, snd (f i) + i)
  else match i with O => (false, 0) | S i' => backtrack f mn i' end.
Proof. intros f mn [|i]; cbn [backtrack]; destruct (f _); reflexivity. Qed.

Lemma backtrack_finds : forall f mn i i0, (mn <= Z.of_nat i0)%Z -> i0 <= i -> fst (f i0) = true ->
  fst (backtrack f mn i) = true.
Proof.
  induction i as [|i IH]; intros i0 M L F; rewrite backtrack_unfold.
  - replace i0 with 0 in * by lia. replace (Z.of_nat 0 <? mn)%Z with false by lia. rewrite F. reflexivity.
  - replace (Z.of_nat (S i) <? mn)%Z with false by lia. destruct (fst (f (S i))) eqn:E; [reflexivity|].
    apply (IH i0); auto. assert (i0 <> S i) by congruence. lia.
Qed.

Lemma backtrack_inv : forall f mn i n, backtrack f mn i = (true, n) ->
  exists i0, (mn <= Z.of_nat i0)%Z /\ i0 <= i /\ fst (f i0) = true /\ n = snd (f i0) + i0.
Proof.
  induction i as [|i IH]; intros n H; rewrite backtrack_unfold in H.
  - destruct (Z.of_nat 0 <? mn)%Z eqn:M; [discriminate|]. destruct (fst (f 0)) eqn:E; [|discriminate].
    injection H as <-. exists 0. repeat split; auto; lia.
  - destruct (Z.of_nat (S i) <? mn)%Z eqn:M; [discriminate|]. destruct (fst (f (S i))) eqn:E.
    + injection H as <-. exists (S i). repeat split; auto; lia.
    + apply IH in H as (i0&H1&H2&H3&H4). exists i0. repeat split; auto; lia.
Qed.

Lemma elementsMatch_cons : forall e c es runes, elementsMatch ((e, c) :: es) runes =
  match count_loop e (cmin c) (firstn (Z.to_nat (Z.min (cmax c) (Z.of_nat (List.length runes)))) runes) 0 with
  | None => (false, 0)
  | Some matched => backtrack (fun i => elementsMatch es (skipn i runes)) (cmin c) matched
  end.
Proof. reflexivity. Qed.

Lemma elementsMatch_len : forall es l n, elementsMatch es l = (true, n) -> n = length l.
Proof.
  induction es as [|[e c] es IH]; intros l n H.
  - cbn in H. now injection H as <-.
  - rewrite elementsMatch_cons in H. destruct (count_loop _ _ _ _) as [m|] eqn:E; [|discriminate].
    apply count_loop_le in E. apply backtrack_inv in H as (i0&_&H2&H3&->).
    destruct (elementsMatch es (skipn i0 l)) as [b k] eqn:Q. cbn [fst snd] in *. subst b.
    apply IH in Q. rewrite skipn_length in Q.
    assert (length (firstn (Z.to_nat (Z.min (cmax c) (Z.of_nat (length l)))) l) <= length l)
      by (rewrite firstn_length; lia). lia.
Qed.

Lemma elementsMatch_complete : forall es m v, spells es m -> fst (elementsMatch es (m ++ v)) = true.
Proof.
  induction es as [|[e c] es IH]; intros m v H.
  - reflexivity.
  - inversion H as [|? ? ? u w A C S]; subst. rewrite elementsMatch_cons.
    set (K := Z.to_nat (Z.min (cmax c) (Z.of_nat (length ((u ++ w) ++ v))))).
    assert (LK : length u <= K) by (unfold K; rewrite !app_length; lia).
    assert (E : firstn K ((u ++ w) ++ v) = u ++ firstn (K - length u) (w ++ v)).
    { rewrite <- app_assoc, firstn_app. rewrite (firstn_all2 u) by lia. reflexivity. }
    rewrite E, count_loop_app by auto.
    destruct (count_loop_ge e (cmin c) (firstn (K - length u) (w ++ v)) (0 + length u)) as (k'&Ek&Lk); [lia|].
    rewrite Ek. apply (backtrack_finds _ _ _ (length u)); [lia|lia|].
    rewrite <- app_assoc, skipn_len_app. now apply IH.
Qed.

(* the runes counted first, up to the minimum, all match *)
Lemma count_loop_first : forall e mn l k k', count_loop e mn l k = Some k' -> (mn <= Z.of_nat k')%Z ->
  Forall (accepts e) (firstn (Z.to_nat (mn - Z.of_nat k)) l).
Proof.
  induction l as [|r t IH]; intros k k' H L; cbn [count_loop] in H.
  - rewrite firstn_nil. constructor.
  - destruct (Z_le_gt_dec mn (Z.of_nat k)).
    { replace (Z.to_nat (mn - Z.of_nat k)) with 0 by lia. constructor. }
    destruct (el_matches e r) eqn:E.
    + replace (Z.to_nat (mn - Z.of_nat k)) with (S (Z.to_nat (mn - Z.of_nat (S k)))) by lia.
      cbn [firstn]. constructor; [now apply el_matches_spec|]. eapply IH; eauto.
    + replace (Z.of_nat k <? mn)%Z with true in H by lia. discriminate.
Qed.

Lemma spells_optional : forall es, Forall (fun o => cmin (snd o) = 0%Z) es ->
  Forall (fun d => (0 <= cmax (snd d))%Z) es -> spells es [].
Proof.
  induction es as [|[e c] es IH]; intros H P; [constructor|]. inversion H; inversion P; subst. cbn [snd] in *.
  apply (sp_cons e c es [] []); [constructor|cbn; lia|auto].
Qed.

Lemma elementsMatch_sound : forall es l n, Forall (fun d => (0 <= cmin (snd d) /\ 0 <= cmax (snd d))%Z) es ->
  exact_elements es -> elementsMatch es l = (true, n) -> exists m v, l = m ++ v /\ spells es m.
Proof.
  induction es as [|[e c] es IH]; intros l n P F H.
  - exists [], l. split; auto. constructor.
  - inversion P as [|? ? [Pos0 Pos] Ps]; subst. cbn [snd] in Pos, Pos0. rewrite elementsMatch_cons in H.
    set (K := Z.to_nat (Z.min (cmax c) (Z.of_nat (length l)))) in *.
    destruct (count_loop _ _ _ _) as [m|] eqn:E; [|discriminate].
    apply backtrack_inv in H as (i0&H1&H2&H3&_).
    pose proof (count_loop_le _ _ _ _ _ E) as Lm.
    assert (LK : length (firstn K l) <= length l) by (rewrite firstn_length; lia).
    assert (LK2 : (Z.of_nat (length (firstn K l)) <= cmax c)%Z) by (rewrite firstn_length; unfold K; lia).
    inversion F as [|? ? Fd Fs|? ? Fo]; subst.
    + destruct (elementsMatch es (skipn i0 l)) as [b k] eqn:Q. cbn [fst] in H3. subst b.
      destruct (IH _ _ Ps Fs Q) as (m'&v&E1&S).
      exists (firstn i0 l ++ m'), v. split.
      * rewrite <- app_assoc, <- E1, firstn_skipn. reflexivity.
      * constructor; auto.
        -- destruct Fd as [Fd|Fd]; cbn [fst snd] in Fd.
           ++ apply count_loop_exact in E as [E _]; [|lia].
              apply Forall_forall. intros x Hx. rewrite Forall_forall in E. apply E.
              assert (i0 <= K). { pose proof (firstn_le_length K l). lia. }
              rewrite <- (Nat.min_l i0 K) in Hx by auto. rewrite <- firstn_firstn in Hx.
              rewrite <- (firstn_skipn i0 (firstn K l)). apply in_or_app. auto.
           ++ subst e. apply Forall_forall. intros. exact I.
        -- rewrite firstn_length. lia.
    + exists (firstn (Z.to_nat (cmin c)) l ++ []), (skipn (Z.to_nat (cmin c)) l). split.
      * rewrite List.app_nil_r, firstn_skipn. reflexivity.
      * apply sp_cons.
        -- apply count_loop_first in E; [|lia]. rewrite Z.sub_0_r, firstn_firstn in E.
           rewrite Nat.min_l in E; auto. rewrite firstn_length in *. lia.
        -- rewrite firstn_length. lia.
        -- apply spells_optional; auto. eapply Forall_impl; [|exact Ps]. cbv beta. tauto.
Qed.

(* ---- parsing ---- *)
Lemma read_loop_bound : forall l stop j k, read_loop l stop j = Some k -> j <= k < j + length l.
Proof.
  intros l stop. assert (C : exists n, length l <= n) by eauto. destruct C as [n L]. revert l L.
  induction n as [|n IH]; intros l L j k H.
  - destruct l; [discriminate|cbn in L; lia].
  - destruct l as [|r t]; [discriminate|]. cbn [length] in *. cbn [read_loop] in H.
    destruct (N.eqb r c_bslash).
    + destruct t as [|r' t']; [discriminate|]. cbn [length] in *. apply IH in H; lia.
    + destruct (N.eqb r stop); [injection H as <-; lia|]. apply IH in H; lia.
Qed.

Lemma readUntil_bound : forall l stop k, readUntil l stop = Ok k -> k < length l.
Proof.
  intros [|r t] stop k H; [discriminate|]. unfold readUntil in H.
  destruct (N.eqb r stop); [injection H as <-; cbn; lia|].
  destruct (read_loop _ _ _) eqn:E; [|discriminate]. injection H as <-. apply read_loop_bound in E. lia.
Qed.

Lemma read_loop_none : forall l stop j, ~ In stop l -> read_loop l stop j = None.
Proof.
  intros l stop. remember (length l) as n eqn:E. assert (L : length l <= n) by lia. clear E. revert l L.
  induction n as [|n IH]; intros l L j H.
  - destruct l; [reflexivity|cbn in L; lia].
  - destruct l as [|r t]; [reflexivity|]. cbn [length In] in *. cbn [read_loop].
    destruct (N.eqb r c_bslash).
    + destruct t as [|r' t']; [reflexivity|]. cbn [length In] in *. apply IH; [lia|tauto].
    + destruct (N.eqb_spec r stop); [subst; tauto|]. apply IH; [lia|tauto].
Qed.

Lemma readUntil_none : forall l stop, ~ In stop l -> exists r, readUntil l stop = r /\ (forall k, r <> Ok k).
Proof.
  intros l stop H. eexists. split; [reflexivity|]. intros k. destruct l as [|r t]; [discriminate|].
  unfold readUntil. rewrite read_loop_none by auto. destruct (N.eqb_spec r stop); [subst; cbn in H; tauto|discriminate].
Qed.

Lemma read_loop_found : forall u stop v j, stop <> c_bslash -> ~ In stop u -> ~ In c_bslash u ->
  read_loop (u ++ stop :: v) stop j = Some (j + length u).
Proof.
  induction u as [|r u IH]; intros stop v j N H1 H2; cbn [app read_loop length In] in *.
  - destruct (N.eqb_spec stop c_bslash); [contradiction|]. rewrite N.eqb_refl. f_equal. lia.
  - destruct (N.eqb_spec r c_bslash); [subst; tauto|]. destruct (N.eqb_spec r stop); [subst; tauto|].
    rewrite IH by tauto. f_equal. lia.
Qed.

Lemma readUntil_found : forall u stop v, stop <> c_bslash -> ~ In stop u -> ~ In c_bslash u ->
  readUntil (u ++ stop :: v) stop = Ok (length u).
Proof.
  intros u stop v N H1 H2. unfold readUntil. rewrite read_loop_found by auto.
  destruct u as [|r u]; cbn [app length].
  - now rewrite N.eqb_refl.
  - destruct (N.eqb_spec r stop); [subst; cbn in H1; tauto|]. reflexivity.
Qed.

Lemma parseCount_bound : forall l c n, parseCount l = Ok (c, n) -> n <= length l.
Proof.
  intros [|r t] c n H; cbn [parseCount] in H.
  - injection H as <- <-. lia.
  - destruct (N.eqb r c_lbrace).
    + destruct (readUntil t c_rbrace) as [k| |] eqn:E; try discriminate. apply readUntil_bound in E.
      destruct (breCountRe _) as [g|]; [|discriminate]. destruct g; unfold rbind in H;
        repeat match type of H with context [match ?x with _ => _ end] => destruct x; try discriminate end;
        injection H as <- <-; cbn [length]; lia.
    + destruct (N.eqb r c_star); injection H as <- <-; cbn [length]; lia.
Qed.

Definition continue_with (f : nat) (e : element) (rest : list N) : res (list dupl) :=
  rbind (add_count e rest) (fun '(d, rest') => rbind (parse_elements f rest') (fun ds => Ok (d :: ds))).

Lemma parse_elements_cons : forall f r t, parse_elements (S f) (r :: t) =
  if N.eqb r c_lbrack then
    match readUntil t c_rbrack with
    | Ok n => continue_with f (Bracket (firstn n t)) (skipn (n + 1) t)
    | _ => Panic
    end
  else if N.eqb r c_lparen || N.eqb r c_rparen then parse_elements f t
  else if N.eqb r c_dot then continue_with f Wildcard t
  else continue_with f (Plain r) t.
Proof. reflexivity. Qed.

Lemma add_count_len : forall e l d rest, add_count e l = Ok (d, rest) -> length rest <= length l.
Proof.
  intros e l d rest H. unfold add_count, rbind in H. destruct (parseCount l) as [[c n]| |]; try discriminate.
  injection H as <- <-. rewrite skipn_length. lia.
Qed.

Lemma parse_elements_fuel : forall f f' l, length l <= f -> length l <= f' -> parse_elements f l = parse_elements f' l.
Proof.
  induction f as [|f IH]; intros f' l H H'.
  - destruct l; [|cbn in H; lia]. destruct f'; reflexivity.
  - destruct l as [|r t]; [destruct f'; reflexivity|]. destruct f' as [|f']; [cbn in H'; lia|].
    cbn [length] in *. rewrite !parse_elements_cons.
    assert (C : forall e rest, length rest <= length t -> continue_with f e rest = continue_with f' e rest).
    { intros e rest L. unfold continue_with, rbind. destruct (add_count e rest) as [[d rest']| |] eqn:E; auto.
      apply add_count_len in E. rewrite (IH f') by lia. reflexivity. }
    destruct (N.eqb r c_lbrack).
    + destruct (readUntil t c_rbrack) as [n| |]; auto. apply C. rewrite skipn_length. lia.
    + destruct (_ || _)%bool; [apply IH; lia|]. destruct (N.eqb r c_dot); apply C; lia.
Qed.

(* the fuel always suffices: the only error is a panic *)
Lemma parseCount_no_err : forall l x, parseCount l <> Err x.
Proof.
  intros [|r t] x; cbn [parseCount]; [discriminate|]. destruct (N.eqb r c_lbrace).
  - destruct (readUntil t c_rbrace); try discriminate. destruct (breCountRe _) as [g|]; [|discriminate].
    destruct g; unfold rbind, mustBeInt; repeat (destruct (atoi _)); discriminate.
  - destruct (N.eqb r c_star); discriminate.
Qed.
Lemma parse_elements_no_err : forall f l x, length l <= f -> parse_elements f l <> Err x.
Proof.
  induction f as [|f IH]; intros l x H.
  - destruct l; [discriminate|cbn in H; lia].
  - destruct l as [|r t]; [discriminate|]. cbn [length] in *. rewrite parse_elements_cons.
    assert (C : forall e rest, length rest <= length t -> continue_with f e rest <> Err x).
    { intros e rest L. unfold continue_with. destruct (add_count e rest) as [[d rest']| |] eqn:E.
      - apply add_count_len in E. cbn [rbind]. pose proof (IH rest' x ltac:(lia)) as Q.
        destruct (parse_elements f rest'); cbn [rbind]; congruence.
      - unfold add_count in E. pose proof (parseCount_no_err rest) as Q.
        destruct (parseCount rest) as [[c n]|e0|]; cbn [rbind] in E; try congruence. now destruct (Q e0).
      - discriminate. }
    destruct (N.eqb r c_lbrack).
    + destruct (readUntil t c_rbrack) as [n| |]; try discriminate. apply C. rewrite skipn_length. lia.
    + destruct (_ || _)%bool; [apply IH; lia|]. destruct (N.eqb r c_dot); apply C; lia.
Qed.

Lemma dec_runes_digits : forall m, (0 <= m)%Z -> digits (dec_runes m).
Proof.
  intros m H. unfold dec_runes, itoa. replace (m <? 0)%Z with false by lia. split.
  - intros E. apply map_eq_nil in E. now apply utoa_nonempty in E.
  - apply Forall_forall. intros r I. apply in_map_iff in I as (c&<-&I). apply utoa_digits in I as [d D].
    apply digit_of_spec in D as [D _]. exact D.
Qed.
Lemma dec_runes_atoi : forall m, (0 <= m)%Z -> atoi (string_of_runes (dec_runes m)) =
  if (m <=? max_int64)%Z then Some m else None.
Proof.
  intros m H. pose proof (dec_runes_digits m H) as [_ D]. unfold dec_runes in *.
  rewrite string_of_ascii_runes.
  - rewrite map_map. rewrite (map_ext _ (fun x => x)) by apply ascii_N_embedding. rewrite map_id.
    unfold atoi. rewrite parse_dec_itoa. unfold in_int64. replace (min_int64 <=? m)%Z with true by (unfold min_int64; lia).
    reflexivity.
  - eapply Forall_impl; [|exact D]. cbv beta. intros; lia.
Qed.
Lemma digits_atoi_nonneg : forall d z, digits d -> atoi (string_of_runes d) = Some z -> (0 <= z)%Z.
Proof.
  intros d z [Ne D] H. rewrite string_of_ascii_runes in H.
  2: eapply Forall_impl; [|exact D]; cbv beta; intros; lia.
  apply atoi_spec in H as [(sgn&ds&E&_&_&[[_ ->]|[-> _]]) _]; [lia|].
  destruct d as [|r d]; [contradiction|]. cbn [map app B list_ascii_of_string] in E. injection E as E _.
  inversion D; subst. assert (r = 45)%N; [|lia].
  rewrite <- (N_ascii_embedding r) by lia. rewrite E. reflexivity.
Qed.

Lemma span_digits_app : forall d u, Forall (fun r => (48 <= r <= 57)%N) d ->
  is_digit_rune (hd 0%N u) = false -> span_digits (d ++ u) = (d, u).
Proof.
  induction d as [|r d IH]; intros u F H; cbn [app].
  - destruct u as [|x u]; [reflexivity|]. cbn [hd] in H. cbn [span_digits]. now rewrite H.
  - inversion F; subst. cbn [span_digits]. unfold is_digit_rune at 1.
    replace ((48 <=? r) && (r <=? 57))%N with true by lia. now rewrite IH.
Qed.

Lemma breCountRe_exactly : forall m, digits m -> breCountRe m = Some (Exactly m).
Proof.
  intros m [Ne F]. unfold breCountRe. rewrite <- (app_nil_r m) at 1. rewrite span_digits_app by auto.
  destruct m; [contradiction|reflexivity].
Qed.
Lemma breCountRe_atleast : forall m, digits m -> breCountRe (m ++ [c_comma]) = Some (AtLeast m).
Proof.
  intros m [Ne F]. unfold breCountRe. rewrite span_digits_app by auto.
  destruct m; [contradiction|reflexivity].
Qed.
Lemma breCountRe_between : forall m n, digits m -> digits n -> breCountRe (m ++ [c_comma] ++ n) = Some (Between m n).
Proof.
  intros m n [Ne F] [Ne2 F2]. unfold breCountRe. cbn [app]. rewrite span_digits_app by auto.
  destruct m; [contradiction|]. cbn [N.eqb c_comma Pos.eqb]. rewrite <- (app_nil_r n) at 1.
  rewrite span_digits_app by auto. destruct n; [contradiction|reflexivity].
Qed.
Lemma span_digits_inv : forall l d u, span_digits l = (d, u) -> l = d ++ u /\ Forall (fun r => (48 <= r <= 57)%N) d.
Proof.
  induction l as [|r t IH]; intros d u H; cbn [span_digits] in H.
  - injection H as <- <-. split; auto.
  - destruct (is_digit_rune r) eqn:E.
    + destruct (span_digits t) as [d' u']. injection H as <- <-. destruct (IH d' u' eq_refl) as [-> F].
      split; auto. constructor; auto. unfold is_digit_rune in E. lia.
    + injection H as <- <-. split; auto.
Qed.
Lemma breCountRe_body : forall l g, breCountRe l = Some g -> count_body l.
Proof.
  intros l g H. unfold breCountRe in H. destruct (span_digits l) as [d u] eqn:E.
  apply span_digits_inv in E as [-> F]. destruct d as [|x d]; [discriminate|].
  assert (D : digits (x :: d)) by (split; [discriminate|auto]).
  destruct u as [|c u']. { rewrite app_nil_r. now constructor. }
  destruct (N.eqb_spec c c_comma); [|discriminate]. subst c.
  destruct (span_digits u') as [d2 u2] eqn:E2. apply span_digits_inv in E2 as [-> F2].
  destruct d2 as [|y d2].
  - destruct u2; [|discriminate]. now apply cb_atleast.
  - destruct u2; [|discriminate]. rewrite app_nil_r. apply (cb_between (x :: d) (y :: d2)); auto. split; [discriminate|auto].
Qed.

Lemma digits_not : forall l x, digits l -> ~ (48 <= x <= 57)%N -> ~ In x l.
Proof. intros l x [_ F] N H. rewrite Forall_forall in F. apply F in H. auto. Qed.

Lemma parseCount_brace : forall body rest, ~ In c_rbrace body -> ~ In c_bslash body ->
  parseCount (c_lbrace :: body ++ c_rbrace :: rest) =
  match breCountRe body with
  | None => Panic
  | Some g =>
      let '(m, mx) := match g with
                      | Exactly m => (m, fun mn => Ok mn)
                      | AtLeast m => (m, fun _ => Ok MaxInt)
                      | Between m k => (m, fun _ => mustBeInt (string_of_runes k))
                      end in
      rbind (mustBeInt (string_of_runes m)) (fun mn =>
      rbind (mx mn) (fun mxv => Ok ({| cmin := mn; cmax := mxv |}, length body + 2)))
  end.
Proof.
  intros body rest H1 H2. unfold parseCount. rewrite N.eqb_refl, readUntil_found by (auto; discriminate).
  rewrite firstn_app, firstn_all, Nat.sub_diag, firstn_O, app_nil_r. reflexivity.
Qed.

Lemma parseCount_text : forall c ct rest, count_text c ct ->
  (ct = [] -> hd 0%N rest <> c_star /\ hd 0%N rest <> c_lbrace) -> parseCount (ct ++ rest) = Ok (c, length ct).
Proof.
  assert (R : ~ (48 <= c_rbrace <= 57)%N /\ ~ (48 <= c_bslash <= 57)%N) by (unfold c_rbrace, c_bslash; lia).
  destruct R as [R1 R2].
  intros c ct rest H HR. destruct H as [| |m Hm|m Hm|m n Hm Hn].
  - destruct (HR eq_refl) as [H1 H2]. destruct rest as [|r t]; [reflexivity|]. cbn [hd app] in *. unfold parseCount.
    destruct (N.eqb_spec r c_lbrace); [contradiction|]. destruct (N.eqb_spec r c_star); [contradiction|]. reflexivity.
  - reflexivity.
  - pose proof (dec_runes_digits m (proj1 Hm)) as D.
    cbn [app]. rewrite <- app_assoc. cbn [app].
    rewrite parseCount_brace by (apply digits_not; auto). rewrite breCountRe_exactly by auto. unfold mustBeInt.
    rewrite dec_runes_atoi by apply Hm. replace (m <=? max_int64)%Z with true by (destruct Hm; lia).
    cbn [rbind]. do 2 f_equal. cbn [length]. rewrite app_length. cbn [length]. lia.
  - pose proof (dec_runes_digits m (proj1 Hm)) as D.
    replace ((c_lbrace :: dec_runes m ++ [c_comma; c_rbrace]) ++ rest) with (c_lbrace :: (dec_runes m ++ [c_comma]) ++ c_rbrace :: rest)
      by (cbn [app]; rewrite <- !app_assoc; reflexivity).
    rewrite parseCount_brace; [|intros I; apply in_app_or in I as [I|[I|[]]]; [|discriminate I]; revert I; apply digits_not; auto ..].
    rewrite breCountRe_atleast by auto. unfold mustBeInt. rewrite dec_runes_atoi by apply Hm.
    replace (m <=? max_int64)%Z with true by (destruct Hm; lia).
    cbn [rbind]. do 2 f_equal. cbn [length]. rewrite !app_length. cbn [length]. lia.
  - pose proof (dec_runes_digits m (proj1 Hm)) as D. pose proof (dec_runes_digits n (proj1 Hn)) as Dn.
    replace ((c_lbrace :: dec_runes m ++ [c_comma] ++ dec_runes n ++ [c_rbrace]) ++ rest)
      with (c_lbrace :: (dec_runes m ++ [c_comma] ++ dec_runes n) ++ c_rbrace :: rest)
      by (cbn [app]; rewrite <- !app_assoc; cbn [app]; rewrite <- !app_assoc; reflexivity).
    rewrite parseCount_brace.
    2,3: intros I; apply in_app_or in I as [I|[I|I]]; [|discriminate I|]; revert I; apply digits_not; auto.
    rewrite breCountRe_between by auto. unfold mustBeInt. rewrite !dec_runes_atoi by (apply Hm || apply Hn).
    replace (m <=? max_int64)%Z with true by (destruct Hm; lia).
    replace (n <=? max_int64)%Z with true by (destruct Hn; lia).
    cbn [rbind]. do 2 f_equal. cbn [length app]. rewrite !app_length. cbn [length app]. rewrite !app_length. cbn [length]. lia.
Qed.

Lemma parse_elements_element : forall e et rest f, element_text e et -> length (et ++ rest) <= S f ->
  parse_elements (S f) (et ++ rest) = continue_with f e rest.
Proof.
  intros e et rest f H L. destruct H as [c H| |cs H1 H2].
  - cbn [app]. rewrite parse_elements_cons. cbn [In] in H.
    destruct (N.eqb_spec c c_lbrack); [subst; tauto|]. destruct (N.eqb_spec c c_lparen); [subst; tauto|].
    destruct (N.eqb_spec c c_rparen); [subst; tauto|]. destruct (N.eqb_spec c c_dot); [subst; tauto|]. reflexivity.
  - reflexivity.
  - cbn [app]. rewrite parse_elements_cons, N.eqb_refl, <- app_assoc. cbn [app].
    rewrite readUntil_found by (auto; discriminate).
    rewrite firstn_app, firstn_all, Nat.sub_diag, firstn_O, app_nil_r. f_equal.
    rewrite skipn_app, skipn_all2 by lia. replace (length cs + 1 - length cs) with 1 by lia. reflexivity.
Qed.

Lemma element_text_nonempty : forall e et, element_text e et -> exists r t, et = r :: t /\ r <> c_caret.
Proof.
  intros e et [c H| |cs _ _]; eexists _, _; (split; [reflexivity|]); try discriminate.
  cbn [In] in H. intros ->. tauto.
Qed.

Lemma parse_elements_step : forall e et c ct rest f, element_text e et -> count_text c ct ->
  (ct = [] -> hd 0%N rest <> c_star /\ hd 0%N rest <> c_lbrace) -> length (et ++ ct ++ rest) <= f ->
  parse_elements f (et ++ ct ++ rest) = rbind (parse_elements (length rest) rest) (fun ds => Ok ((e, c) :: ds)).
Proof.
  intros e et c ct rest f He Hc HR L. destruct (element_text_nonempty e et He) as (r&t&Et&_).
  destruct f as [|f]; [subst; cbn in L; lia|]. rewrite (parse_elements_element e) by auto.
  unfold continue_with, add_count. rewrite (parseCount_text c) by auto. cbn [rbind].
  rewrite skipn_len_app. rewrite (parse_elements_fuel f (length rest)); auto.
  subst et. rewrite !app_length in L. cbn [length] in L. lia.
Qed.

Lemma last_app_ne : forall {A} (l r : list A) d, r <> [] -> last (l ++ r) d = last r d.
Proof.
  induction l as [|a l IH]; intros r d H; cbn [app]; auto.
  rewrite <- (IH r d H). destruct (l ++ r) eqn:E; [|reflexivity].
  apply app_eq_nil in E as [_ ->]. contradiction.
Qed.
Lemma removelast_app_ne : forall {A} (l r : list A), r <> [] -> removelast (l ++ r) = l ++ removelast r.
Proof. intros. now apply removelast_app. Qed.

Definition body_of (l : list N) : list N := if N.eqb (last l 0%N) c_dollar then removelast l else l.
Lemma parse_runes_unanchored : forall l, hd 0%N l <> c_caret ->
  parse_runes l = rbind (parse_elements (length (body_of l)) (body_of l))
    (fun es => Ok {| anchorLeft := false; anchorRight := N.eqb (last l 0%N) c_dollar; elements := es |}).
Proof.
  intros [|r t] H; [reflexivity|]. cbn [hd] in H. unfold parse_runes.
  destruct (N.eqb_spec r c_caret); [contradiction|]. reflexivity.
Qed.
Lemma parse_runes_anchored : forall l, parse_runes (c_caret :: l) =
  rbind (parse_elements (length (body_of l)) (body_of l))
    (fun es => Ok {| anchorLeft := true; anchorRight := N.eqb (last l 0%N) c_dollar; elements := es |}).
Proof. intros [|r t]; reflexivity. Qed.

Lemma hd_removelast : forall (l : list N), hd 0%N (removelast l) = hd 0%N l \/ hd 0%N (removelast l) = 0%N.
Proof. intros [|a [|b l]]; cbn; auto. Qed.

Lemma texts_last : forall e et c ct, element_text e et -> count_text c ct -> last (et ++ ct) 0%N <> c_dollar.
Proof.
  intros e et c ct He Hc. destruct Hc.
  - rewrite app_nil_r. destruct He as [x H| |cs _ _].
    + cbn [In last] in *. intros ->. tauto.
    + discriminate.
    + change (c_lbrack :: cs ++ [c_rbrack]) with ((c_lbrack :: cs) ++ [c_rbrack]). rewrite last_last. discriminate.
  - rewrite last_last. discriminate.
  - change (c_lbrace :: dec_runes m ++ [c_rbrace]) with ((c_lbrace :: dec_runes m) ++ [c_rbrace]).
    rewrite app_assoc, last_last. discriminate.
  - change (c_lbrace :: dec_runes m ++ [c_comma; c_rbrace]) with ((c_lbrace :: dec_runes m) ++ [c_comma; c_rbrace]).
    rewrite app_assoc, last_app_ne by discriminate. discriminate.
  - replace (et ++ c_lbrace :: dec_runes m ++ [c_comma] ++ dec_runes n ++ [c_rbrace])
      with ((et ++ c_lbrace :: dec_runes m ++ [c_comma] ++ dec_runes n) ++ [c_rbrace])
      by (rewrite <- !app_assoc; cbn [app]; rewrite <- !app_assoc; cbn [app]; reflexivity).
    rewrite last_last. discriminate.
Qed.

Lemma parse_runes_step : forall e et c ct rest, element_text e et -> count_text c ct -> follows ct rest ->
  parse_runes (et ++ ct ++ rest) = prepend (e, c) (parse_runes rest).
Proof.
  intros e et c ct rest He Hc [F1 F2]. destruct (element_text_nonempty e et He) as (r&t&Et&Nr).
  rewrite (parse_runes_unanchored rest) by auto.
  rewrite parse_runes_unanchored by (subst et; cbn; auto).
  assert (X : body_of (et ++ ct ++ rest) = et ++ ct ++ body_of rest /\
              N.eqb (last (et ++ ct ++ rest) 0%N) c_dollar = N.eqb (last rest 0%N) c_dollar).
  { unfold body_of. destruct rest as [|x rest].
    - rewrite app_nil_r. pose proof (texts_last e et c ct He Hc) as Q.
      destruct (N.eqb_spec (last (et ++ ct) 0%N) c_dollar); [contradiction|]. rewrite app_nil_r. split; reflexivity.
    - rewrite (app_assoc et ct). rewrite last_app_ne by discriminate. split; auto.
      rewrite removelast_app_ne by discriminate. destruct (N.eqb _ _); now rewrite <- app_assoc. }
  destruct X as [-> ->]. rewrite (parse_elements_step e et c ct); auto.
  - destruct (parse_elements _ (body_of rest)); reflexivity.
  - intros Z. destruct (F2 Z) as [G1 G2]. unfold body_of. destruct (N.eqb _ _); auto.
    destruct (hd_removelast rest) as [-> | ->]; auto. split; discriminate.
Qed.

(* ---- counts of a parsed pattern are never negative ---- *)
Lemma parseCount_nonneg : forall l c n, parseCount l = Ok (c, n) -> (0 <= cmin c)%Z /\ (0 <= cmax c)%Z.
Proof.
  intros [|r t] c n H; cbn [parseCount] in H.
  - injection H as <- <-. cbn. lia.
  - destruct (N.eqb r c_lbrace).
    + destruct (readUntil t c_rbrace) as [k| |]; try discriminate.
      destruct (breCountRe (firstn k t)) as [g|] eqn:E; [|discriminate].
      assert (G : match g with Exactly m => digits m | AtLeast m => digits m | Between m k => digits m /\ digits k end).
      { unfold breCountRe in E. destruct (span_digits (firstn k t)) as [d u] eqn:E1. apply span_digits_inv in E1 as [_ F].
        destruct d as [|x d]; [discriminate|]. destruct u as [|y u].
        - injection E as <-. split; [discriminate|auto].
        - destruct (N.eqb y c_comma); [|discriminate]. destruct (span_digits u) as [d2 u2] eqn:E2.
          apply span_digits_inv in E2 as [_ F2]. destruct d2 as [|z d2]; destruct u2; try discriminate; injection E as <-.
          + split; [discriminate|auto].
          + split; split; try discriminate; auto. }
      unfold mustBeInt in H. destruct g as [m|m|m q]; cbn [rbind] in H.
      * destruct (atoi _) eqn:A; [|discriminate]. apply digits_atoi_nonneg in A; auto.
        cbn [rbind] in H. injection H as <- <-. cbn. lia.
      * destruct (atoi _) eqn:A; [|discriminate]. apply digits_atoi_nonneg in A; auto.
        cbn [rbind] in H. injection H as <- <-. cbn. unfold MaxInt, max_int64. lia.
      * destruct G as [G1 G2]. destruct (atoi (string_of_runes m)) eqn:A; [|discriminate]. apply digits_atoi_nonneg in A; auto.
        cbn [rbind] in H. destruct (atoi (string_of_runes q)) eqn:A2; [|discriminate]. apply digits_atoi_nonneg in A2; auto.
        cbn [rbind] in H. injection H as <- <-. cbn. lia.
    + destruct (N.eqb r c_star); injection H as <- <-; cbn; unfold MaxInt, max_int64; lia.
Qed.
Lemma parse_elements_nonneg : forall f l es, parse_elements f l = Ok es -> Forall (fun d => (0 <= cmin (snd d) /\ 0 <= cmax (snd d))%Z) es.
Proof.
  induction f as [|f IH]; intros l es H.
  - destruct l; [|discriminate]. injection H as <-. constructor.
  - destruct l as [|r t]; [injection H as <-; constructor|]. rewrite parse_elements_cons in H.
    assert (C : forall e rest, continue_with f e rest = Ok es -> Forall (fun d => (0 <= cmin (snd d) /\ 0 <= cmax (snd d))%Z) es).
    { intros e rest Q. unfold continue_with in Q. destruct (add_count e rest) as [[d rest']| |] eqn:A; try discriminate.
      cbn [rbind] in Q. destruct (parse_elements f rest') eqn:P; try discriminate. injection Q as <-.
      constructor; [|eapply IH; eauto]. unfold add_count in A.
      destruct (parseCount rest) as [[c n]| |] eqn:PC; try discriminate. apply parseCount_nonneg in PC.
      injection A as <- _. cbn. tauto. }
    destruct (N.eqb r c_lbrack).
    + destruct (readUntil t c_rbrack); try discriminate. eapply C; eauto.
    + destruct (_ || _)%bool; [eapply IH; eauto|]. destruct (N.eqb r c_dot); eapply C; eauto.
Qed.
Lemma ParseBre_nonneg : forall p b, ParseBre p = Ok b -> Forall (fun d => (0 <= cmin (snd d) /\ 0 <= cmax (snd d))%Z) (elements b).
Proof.
  intros p b H. unfold ParseBre in H. destruct (N.eq_dec (hd 0%N (runes_of p)) c_caret) as [E|E].
  - destruct (runes_of p) as [|r t]; [discriminate|]. cbn in E. subst r. rewrite parse_runes_anchored in H.
    destruct (parse_elements _ _) eqn:P; try discriminate. injection H as <-. cbn. eapply parse_elements_nonneg; eauto.
  - rewrite parse_runes_unanchored in H by auto.
    destruct (parse_elements _ _) eqn:P; try discriminate. injection H as <-. cbn. eapply parse_elements_nonneg; eauto.
Qed.

(* ---- Matches ---- *)
Lemma match_from_found : forall b u w, fst (elementsMatch (elements b) w) = true -> w <> [] ->
  match_from b (u ++ w) = true.
Proof.
  induction u as [|r u IH]; intros w H Ne.
  - destruct w as [|x w]; [contradiction|]. cbn [app match_from].
    destruct (elementsMatch (elements b) (x :: w)) as [m len] eqn:E. cbn [fst] in H. subst m.
    apply elementsMatch_len in E. subst len. rewrite Nat.eqb_refl. now destruct (anchorRight b).
  - cbn [app match_from]. destruct (elementsMatch _ (r :: _)) as [m len]. rewrite (IH w H Ne). destruct (m && _); reflexivity.
Qed.
Lemma match_from_inv : forall b l, match_from b l = true ->
  exists u w, l = u ++ w /\ fst (elementsMatch (elements b) w) = true.
Proof.
  induction l as [|r t IH]; intros H; [discriminate|]. cbn [match_from] in H.
  destruct (elementsMatch (elements b) (r :: t)) as [m len] eqn:E. destruct m.
  - exists [], (r :: t). rewrite E. auto.
  - cbn [andb] in H. destruct (IH H) as (u&w&->&Q). exists (r :: u), w. auto.
Qed.
Lemma matches_runes_anchored : forall b l, anchorLeft b = true ->
  matches_runes b l = fst (elementsMatch (elements b) l).
Proof.
  intros b l H. unfold matches_runes. rewrite H. cbn [orb].
  destruct (elementsMatch (elements b) l) as [m len] eqn:E. destruct m; auto.
  apply elementsMatch_len in E. subst. rewrite Nat.eqb_refl. now destruct (anchorRight b).
Qed.
Lemma spells_prefix_free : forall es, spells es [] -> forall l, fst (elementsMatch es l) = true.
Proof. intros es H l. apply (elementsMatch_complete es [] l H). Qed.

Lemma matches_complete : forall b l, contains_match (anchorLeft b) (anchorRight b) (elements b) l -> matches_runes b l = true.
Proof.
  intros b l (u&m&v&->&S&HL&_). destruct (anchorLeft b) eqn:L.
  - rewrite matches_runes_anchored, HL by auto. cbn [app]. now apply elementsMatch_complete.
  - destruct (u ++ m ++ v) as [|r t] eqn:E.
    + apply app_eq_nil in E as [-> E]. apply app_eq_nil in E as [-> ->].
      unfold matches_runes. rewrite orb_true_r. pose proof (spells_prefix_free _ S []) as Q.
      destruct (elementsMatch (elements b) []) as [x len] eqn:E. cbn in Q. subst x. apply elementsMatch_len in E. subst len.
      now destruct (anchorRight b).
    + unfold matches_runes. rewrite L. cbn [orb]. destruct (m ++ v) as [|x w] eqn:Q.
      * apply app_eq_nil in Q as [-> ->]. apply (match_from_found b [] (r :: t)); [|discriminate].
        now apply spells_prefix_free.
      * rewrite <- E. apply match_from_found; [|discriminate]. rewrite <- Q. now apply elementsMatch_complete.
Qed.

Lemma matches_sound : forall b l, Forall (fun d => (0 <= cmin (snd d) /\ 0 <= cmax (snd d))%Z) (elements b) ->
  exact_elements (elements b) -> matches_runes b l = true -> contains_match (anchorLeft b) false (elements b) l.
Proof.
  intros b l P F H. destruct (anchorLeft b) eqn:L.
  - rewrite matches_runes_anchored in H by auto. destruct (elementsMatch (elements b) l) as [m n] eqn:E. cbn in H. subst m.
    apply elementsMatch_sound in E as (m&v&->&S); auto. exists [], m, v. repeat split; auto; discriminate.
  - assert (Q : exists u w, l = u ++ w /\ fst (elementsMatch (elements b) w) = true).
    { unfold matches_runes in H. rewrite L in H. cbn [orb] in H. destruct l as [|r t].
      - exists [], []. split; auto. destruct (elementsMatch (elements b) []) as [m n]. now destruct m.
      - now apply match_from_inv. }
    destruct Q as (u&w&->&Q). destruct (elementsMatch (elements b) w) as [m n] eqn:E. cbn in Q. subst m.
    apply elementsMatch_sound in E as (m&v&->&S); auto. exists u, m, v. repeat split; auto; discriminate.
Qed.

(* the right anchor never makes a difference *)
Lemma matches_ignores_right : forall l x y es s,
  matches_runes {| anchorLeft := l; anchorRight := x; elements := es |} s =
  matches_runes {| anchorLeft := l; anchorRight := y; elements := es |} s.
Proof.
  intros l x y es s. unfold matches_runes. cbn [anchorLeft anchorRight elements]. destruct (l || _)%bool.
  - destruct (elementsMatch es s) as [m n] eqn:E. destruct m; auto. apply elementsMatch_len in E. subst n.
    rewrite Nat.eqb_refl. now destruct x, y.
  - induction s as [|r t IH]; auto. cbn [match_from elements anchorRight].
    destruct (elementsMatch es (r :: t)) as [m n] eqn:E. rewrite IH. destruct m; auto.
    apply elementsMatch_len in E. subst n. rewrite Nat.eqb_refl. now destruct x, y.
Qed.

(* ---- literal patterns ---- *)
Definition one (r : N) : dupl := (Plain r, {| cmin := 1; cmax := 1 |}).
Lemma parse_elements_literal : forall ps, (forall r, In r ps -> ~ In r special) ->
  parse_elements (length ps) ps = Ok (map one ps).
Proof.
  induction ps as [|r ps IH]; intros H; [reflexivity|]. cbn [length map]. rewrite parse_elements_cons.
  pose proof (H r (or_introl eq_refl)) as Nr. unfold special in Nr. cbn [In] in Nr.
  destruct (N.eqb_spec r c_lbrack); [subst; tauto|]. destruct (N.eqb_spec r c_lparen); [subst; tauto|].
  destruct (N.eqb_spec r c_rparen); [subst; tauto|]. destruct (N.eqb_spec r c_dot); [subst; tauto|]. cbn [orb].
  assert (PC : parseCount ps = Ok ({| cmin := 1; cmax := 1 |}, 0)).
  { destruct ps as [|x ps]; [reflexivity|]. pose proof (H x (or_intror (or_introl eq_refl))) as Nx.
    unfold special in Nx. cbn [In] in Nx. unfold parseCount.
    destruct (N.eqb_spec x c_lbrace); [subst; tauto|]. destruct (N.eqb_spec x c_star); [subst; tauto|]. reflexivity. }
  unfold continue_with, add_count. rewrite PC. cbn [rbind skipn]. rewrite IH by (intros; apply H; cbn; auto). reflexivity.
Qed.
Lemma spells_literal : forall ps m, spells (map one ps) m <-> m = ps.
Proof.
  induction ps as [|r ps IH]; intros m; cbn [map].
  - split; [intros H; inversion H; auto|intros ->; constructor].
  - split.
    + intros H. inversion H as [|? ? ? u v A C S]; subst. apply IH in S. subst v. cbn in C.
      destruct u as [|a [|a' u]]; cbn in C; try lia. inversion A; subst. cbn in *. now subst.
    + intros ->. change (r :: ps) with ([r] ++ ps). constructor; [repeat constructor|cbn; lia|]. now apply IH.
Qed.
Lemma literal_body : forall ps, last ps 0%N <> c_dollar -> body_of ps = ps.
Proof. intros ps H. unfold body_of. destruct (N.eqb_spec (last ps 0%N) c_dollar); [contradiction|reflexivity]. Qed.
Lemma literal_fixed : forall ps, exact_elements (map one ps).
Proof. induction ps; constructor; auto. left. reflexivity. Qed.
Lemma literal_nonneg : forall ps, Forall (fun d => (0 <= cmin (snd d) /\ 0 <= cmax (snd d))%Z) (map one ps).
Proof. induction ps; constructor; auto. cbn. lia. Qed.
Lemma parse_literal : forall ps, literal ps ->
  ParseBre (string_of_runes ps) = Ok {| anchorLeft := false; anchorRight := false; elements := map one ps |} /\
  ParseBre (string_of_runes (c_caret :: ps)) = Ok {| anchorLeft := true; anchorRight := false; elements := map one ps |}.
Proof.
  intros ps (V&S&H1&H2). unfold ParseBre. rewrite !runes_of_string; auto.
  2: { constructor; auto. unfold valid_rune, c_caret. lia. }
  rewrite parse_runes_unanchored, parse_runes_anchored, literal_body, parse_elements_literal by auto.
  cbn [rbind]. destruct (N.eqb_spec (last ps 0%N) c_dollar); [contradiction|]. auto.
Qed.
Lemma matches_literal : forall l ps s, 
  matches_runes {| anchorLeft := l; anchorRight := false; elements := map one ps |} s = true <->
  exists u v, s = u ++ ps ++ v /\ (l = true -> u = []).
Proof.
  intros l ps s. split.
  - intros H. apply matches_sound in H as (u&m&v&->&S&L&_); [|apply literal_nonneg|apply literal_fixed].
    cbn in S, L. apply spells_literal in S. subst m. exists u, v. auto.
  - intros (u&v&->&L). apply matches_complete. cbn. exists u, ps, v. repeat split; auto; [now apply spells_literal|discriminate].
Qed.

(* ---- malformed patterns ---- *)
Lemma in_removelast : forall {A} (l : list A) x, In x (removelast l) -> In x l.
Proof. induction l as [|a [|b l] IH]; cbn; auto. intros x [H|H]; auto. right. apply IH. exact H. Qed.
Lemma in_body_of : forall l x, In x (body_of l) -> In x l.
Proof. unfold body_of. intros l x. destruct (N.eqb _ _); auto. apply in_removelast. Qed.
Lemma body_of_cons : forall r l, l <> [] -> body_of (r :: l) = r :: body_of l.
Proof.
  intros r l H. unfold body_of. change (r :: l) with ([r] ++ l). rewrite last_app_ne, removelast_app_ne by auto.
  now destruct (N.eqb _ _).
Qed.
Lemma body_of_app : forall a l, l <> [] -> body_of (a ++ l) = a ++ body_of l.
Proof.
  intros a l H. unfold body_of. rewrite last_app_ne, removelast_app_ne by auto.
  now destruct (N.eqb _ _).
Qed.

Lemma parseCount_unterminated : forall t, ~ In c_rbrace t -> parseCount (c_lbrace :: t) = Panic.
Proof.
  intros t H. unfold parseCount. rewrite N.eqb_refl. destruct (readUntil_none t _ H) as (r&->&Q).
  destruct r as [k| |]; auto. now destruct (Q k).
Qed.
Lemma parse_unterminated_brace : forall e et t, element_text e et -> ~ In c_rbrace t ->
  parse_runes (et ++ c_lbrace :: t) = Panic.
Proof.
  intros e et t He H. destruct (element_text_nonempty e et He) as (r&et'&Et&Nr).
  rewrite parse_runes_unanchored by (subst et; exact Nr).
  assert (E : exists t', body_of (et ++ c_lbrace :: t) = et ++ c_lbrace :: t' /\ ~ In c_rbrace t').
  { destruct t as [|x t].
    - exists []. split; auto. rewrite body_of_app by discriminate. reflexivity.
    - exists (body_of (x :: t)). rewrite body_of_app, body_of_cons by discriminate. split; auto.
      intros I. apply in_body_of in I. auto. }
  destruct E as (t'&->&Nt). destruct (length (et ++ c_lbrace :: t')) as [|f] eqn:L.
  - rewrite app_length in L. cbn in L. lia.
  - rewrite (parse_elements_element e) by (auto; lia). unfold continue_with, add_count.
    rewrite parseCount_unterminated by auto. reflexivity.
Qed.
Lemma parse_bad_count : forall e et body rest, element_text e et -> ~ In c_rbrace body -> ~ In c_bslash body ->
  parseCount (c_lbrace :: body ++ c_rbrace :: rest) = Panic ->
  parse_runes (et ++ c_lbrace :: body ++ c_rbrace :: rest) = Panic.
Proof.
  intros e et body rest He H1 H2 P. destruct (element_text_nonempty e et He) as (r&et'&Et&Nr).
  rewrite parse_runes_unanchored by (subst et; exact Nr).
  assert (E : exists rest', body_of (et ++ c_lbrace :: body ++ c_rbrace :: rest) = et ++ c_lbrace :: body ++ c_rbrace :: rest').
  { rewrite body_of_app by discriminate. rewrite body_of_cons by (destruct body; discriminate).
    rewrite body_of_app by discriminate. destruct rest as [|x rest]; [exists []; reflexivity|].
    rewrite body_of_cons by discriminate. eauto. }
  destruct E as (rest'&->). destruct (length _) as [|f] eqn:L.
  - rewrite app_length in L. cbn in L. lia.
  - rewrite (parse_elements_element e) by (auto; lia). unfold continue_with, add_count.
    rewrite parseCount_brace in * by auto. destruct (breCountRe body) as [g|]; [|reflexivity].
    destruct g; unfold mustBeInt in *; repeat (destruct (atoi _); cbn [rbind] in *; try discriminate); reflexivity.
Qed.
Lemma parse_unterminated_bracket : forall t, ~ In c_rbrack t -> parse_runes (c_lbrack :: t) = Panic.
Proof.
  intros t H. rewrite parse_runes_unanchored by discriminate.
  assert (E : exists t', body_of (c_lbrack :: t) = c_lbrack :: t' /\ ~ In c_rbrack t').
  { destruct t as [|x t]; [exists []; auto|]. exists (body_of (x :: t)). rewrite body_of_cons by discriminate. split; auto.
    intros I. apply in_body_of in I. auto. }
  destruct E as (t'&->&Nt). cbn [length]. rewrite parse_elements_cons, N.eqb_refl.
  destruct (readUntil_none t' _ Nt) as (r&->&Q). destruct r as [k| |]; auto. now destruct (Q k).
Qed.
