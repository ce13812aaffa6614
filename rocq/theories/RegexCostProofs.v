(* Proofs for C141: how many steps matching takes. *)
From Verif Require Import GoBase GoFacts Utf8Facts RuneFacts RegexModel RegexSpec RegexProofs RegexGramSpec RegexGramProofs RegexCostModel.

Lemma count_loop_same : forall e mn l k, fst (count_loop_steps e mn l k) = count_loop e mn l k.
Proof.
  induction l as [|r t IH]; intros k; cbn; auto. destruct (el_matches e r).
  - specialize (IH (S k)). now destruct (count_loop_steps e mn t (S k)).
  - destruct (Z.of_nat k <? mn)%Z; auto. specialize (IH k). now destruct (count_loop_steps e mn t k).
Qed.
Lemma backtrack_same : forall f g mn i, (forall j, fst (f j) = g j) -> fst (backtrack_steps f mn i) = backtrack g mn i.
Proof.
  intros f g mn i H. induction i as [|i IH]; cbn [backtrack_steps backtrack].
  - destruct (_ <? mn)%Z; auto. specialize (H 0). destruct (f 0) as [[m len] n]. cbn in H. rewrite <- H. now destruct m.
  - destruct (_ <? mn)%Z; auto. specialize (H (S i)). destruct (f (S i)) as [[m len] n]. cbn in H. rewrite <- H.
    destruct m; auto. rewrite <- IH. now destruct (backtrack_steps f mn i) as [[m' len'] n'].
Qed.
Lemma elements_same : forall es runes, fst (elementsMatch_steps es runes) = elementsMatch es runes.
Proof.
  induction es as [|[e c] es IH]; intros runes; cbn [elementsMatch_steps elementsMatch]; auto.
  pose proof (count_loop_same e (cmin c)
    (firstn (Z.to_nat (Z.min (cmax c) (Z.of_nat (List.length runes)))) runes) 0) as C.
  destruct (count_loop_steps _ _ _ _) as [[k|] n]; cbn in C; rewrite <- C; auto.
  rewrite <- (backtrack_same (fun i => elementsMatch_steps es (skipn i runes))) by (intros; apply IH).
  now destruct (backtrack_steps _ _ _) as [[m len] n'].
Qed.
Lemma from_same : forall b runes, fst (match_from_steps b runes) = match_from b runes.
Proof.
  induction runes as [|r t IH]; auto. cbn [match_from_steps match_from].
  rewrite <- elements_same. destruct (elementsMatch_steps (elements b) (r :: t)) as [[m len] n]. cbn [fst].
  destruct (m && _); auto. rewrite <- IH. now destruct (match_from_steps b t).
Qed.
Lemma matches_same : forall b text, fst (Matches_steps b text) = Matches b text.
Proof.
  intros. unfold Matches_steps, Matches, matches_runes_steps, matches_runes. destruct (_ || _); [|apply from_same].
  rewrite <- elements_same. now destruct (elementsMatch_steps _ _) as [[m len] n].
Qed.

(* upper bound *)
Definition varying (d : dupl) : bool := negb (Z.eqb (cmin (snd d)) (cmax (snd d))).
Lemma count_loop_cost : forall e mn l k, snd (count_loop_steps e mn l k) <= List.length l.
Proof.
  induction l as [|r t IH]; intros k; cbn; auto. destruct (el_matches e r).
  - specialize (IH (S k)). destruct (count_loop_steps e mn t (S k)). cbn in *. lia.
  - destruct (_ <? mn)%Z; cbn; [lia|]. specialize (IH k). destruct (count_loop_steps e mn t k). cbn in *. lia.
Qed.
Lemma count_loop_found : forall e mn l k m, fst (count_loop_steps e mn l k) = Some m -> m <= k + List.length l.
Proof.
  induction l as [|r t IH]; intros k m; cbn; [intros [= <-]; lia|]. destruct (el_matches e r).
  - specialize (IH (S k) m). destruct (count_loop_steps e mn t (S k)). cbn in *. intros H. apply IH in H. lia.
  - destruct (_ <? mn)%Z; [discriminate|]. specialize (IH k m). destruct (count_loop_steps e mn t k). cbn in *.
    intros H. apply IH in H. lia.
Qed.
Lemma backtrack_cost : forall f mn c i, (forall j, j <= i -> snd (f j) <= c) -> snd (backtrack_steps f mn i) <= S i * c.
Proof.
  intros f mn c i. induction i as [|i IH]; intros H; cbn [backtrack_steps].
  - destruct (_ <? mn)%Z; cbn; [lia|]. specialize (H 0 (le_n _)). destruct (f 0) as [[[] len] n]; cbn in *; lia.
  - destruct (_ <? mn)%Z; cbn; [lia|]. pose proof (H (S i) (le_n _)) as HS. destruct (f (S i)) as [[m len] n]. cbn in HS.
    destruct m; cbn; [lia|]. assert (I : snd (backtrack_steps f mn i) <= S i * c) by (apply IH; intros; apply H; lia).
    destruct (backtrack_steps f mn i) as [[m' len'] n']. cbn in *. lia.
Qed.
(* where as many as the least number were found, only one is tried *)
Lemma backtrack_once : forall f mn c i, (Z.of_nat i <= mn)%Z -> (forall j, snd (f j) <= c) ->
  snd (backtrack_steps f mn i) <= c.
Proof.
  intros f mn c i L H.
  assert (Z0 : forall k, (Z.of_nat k < mn)%Z -> backtrack_steps f mn k = (false, 0, 0)).
  { intros [|k] E; cbn [backtrack_steps]; rewrite (proj2 (Z.ltb_lt _ _)) by auto; reflexivity. }
  destruct (Z.le_gt_cases mn (Z.of_nat i)) as [G|G]; [|rewrite Z0; cbn; lia].
  destruct i as [|i]; cbn [backtrack_steps]; rewrite (proj2 (Z.ltb_ge _ _)) by auto.
  - specialize (H 0). destruct (f 0) as [[[] len] n]; cbn in *; lia.
  - specialize (H (S i)). rewrite Z0 by lia. destruct (f (S i)) as [[[] len] n]; cbn in *; lia.
Qed.
Lemma elements_cost : forall es runes n, List.length runes <= n ->
  snd (elementsMatch_steps es runes) <= S (List.length es) * (n + 2) ^ S (List.length (filter varying es)).
Proof.
  induction es as [|[e c] es IH]; intros runes n L; cbn [elementsMatch_steps].
  { cbn. lia. }
  set (l := firstn _ runes). assert (Ll : List.length l <= n) by (unfold l; rewrite firstn_length; lia).
  assert (Lm : (Z.of_nat (List.length l) <= Z.max 0 (cmax c))%Z).
  { unfold l. rewrite firstn_length. lia. }
  pose proof (count_loop_cost e (cmin c) l 0) as CC. pose proof (count_loop_found e (cmin c) l 0) as CF.
  assert (R : forall j, snd (elementsMatch_steps es (skipn j runes)) <=
                        S (List.length es) * (n + 2) ^ S (List.length (filter varying es))).
  { intros j. apply IH. rewrite skipn_length. lia. }
  set (v := List.length (filter varying es)) in *. set (k := List.length es) in *.
  assert (V : List.length (filter varying ((e, c) :: es)) = (if varying (e, c) then S v else v)).
  { cbn [filter]. destruct (varying (e, c)); reflexivity. }
  change (List.length ((e, c) :: es)) with (S k).
  match goal with |- context [filter varying ?x] => change (filter varying x) with (filter varying ((e, c) :: es : list dupl)) end.
  rewrite V.
  assert (P : n + 2 <= (n + 2) ^ S v).
  { change ((n + 2) ^ S v) with ((n + 2) * (n + 2) ^ v). assert (1 <= (n + 2) ^ v) by (apply Nat.neq_0_lt_0, Nat.pow_nonzero; lia). nia. }
  destruct (count_loop_steps e (cmin c) l 0) as [[m|] w]; cbn [fst snd] in *.
  2: { destruct (varying (e, c)); [|nia]. change ((n + 2) ^ S (S v)) with ((n + 2) * (n + 2) ^ S v). nia. }
  specialize (CF m eq_refl). unfold varying. cbn [snd]. destruct (Z.eqb_spec (cmin c) (cmax c)) as [E|E]; cbn [negb].
  - assert (snd (backtrack_steps (fun i => elementsMatch_steps es (skipn i runes)) (cmin c) m) <= S k * (n + 2) ^ S v).
    { destruct (Z.le_gt_cases (Z.of_nat m) (cmin c)); [apply backtrack_once; auto|].
      assert (m = 0) by lia. subst m.
      pose proof (backtrack_cost (fun i => elementsMatch_steps es (skipn i runes)) (cmin c) _ 0 (fun j _ => R j)). lia. }
    destruct (backtrack_steps _ _ _) as [[m' len'] n']. cbn in *. nia.
  - pose proof (backtrack_cost (fun i => elementsMatch_steps es (skipn i runes)) (cmin c) _ m (fun j _ => R j)) as BC.
    destruct (backtrack_steps _ _ _) as [[m' len'] n']. cbn [snd] in *.
    change ((n + 2) ^ S (S v)) with ((n + 2) * (n + 2) ^ S v). set (p := (n + 2) ^ S v) in *.
    assert (S m * (S k * p) <= (n + 1) * (S k * p)) by (apply Nat.mul_le_mono_r; lia). nia.
Qed.
Lemma from_cost : forall b c runes, (forall l, List.length l <= List.length runes -> snd (elementsMatch_steps (elements b) l) <= c) ->
  snd (match_from_steps b runes) <= List.length runes * c.
Proof.
  intros b c runes. induction runes as [|r t IH]; intros H; [cbn; lia|]. cbn [match_from_steps].
  pose proof (H (r :: t) (le_n _)) as H1. destruct (elementsMatch_steps (elements b) (r :: t)) as [[m len] n]. cbn [snd] in H1.
  destruct (m && _); cbn; [lia|]. assert (snd (match_from_steps b t) <= List.length t * c).
  { apply IH. intros l L. apply H. cbn. lia. }
  destruct (match_from_steps b t). cbn in *. lia.
Qed.
Lemma matches_cost : forall b text, let n := List.length (runes_of text) in
  snd (Matches_steps b text) <= S (List.length (elements b)) * (n + 2) ^ (List.length (filter varying (elements b)) + 2).
Proof.
  intros b text n. unfold Matches_steps, matches_runes_steps.
  assert (H : forall l, List.length l <= n -> snd (elementsMatch_steps (elements b) l) <=
    S (List.length (elements b)) * (n + 2) ^ S (List.length (filter varying (elements b)))) by (intros; now apply elements_cost).
  set (v := List.length (filter varying (elements b))) in *. replace (v + 2) with (S (S v)) by lia.
  change ((n + 2) ^ S (S v)) with ((n + 2) * (n + 2) ^ S v). set (p := (n + 2) ^ S v) in *.
  destruct (_ || _).
  - specialize (H (runes_of text) (le_n _)). destruct (elementsMatch_steps _ _) as [[m len] w]. cbn [snd] in *. nia.
  - pose proof (from_cost b _ (runes_of text) H) as F. fold n in F. nia.
Qed.

(* lower bound: k times a*, then b, on n times a *)
Definition star (r : N) : dupl := (Plain r, {| cmin := 0; cmax := max_int64 |}).
Definition once (r : N) : dupl := (Plain r, {| cmin := 1; cmax := 1 |}).
Definition many (k : nat) : list dupl := repeat (star 97) k ++ [once 98].
Lemma loop_all : forall n k, count_loop_steps (Plain 97) 0 (repeat 97%N n) k = (Some (k + n), n).
Proof.
  induction n as [|n IH]; intros k; cbn [repeat count_loop_steps]; [now rewrite Nat.add_0_r|].
  cbn [el_matches]. rewrite N.eqb_refl, IH. f_equal. f_equal. lia.
Qed.
Lemma skip_repeat : forall {A} (x : A) i n, skipn i (repeat x n) = repeat x (n - i).
Proof. induction i as [|i IH]; intros [|n]; cbn; auto. Qed.
(* failing is slow: the next ones are tried *)
Lemma backtrack_two : forall f i, (forall j, fst (fst (f j)) = false) ->
  fst (backtrack_steps f 0 i) = (false, 0) /\ (1 <= i -> snd (f 1) + snd (f 0) <= snd (backtrack_steps f 0 i)).
Proof.
  intros f i H. induction i as [|i IH].
  - split; [|lia]. cbn. specialize (H 0). destruct (f 0) as [[m len] n]. cbn in *. now subst m.
  - cbn [backtrack_steps]. replace (Z.of_nat (S i) <? 0)%Z with false by (symmetry; apply Z.ltb_ge; lia).
    pose proof (H (S i)) as HS. destruct (f (S i)) as [[m len] n] eqn:E. cbn in HS. subst m.
    destruct i as [|i].
    + cbn. pose proof (H 0) as H0. destruct (f 0) as [[m' len'] n'] eqn:E0. cbn in H0. subst m'. cbn. rewrite E. cbn. split; auto.
    + destruct (backtrack_steps f 0 (S i)) as [[m' len'] n']. destruct IH as [I1 I2]. cbn [fst snd] in *. split; auto.
      intros _. specialize (I2 ltac:(lia)). lia.
Qed.
Lemma many_steps : forall k n,
  fst (fst (elementsMatch_steps (many k) (repeat 97%N n))) = false /\
  2 ^ Nat.min k n <= snd (elementsMatch_steps (many k) (repeat 97%N n)).
Proof.
  induction k as [|k IH]; intros n.
  { unfold many, once. cbn [repeat app elementsMatch_steps cmin cmax]. destruct n as [|n]; [cbn; split; auto|].
    rewrite repeat_length. replace (Z.to_nat (Z.min 1 (Z.of_nat (S n)))) with 1 by lia. 
    cbn. split; [auto|idtac].
    change (Z.of_nat 0 <? 1)%Z with true. cbn. lia. }
  set (i := Z.to_nat (Z.min max_int64 (Z.of_nat n))).
  assert (I : i <= n /\ (1 <= n -> 1 <= i)) by (unfold i, max_int64; lia).
  assert (Hd : elementsMatch_steps (many (S k)) (repeat 97%N n) =
    let '(m, len, n') := backtrack_steps (fun i => elementsMatch_steps (many k) (skipn i (repeat 97%N n))) 0 i in (m, len, S (i + n'))).
  { unfold many, star. cbn [repeat app elementsMatch_steps cmin cmax]. rewrite repeat_length. fold i.
    replace (firstn i (repeat 97%N n)) with (repeat 97%N i).
    2: { rewrite <- (Nat.sub_add i n) by lia. rewrite Nat.add_comm, repeat_app, firstn_app, repeat_length, Nat.sub_diag. cbn [firstn].
         rewrite app_nil_r, firstn_all2 by (rewrite repeat_length; lia). reflexivity. }
    now rewrite loop_all. }
  destruct (backtrack_two (fun i => elementsMatch_steps (many k) (skipn i (repeat 97%N n))) i) as [B1 B2].
  { intros j. rewrite skip_repeat. apply IH. }
  rewrite Hd. clear Hd. destruct (backtrack_steps _ 0 i) as [[m len] n']. cbn [fst snd] in *. inversion B1; subst m len. split; auto.
  destruct n as [|n]; [cbn; lia|]. specialize (B2 ltac:(lia)). rewrite !skip_repeat in B2.
  pose proof (proj2 (IH (S n - 1))) as P1. pose proof (proj2 (IH (S n - 0))) as P0. cbn [Nat.sub] in *. rewrite Nat.sub_0_r in *.
  rewrite <- Nat.succ_min_distr. cbn [Nat.pow].
  assert (2 ^ Nat.min k n <= 2 ^ Nat.min k (S n)) by (apply Nat.pow_le_mono_r; lia). lia.
Qed.

(* the pattern as text *)
Definition many_text (k : nat) : bytes := concat (repeat (B "a*") k) ++ B "b".
Lemma many_runes : forall k, runes_of (many_text k) = concat (repeat [97; 42]%N k) ++ [98%N].
Proof.
  unfold many_text. induction k as [|k IH]; [reflexivity|]. cbn [repeat concat].
  change (B "a*") with ["a"%char; "*"%char]. cbn [app].
  rewrite !runes_of_ascii_cons by (vm_compute; reflexivity). change ["a"%char; "*"%char] with (B "a*"). rewrite IH. reflexivity.
Qed.
Lemma text_runes : forall n, runes_of (repeat "a"%char n) = repeat 97%N n.
Proof.
  induction n as [|n IH]; [reflexivity|]. cbn [repeat]. rewrite runes_of_ascii_cons by (vm_compute; reflexivity). now rewrite IH.
Qed.
Lemma many_sequence : forall k, sequence (concat (repeat [97; 42]%N k) ++ [98%N]) (many k).
Proof.
  induction k as [|k IH].
  - apply (sq_item [98%N] (Plain 98) [] 1 1 [] []); [constructor|constructor| |constructor].
    + cbn. intros [H|[H|[H|[H|[]]]]]; discriminate.
    + intros _. cbn. split; discriminate.
  - apply (sq_item [97%N] (Plain 97) [42%N] 0 max_int64 (concat (repeat [97; 42]%N k) ++ [98%N]) (many k)); auto; [constructor|constructor|discriminate].
    cbn. intros [H|[H|[H|[H|[]]]]]; discriminate.
Qed.
Lemma many_parse : forall k, ParseBre (many_text k) = Ok {| anchorLeft := false; anchorRight := false; elements := many k |}.
Proof.
  intros k. apply parse_pattern. rewrite many_runes. constructor; [| |apply many_sequence].
  - destruct k; cbn; discriminate.
  - rewrite last_last. discriminate.
Qed.
Lemma many_slow : forall k b, ParseBre (many_text k) = Ok b -> 2 ^ k <= snd (Matches_steps b (repeat "a"%char k)).
Proof.
  intros k b P. rewrite many_parse in P. injection P as <-. unfold Matches_steps. rewrite text_runes.
  unfold matches_runes_steps. cbn [anchorLeft orb elements]. destruct (many_steps k k) as [M1 M2]. rewrite Nat.min_id in M2.
  destruct k as [|k]; [vm_compute; lia|]. cbn [repeat match_from_steps elements anchorRight andb negb].
  change (97%N :: repeat 97%N k) with (repeat 97%N (S k)).
  destruct (elementsMatch_steps (many (S k)) (repeat 97%N (S k))) as [[m len] w]. cbn [fst snd] in *. subst m. cbn [andb].
  destruct (match_from_steps _ _) as [r w']. cbn [snd]. lia.
Qed.

(* powers of two outgrow powers *)
Lemma outgrows_line : forall a b, exists j, a * j + b < 2 ^ j.
Proof.
  intros a b. set (m := 2 * a + b). exists (m + m). rewrite Nat.pow_add_r.
  assert (P : S m <= 2 ^ m) by (pose proof (Nat.pow_gt_lin_r 2 m); lia).
  assert (S m * S m <= 2 ^ m * 2 ^ m) by (apply Nat.mul_le_mono; auto).
  assert (a * (m + m) + b < S m * S m); [|lia]. unfold m. nia.
Qed.
Lemma outgrows : forall c d, exists k, c * (3 * k + 1) ^ d < 2 ^ k.
Proof.
  intros c d. destruct (outgrows_line d (2 * d + c)) as [j H]. exists (2 ^ j).
  assert (P : (3 * 2 ^ j + 1) ^ d <= 2 ^ ((j + 2) * d)).
  { rewrite Nat.pow_mul_r. apply Nat.pow_le_mono_l. rewrite Nat.pow_add_r. assert (1 <= 2 ^ j) by (apply Nat.neq_0_lt_0, Nat.pow_nonzero; lia). cbn. lia. }
  assert (Q : c < 2 ^ c) by (apply Nat.pow_gt_lin_r; lia).
  assert (c * (3 * 2 ^ j + 1) ^ d < 2 ^ (c + (j + 2) * d)).
  { rewrite Nat.pow_add_r. assert (0 < 2 ^ ((j + 2) * d)) by (apply Nat.neq_0_lt_0, Nat.pow_nonzero; lia).
    eapply Nat.le_lt_trans; [apply Nat.mul_le_mono_l, P|]. apply Nat.mul_lt_mono_pos_r; auto. }
  eapply Nat.lt_le_trans; [eassumption|]. apply Nat.pow_le_mono_r; lia.
Qed.
Lemma many_length : forall k, List.length (many_text k) = 2 * k + 1.
Proof.
  unfold many_text. intros k. rewrite app_length. replace (List.length (B "b")) with 1 by reflexivity. f_equal.
  induction k as [|k IH]; [reflexivity|]. cbn [repeat concat]. rewrite app_length, IH. change (List.length (B "a*")) with 2. lia.
Qed.
