(* C114 and C115: what pkg/regexes matches, for all patterns.  Statements only; proofs in RegexMoreProofs.v. *)
From Verif Require Import GoBase GoFacts NumFacts Utf8Facts RegexModel RegexSpec RegexProofs RegexMoreSpec RegexMoreProofs.

(* C114: exactly the texts with a loose match, at the beginning if the pattern begins with ^, are matched;
   whether the pattern ends in $ makes no difference. *)
Theorem C114_exactly_loose_matches : forall pattern b input, ParseBre pattern = Ok b ->
  (Matches b input = true <->
   exists u t, runes_of input = u ++ t /\ (anchorLeft b = true -> u = []) /\ loosely (elements b) t).
Proof. intros pattern b input P. apply matches_loosely. eapply ParseBre_nonneg; eauto. Qed.
Print Assumptions C114_exactly_loose_matches.
Example C114_nonvacuous : exists b, ParseBre (B "^a{1,4}d") = Ok b /\
  loosely (elements b) (runes_of (B "abda")) /\ Matches b (B "abda") = true /\ Matches b (B "abd") = false.
Proof.
  vm_compute ParseBre. eexists. split; [reflexivity|]. cbn [elements]. split; [|split; vm_compute; reflexivity].
  vm_compute runes_of. apply (lo_cons _ _ _ [97%N] [98%N] [100; 97]%N [97; 98; 100; 97]%N []);
    [reflexivity|repeat constructor|reflexivity|cbn; lia| |].
  - apply pk_take; [reflexivity|]. apply pk_skip, pk_skip. apply pk_take; [reflexivity|constructor].
  - apply (lo_cons _ _ _ [100%N] [] [97%N] [100%N] [97%N]); [reflexivity|repeat constructor|reflexivity|cbn; lia| |constructor].
    apply pk_take; [reflexivity|constructor].
Qed.

(* C115: text before or after a matched text does not undo the match; with ^, text after it. *)
Theorem C115_surrounding_text : forall pattern b input input' u v, ParseBre pattern = Ok b ->
  runes_of input' = u ++ runes_of input ++ v -> (anchorLeft b = true -> u = []) ->
  Matches b input = true -> Matches b input' = true.
Proof.
  intros pattern b input input' u v P E U H.
  rewrite (C114_exactly_loose_matches pattern) in * by exact P. destruct H as (x&t&X&HX&H).
  exists (u ++ x), (t ++ v). split; [rewrite E, X, <- !app_assoc; reflexivity|]. split.
  - intros A. rewrite (U A), (HX A). reflexivity.
  - now apply loosely_app.
Qed.
Print Assumptions C115_surrounding_text.
(* for text of valid UTF-8 this is concatenation; the bytes after it may be anything *)
Theorem C115_concatenation : forall pattern b us ms rest, ParseBre pattern = Ok b ->
  Forall valid_rune us -> Forall valid_rune ms -> anchorLeft b = false ->
  Matches b (string_of_runes ms) = true -> Matches b (string_of_runes us ++ string_of_runes ms ++ rest) = true.
Proof.
  intros pattern b us ms rest P V1 V2 A H.
  apply (C115_surrounding_text pattern b (string_of_runes ms) _ us (runes_of rest)); auto.
  - rewrite !runes_of_app by auto. do 2 f_equal.
    pose proof (runes_of_app ms [] V2) as Q. rewrite app_nil_r in Q. rewrite Q. symmetry. apply app_nil_r.
  - congruence.
Qed.
Print Assumptions C115_concatenation.
Example C115_nonvacuous : exists b, ParseBre (B "[ab]*c.") = Ok b /\ anchorLeft b = false /\
  Matches b (B "abcd") = true /\ (Matches b (B "xyabcd" ++ [ascii_of_N 200]) = true) /\ Matches b (B "abc") = false.
Proof. eexists. split; [vm_compute; reflexivity|]. repeat split; vm_compute; reflexivity. Qed.

(* C43 is false, for every pattern that begins with ^, an optional element e and a single e2, and has only optional
   elements after them: if us are runes accepted by neither, y is accepted by e2 and vs are as many runes accepted
   by e, the text us y vs is matched, because vs are counted although us and y come first. *)
Theorem C43_no_false_positive_refuted : forall pattern b input e c e2 es us y vs, ParseBre pattern = Ok b ->
  anchorLeft b = true -> elements b = (e, c) :: (e2, {| cmin := 1; cmax := 1 |}) :: es -> cmin c = 0%Z ->
  Forall (fun d => cmin (snd d) = 0%Z) es -> runes_of input = us ++ y :: vs ->
  (Z.of_nat (List.length (runes_of input)) <= cmax c)%Z ->
  us <> [] -> Forall (fun x => ~ accepts e x /\ ~ accepts e2 x) us -> accepts e2 y ->
  List.length vs = List.length us -> Forall (accepts e) vs ->
  Matches b input = true /\ ~ contains_match (anchorLeft b) (anchorRight b) (elements b) (runes_of input).
Proof.
  intros pattern b input e c e2 es us y vs P A E C0 O R L Nu Fu Ay Ln Fv. split.
  - rewrite (C114_exactly_loose_matches pattern b input P). exists [], (us ++ y :: vs). split; [exact R|]. split; [auto|].
    rewrite E. apply (lo_cons e c _ [] us (y :: vs) (us ++ y :: vs) []); auto.
    + now rewrite app_nil_r.
    + now rewrite <- R.
    + cbn [app]. rewrite <- Ln. clear - Fv. induction us as [|x us IH].
      * cbn [app]. apply pk_skip. induction Fv; cbn [List.length]; constructor; auto.
      * cbn [app]. now apply pk_skip.
    + assert (Q : Forall (fun d => (0 <= cmax (snd d))%Z) es).
      { pose proof (ParseBre_nonneg _ _ P) as Q. rewrite E in Q. inversion Q as [|? ? _ Q2]. inversion Q2 as [|? ? _ Q3].
        eapply Forall_impl; [|exact Q3]. cbv beta. tauto. }
      apply (lo_cons e2 _ es [y] [] vs [y] vs); try reflexivity.
      * now constructor.
      * constructor; [exact Ay|constructor].
      * clear - O Q. induction O as [|[e c] es H O IH]; [constructor|]. inversion Q; subst.
        apply (lo_cons e c es [] [] vs [] vs); auto. constructor.
  - rewrite E, A, R. intros (u&m&v&X&S&U&_). rewrite (U eq_refl) in X. cbn [app] in X.
    inversion S as [|? ? ? a r Ha Hc S2]; subst. inversion S2 as [|? ? ? a2 r2 Ha2 Hc2 S3]; subst. cbn [cmin cmax] in *.
    destruct us as [|x us]; [congruence|]. inversion Fu as [|? ? [N1 N2] _]; subst.
    destruct a as [|z a].
    + destruct a2 as [|z a2]; [cbn in Hc2; lia|]. cbn [app] in X. injection X as <- _. inversion Ha2; subst. contradiction.
    + cbn [app] in X. injection X as <- _. inversion Ha; subst. contradiction.
Qed.
Print Assumptions C43_no_false_positive_refuted.
Example C43_refuted_nonvacuous : exists b, ParseBre (B "^[ab]*c{1}d*") = Ok b /\
  exists c es, elements b = (Bracket [97; 98]%N, c) :: (Plain 99%N, {| cmin := 1; cmax := 1 |}) :: es /\ cmin c = 0%Z /\ cmax c = max_int64 /\
  Forall (fun d => cmin (snd d) = 0%Z) es /\ runes_of (B "xyzcaba") = runes_of (B "xyz") ++ 99%N :: runes_of (B "aba").
Proof.
  eexists. split; [vm_compute; reflexivity|]. eexists _, _. split; [reflexivity|]. repeat split; repeat constructor.
Qed.

(* C44 is false, for every pattern with $ whose last element is not optional: to every text that it matches any rune
   the element does not accept can be added. *)
Theorem C44_right_anchor_refuted : forall pattern b input input' es e c x, ParseBre pattern = Ok b -> anchorRight b = true ->
  elements b = es ++ [(e, c)] -> (1 <= cmin c)%Z -> ~ accepts e x ->
  Matches b input = true -> runes_of input' = runes_of input ++ [x] ->
  Matches b input' = true /\ ~ exists u m, runes_of input' = u ++ m /\ spells (elements b) m.
Proof.
  intros pattern b input input' es e c x P A E C Nx M R. split.
  - apply (C115_surrounding_text pattern b input input' [] [x]); auto.
  - rewrite E, R. intros (u&m&X&S).
    assert (G : exists m' z, m = m' ++ [z] /\ accepts e z).
    { clear - S C. revert m S. induction es as [|d es IH]; intros m S; inversion S as [|e1 c1 es1 a r Ha Hc S2]; subst.
      - inversion S2; subst. rewrite app_nil_r. destruct (@exists_last _ a) as (m'&z&->); [intros ->; cbn in Hc; lia|].
        apply Forall_app in Ha as [_ Ha]. inversion Ha; subst. eauto.
      - destruct (IH r S2) as (m'&z&->&Hz). exists (a ++ m'), z. split; auto. now rewrite app_assoc. }
    destruct G as (m'&z&->&Hz). rewrite app_assoc in X. apply app_inj_tail in X as [_ X]. congruence.
Qed.
Print Assumptions C44_right_anchor_refuted.
Example C44_nonvacuous : exists b, ParseBre (B "a*b$") = Ok b /\ anchorRight b = true /\
  elements b = [(Plain 97%N, {| cmin := 0; cmax := max_int64 |})] ++ [(Plain 98%N, {| cmin := 1; cmax := 1 |})] /\
  Matches b (B "aab") = true /\ runes_of (B "aabc") = runes_of (B "aab") ++ [99%N] /\ Matches b (B "aabc") = true.
Proof. eexists. split; [vm_compute; reflexivity|]. repeat split; vm_compute; reflexivity. Qed.
