(* Proofs for C114 and C115. *)
From Verif Require Import GoBase GoFacts NumFacts Utf8Facts RegexModel RegexSpec RegexProofs RegexMoreSpec.

Definition sane (es : list dupl) : Prop := Forall (fun d => (0 <= cmin (snd d) /\ 0 <= cmax (snd d))%Z) es.

Lemma picked_le : forall e w k, picked e w k -> forall j, j <= k -> picked e w j.
Proof.
  induction 1 as [|r w k A P IH|r w k P IH]; intros j L.
  - replace j with 0 by lia. constructor.
  - destruct j as [|j]; [apply pk_skip, IH; lia|]. apply pk_take; auto. apply IH. lia.
  - apply pk_skip. auto.
Qed.
Lemma picked_len : forall e w k, picked e w k -> k <= length w.
Proof. induction 1; cbn [length]; lia. Qed.
Lemma picked_app : forall e w k t, picked e w k -> picked e (w ++ t) k.
Proof.
  induction 1; cbn [app]; try (constructor; auto; fail).
  induction t; constructor; auto.
Qed.
Lemma count_loop_picked : forall e mn l k k', count_loop e mn l k = Some k' -> picked e l (k' - k).
Proof.
  induction l as [|r t IH]; intros k k' H; cbn [count_loop] in H.
  - injection H as <-. rewrite Nat.sub_diag. constructor.
  - destruct (el_matches e r) eqn:E.
    + pose proof (count_loop_le _ _ _ _ _ H). apply IH in H. replace (k' - k) with (S (k' - S k)) by lia.
      constructor; auto. now apply el_matches_spec.
    + destruct (Z.of_nat k <? mn)%Z; [discriminate|]. constructor. eauto.
Qed.
(* conversely, once the minimum is reached everything accepted is counted *)
Lemma count_loop_counts : forall e mn l j, picked e l j -> forall k, (mn <= Z.of_nat k)%Z ->
  exists k', count_loop e mn l k = Some k' /\ k + j <= k'.
Proof.
  induction 1 as [|r w j A P IH|r w j P IH]; intros k M; cbn [count_loop].
  - exists k. split; auto. lia.
  - apply el_matches_spec in A. rewrite A. destruct (IH (S k)) as (k'&E&L); [lia|]. exists k'. split; auto. lia.
  - destruct (el_matches e r).
    + destruct (IH (S k)) as (k'&E&L); [lia|]. exists k'. split; auto. lia.
    + replace (Z.of_nat k <? mn)%Z with false by lia. auto.
Qed.
Lemma picked_rest : forall e u w j, picked e (u ++ w) j -> length u <= j -> picked e w (j - length u).
Proof.
  induction u as [|r u IH]; intros w j P L; cbn [app length] in *.
  - now rewrite Nat.sub_0_r.
  - inversion P as [|? ? k A Q|? ? k Q]; subst.
    + apply IH in Q; [|lia]. exact Q.
    + assert (Q2 : picked e (u ++ w) (j - 1)) by (apply (picked_le _ _ _ Q); lia).
      apply IH in Q2; [|lia]. replace (j - S (length u)) with (j - 1 - length u) by lia. exact Q2.
Qed.

Lemma elementsMatch_loosely : forall es l, sane es -> (fst (elementsMatch es l) = true <-> loosely es l).
Proof.
  induction es as [|[e c] es IH]; intros l P; [split; [constructor|reflexivity]|].
  inversion P as [|? ? [P1 P2] Ps]; subst. cbn [snd] in P1, P2. rewrite elementsMatch_cons.
  set (K := Z.to_nat (Z.min (cmax c) (Z.of_nat (length l)))). split.
  - intros H. destruct (count_loop _ _ _ _) as [m|] eqn:E; [|discriminate].
    destruct (backtrack _ _ _) as [b n] eqn:Q. cbn [fst] in H. subst b.
    apply backtrack_inv in Q as (i&Q1&Q2&Q3&_). apply IH in Q3; auto.
    pose proof (count_loop_picked _ _ _ _ _ E) as R. rewrite Nat.sub_0_r in R. pose proof (picked_le _ _ _ R _ Q2) as Q4.
    apply count_loop_first in E as F; [|lia]. rewrite Z.sub_0_r, firstn_firstn in F.
    pose proof (picked_len _ _ _ Q4) as L. rewrite firstn_length in L.
    rewrite Nat.min_l in F by lia. set (mn := Z.to_nat (cmin c)) in *.
    assert (Hu : firstn i l = firstn mn l ++ skipn mn (firstn i l)).
    { rewrite <- (firstn_skipn mn (firstn i l)) at 1. f_equal. rewrite firstn_firstn. f_equal. lia. }
    rewrite <- (firstn_skipn i l), Hu. apply (lo_cons e c es _ _ _ (firstn K l) (skipn K l)); auto.
    + rewrite firstn_length. lia.
    + rewrite <- Hu, !firstn_skipn. reflexivity.
    + rewrite firstn_length. lia.
    + rewrite <- Hu, firstn_length, Nat.min_l by lia. exact Q4.
  - intros H. inversion H as [|? ? ? u1 u2 v w w' H1 H2 H3 H4 H5 H6]; subst. clear H.
    assert (LW : length w <= K). { unfold K. rewrite H3, app_length. lia. }
    assert (FK : firstn K ((u1 ++ u2) ++ v) = w ++ firstn (K - length w) w').
    { rewrite H3, firstn_app, (firstn_all2 w) by lia. reflexivity. }
    apply (picked_app _ _ _ (firstn (K - length w) w')) in H5. rewrite <- FK in H5.
    pose proof (picked_len _ _ _ H5) as L. rewrite firstn_length in L.
    assert (FU : firstn K ((u1 ++ u2) ++ v) = u1 ++ firstn (K - length u1) (u2 ++ v)).
    { rewrite <- app_assoc, firstn_app, (firstn_all2 u1); auto. rewrite app_length in L. lia. }
    rewrite FU in *. rewrite count_loop_app by auto.
    apply picked_rest in H5; [|rewrite app_length; lia].
    destruct (count_loop_counts e (cmin c) _ _ H5 (0 + length u1)) as (k'&Ek&Lk); [lia|].
    rewrite Ek. apply (backtrack_finds _ _ _ (length (u1 ++ u2))); [rewrite app_length; lia|rewrite app_length in *; lia|].
    rewrite skipn_len_app. now apply IH.
Qed.

Lemma loosely_nil : forall es, sane es -> loosely es [] -> forall t, loosely es t.
Proof.
  induction es as [|[e c] es IH]; intros P H t; [constructor|]. inversion P as [|? ? [P1 P2] Ps]; subst.
  inversion H as [|? ? ? u1 u2 v w w' H1 H2 H3 H4 H5 H6 [Ea Eb]]. match goal with Q : _ ++ _ = [] |- _ => rename Q into H7 end.
  apply app_eq_nil in H7 as [H7 Ev]. apply app_eq_nil in H7 as [E1 E2]. subst u1 u2 v. cbn [app length] in *.
  apply (lo_cons e c es [] [] t [] t); auto. constructor.
Qed.

Lemma loosely_app : forall es t v, loosely es t -> loosely es (t ++ v).
Proof.
  intros es t v H. induction H as [t|e c es u1 u2 x w w' H1 H2 H3 H4 H5 H6 IH]; [constructor|].
  rewrite <- app_assoc. apply (lo_cons e c es u1 u2 (x ++ v) w (w' ++ v)); auto.
  rewrite app_assoc, H3, <- app_assoc. reflexivity.
Qed.

Lemma matches_loosely : forall b l, sane (elements b) ->
  (matches_runes b l = true <-> exists u t, l = u ++ t /\ (anchorLeft b = true -> u = []) /\ loosely (elements b) t).
Proof.
  intros b l P. destruct (anchorLeft b) eqn:L.
  - rewrite matches_runes_anchored, elementsMatch_loosely by auto. split.
    + intros H. exists [], l. auto.
    + intros (u&t&->&U&H). rewrite U; auto.
  - unfold matches_runes. rewrite L. cbn [orb]. destruct l as [|r l].
    + assert (X : (let '(m, len) := elementsMatch (elements b) [] in
        if m then (if anchorRight b then Nat.eqb len (List.length (@nil N)) else true) else false) = fst (elementsMatch (elements b) [])).
      { destruct (elementsMatch (elements b) []) as [m n] eqn:E. destruct m; auto. apply elementsMatch_len in E. subst.
        now destruct (anchorRight b). }
      rewrite X, elementsMatch_loosely by auto. split.
      * intros H. exists [], []. repeat split; auto.
      * intros (u&t&E&_&H). symmetry in E. apply app_eq_nil in E as [-> ->]. auto.
    + split.
      * intros H. apply match_from_inv in H as (u&w&->&H). exists u, w. rewrite elementsMatch_loosely in H by auto.
        repeat split; auto. discriminate.
      * intros (u&t&E&_&H). destruct t as [|x t].
        -- apply (match_from_found b [] (r :: l)); [|discriminate]. apply elementsMatch_loosely; auto. now apply loosely_nil.
        -- rewrite E. apply match_from_found; [|discriminate]. now apply elementsMatch_loosely.
Qed.
