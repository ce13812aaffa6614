(* Proofs for C152: the run chosen by Diff is the first of the longest. *)
From Coq Require Import Sorted.
From Verif Require Import GoBase GoFacts DiffModel DiffProofs DiffMoreProofs DiffRunSpec.

Section First.
Variables old new : list bytes.
Local Notation csuf := (csuf old new).
Local Notation best_ok := (best_ok old new).
Definition earlier (j0 i0 j i : nat) : Prop := j0 < j \/ (j0 = j /\ i0 <= i).
Definition first_ok (P : nat -> nat -> Prop) (b : best) : Prop :=
  forall i j, P i j -> csuf i j = sub_len b -> 0 < sub_len b -> earlier (sub_new b + sub_len b) (sub_old b + sub_len b) j i.

Lemma inner_first : forall overlap j v is nov b (P : nat -> nat -> Prop),
  nth_error new j = Some v ->
  (forall i, i < length old -> om_get overlap i = csuf (S i) j) ->
  (forall i, In i is -> nth_error old i = Some v) -> StronglySorted lt is ->
  (forall i j, P i j -> csuf i j <= sub_len b) -> first_ok P b ->
  (0 < sub_len b -> sub_new b + sub_len b <= j \/ (sub_new b + sub_len b = S j /\ forall i, In i is -> sub_old b + sub_len b <= i)) ->
  let b' := snd (fold_left (inner_step overlap j) is (nov, b)) in
  first_ok (fun i' j' => P i' j' \/ (j' = S j /\ exists i, i' = S i /\ In i is)) b' /\
  (0 < sub_len b' -> sub_new b' + sub_len b' <= S j).
Proof.
  intros overlap j v is. induction is as [|i0 is IH]; intros nov b P Hj Hov His Srt B1 Hf Hc; cbn [fold_left].
  - cbn [snd]. split; [|intros L; destruct (Hc L) as [Q|[Q _]]; lia].
    intros i' j' [H|(_&i&_&[])]; auto.
  - assert (Hi0 : nth_error old i0 = Some v) by (apply His; left; auto).
    assert (L0 : i0 < length old) by (apply nth_error_Some; congruence).
    assert (V : (match i0 with 0 => 1 | S j0 => om_get overlap j0 + 1 end) = csuf (S i0) (S j)).
    { cbn [DiffProofs.csuf]. rewrite Hi0, Hj, beqb_refl. destruct i0 as [|i1]; auto. rewrite Hov by lia. lia. }
    inversion Srt as [|? ? Srt' Fa]; subst. rewrite Forall_forall in Fa.
    pose proof (csuf_le old new (S i0) (S j)) as Cl.
    assert (S1 : exists b', inner_step overlap j (nov, b) i0 = ((i0, csuf (S i0) (S j)) :: nov, b') /\
        (forall i' j', P i' j' \/ (j' = S j /\ i' = S i0) -> csuf i' j' <= sub_len b') /\
        first_ok (fun i' j' => P i' j' \/ (j' = S j /\ i' = S i0)) b' /\
        (0 < sub_len b' -> sub_new b' + sub_len b' <= j \/ (sub_new b' + sub_len b' = S j /\ forall i, In i is -> sub_old b' + sub_len b' <= i))).
    { unfold inner_step. rewrite V. cbn [om_get]. rewrite Nat.eqb_refl.
      destruct (sub_len b <? csuf (S i0) (S j)) eqn:E; eexists; (split; [reflexivity|]).
      - apply Nat.ltb_lt in E. cbn [sub_len sub_old sub_new]. split; [|split].
        + intros i' j' [H|[-> ->]]; auto. apply B1 in H. lia.
        + intros i' j' H Q _. cbn [sub_len sub_old sub_new] in *. destruct H as [H|[-> ->]].
          * apply B1 in H. lia.
          * right. lia.
        + intros _. right. split; [lia|]. intros i I. apply Fa in I. lia.
      - apply Nat.ltb_ge in E. split; [|split].
        + intros i' j' [H|[-> ->]]; auto.
        + intros i' j' [H|[-> ->]] Q L; [now apply Hf|]. destruct (Hc L) as [R|[R1 R2]]; [left; lia|].
          right. split; auto. specialize (R2 i0 (or_introl eq_refl)). lia.
        + intros L. destruct (Hc L) as [R|[R1 R2]]; [auto|]. right. split; auto. intros i I. apply R2. now right. }
    destruct S1 as (b'&E&B1'&Hf'&Hc'). rewrite E.
    assert (His' : forall i, In i is -> nth_error old i = Some v) by (intros; apply His; right; auto).
    destruct (IH ((i0, csuf (S i0) (S j)) :: nov) b' _ Hj Hov His' Srt' B1' Hf' Hc') as [I1 I2].
    split; [|exact I2]. intros i' j' [H|(->&i&->&[<-|H])]; apply I1; eauto 6.
Qed.

Lemma positions_sorted : forall l n k, StronglySorted lt (positions n l k).
Proof.
  induction l as [|x l IH]; intros n k; cbn [positions]; [constructor|].
  destruct (beqb x k); [|apply IH]. constructor; [apply IH|]. apply Forall_forall. intros i I. apply positions_spec in I. lia.
Qed.

Lemma outer_first : forall rest pre overlap b,
  new = pre ++ rest ->
  (forall i, i < length old -> om_get overlap i = csuf (S i) (length pre)) ->
  best_ok (fun i j => i <= length old /\ j <= length pre) b ->
  first_ok (fun i j => i <= length old /\ j <= length pre) b ->
  (0 < sub_len b -> sub_new b + sub_len b <= length pre) ->
  first_ok (fun i j => i <= length old /\ j <= length new)
    (outer_loop (build_indices 0 old []) (length pre) rest overlap b).
Proof.
  induction rest as [|v rest IH]; intros pre overlap b Hn Hov Hb Hf Hc; cbn [outer_loop].
  - rewrite app_nil_r in Hn. intros i j [H1 H2]. apply Hf. split; auto. now rewrite <- Hn.
  - rewrite build_indices_get. cbn [im_get app].
    assert (Hj : nth_error new (length pre) = Some v).
    { rewrite Hn, nth_error_app2, Nat.sub_diag by lia. reflexivity. }
    assert (Hp : forall i, In i (positions 0 old v) -> nth_error old i = Some v).
    { intros i Hi. apply positions_spec in Hi as [_ Hi]. now rewrite Nat.sub_0_r in Hi. }
    destruct (inner_fold old new overlap (length pre) v (positions 0 old v) [] b _ Hj Hov Hp Hb) as [I1 I2].
    destruct (inner_first overlap (length pre) v (positions 0 old v) [] b _ Hj Hov Hp (positions_sorted old 0 v) (proj1 Hb) Hf) as [I3 I4];
      [intros L; left; auto|].
    match goal with |- context [fold_left ?f ?l ?x] => destruct (fold_left f l x) as [nov b'] eqn:Ef end.
    match type of I1 with context [fold_left ?f ?l ?x] => replace (fold_left f l x) with (nov, b') in I1 by (symmetry; exact Ef) end.
    match type of I2 with context [fold_left ?f ?l ?x] => replace (fold_left f l x) with (nov, b') in I2 by (symmetry; exact Ef) end.
    match type of I3 with context [fold_left ?f ?l ?x] => replace (fold_left f l x) with (nov, b') in I3 by (symmetry; exact Ef) end.
    match type of I4 with context [fold_left ?f ?l ?x] => replace (fold_left f l x) with (nov, b') in I4 by (symmetry; exact Ef) end.
    cbv zeta in I4. cbn [fst snd] in *.
    assert (Z : forall i, i < length old -> ~ In i (positions 0 old v) -> csuf (S i) (S (length pre)) = 0).
    { intros i Hi Hnot. destruct (nth_error old i) as [a|] eqn:Ea.
      - eapply csuf_neq; eauto. intros ->. apply Hnot. apply positions_spec. split; [lia|]. now rewrite Nat.sub_0_r.
      - apply nth_error_None in Ea. lia. }
    replace (S (length pre)) with (length (pre ++ [v])) by (rewrite app_length; cbn [length]; lia).
    apply IH.
    + now rewrite <- app_assoc.
    + intros i Hi. rewrite I1. rewrite app_length. cbn [length]. rewrite Nat.add_1_r.
      destruct (in_dec Nat.eq_dec i (positions 0 old v)) as [H|H]; auto.
      cbn [om_get]. symmetry. apply Z; auto.
    + destruct I2 as [B1 B2]. split; auto. rewrite app_length. cbn [length].
      intros i j [H1 H2]. destruct (Nat.eq_dec j (S (length pre))) as [->|N].
      * destruct i as [|i]; [cbn [DiffProofs.csuf]; lia|].
        destruct (in_dec Nat.eq_dec i (positions 0 old v)) as [H|H].
        -- apply B1. right. eauto.
        -- rewrite Z by (auto; lia). lia.
      * apply B1. left. lia.
    + rewrite app_length. cbn [length]. intros i j [H1 H2] Q L. destruct (Nat.eq_dec j (S (length pre))) as [->|N].
      * destruct i as [|i]; [cbn [DiffProofs.csuf] in Q; lia|].
        destruct (in_dec Nat.eq_dec i (positions 0 old v)) as [H|H].
        -- apply I3; auto. right. eauto.
        -- rewrite Z in Q by (auto; lia). lia.
      * apply I3; auto. left. lia.
    + rewrite app_length. cbn [length]. intros L. specialize (I4 L). lia.
Qed.

Lemma longest_run_first : first_ok (fun i j => i <= length old /\ j <= length new) (longest_run old new).
Proof.
  unfold longest_run. apply (outer_first new [] []); cbn [length].
  - reflexivity.
  - intros i Hi. cbn [om_get DiffProofs.csuf]. destruct (nth_error old i); reflexivity.
  - split; cbn [sub_len]; [|lia]. intros i j [_ H]. pose proof (csuf_le old new i j). lia.
  - intros i j [_ H] Q L. cbn [sub_len] in L. lia.
  - cbn [sub_len]. lia.
Qed.

Lemma run_csuf : forall o1 n1 run o2 n2, old = o1 ++ run ++ o2 -> new = n1 ++ run ++ n2 ->
  length run <= csuf (length o1 + length run) (length n1 + length run).
Proof.
  intros o1 n1 run o2 n2 Ho Hn. apply csuf_max.
  - rewrite Ho, !app_length. lia.
  - rewrite Hn, !app_length. lia.
  - rewrite Ho, Hn, !skipn_app, !skipn_all, !Nat.sub_diag. cbn [skipn app].
    rewrite !firstn_app, !firstn_all, !Nat.sub_diag. reflexivity.
Qed.

Lemma run_is_first : let b := longest_run old new in 0 < sub_len b ->
  first_longest (firstn (sub_old b) old) (firstn (sub_new b) new) (firstn (sub_len b) (skipn (sub_new b) new))
    (skipn (sub_old b + sub_len b) old) (skipn (sub_new b + sub_len b) new).
Proof.
  intros b L. destruct (longest_run_ok old new L) as (R1&R2&R3). fold b in R1, R2, R3.
  assert (Lr : length (firstn (sub_len b) (skipn (sub_new b) new)) = sub_len b) by (rewrite firstn_length, skipn_length; lia).
  split. { intros Q. rewrite Q in Lr. cbn in Lr. lia. }
  intros o1 n1 run o2 n2 Eo En. rewrite <- R3, <- split3 in Eo by exact R1. rewrite <- split3 in En by exact R2. rewrite Lr.
  pose proof (run_csuf o1 n1 run o2 n2 (eq_sym Eo) (eq_sym En)) as C.
  assert (Pr : length o1 + length run <= length old /\ length n1 + length run <= length new) by (rewrite <- Eo, <- En, !app_length; lia).
  pose proof (proj1 (longest_run_best old new) _ _ Pr) as M. fold b in M.
  destruct (Nat.eq_dec (length run) (sub_len b)) as [Q|Q]; [|left; lia]. right. split; [exact Q|].
  pose proof (longest_run_first _ _ Pr) as F. fold b in F. specialize (F ltac:(lia) L). unfold earlier in F.
  rewrite !firstn_length. lia.
Qed.
End First.

(* ---------- Diff is by_longest ---------- *)
Lemma fuel_by_longest : forall fuel old new, length old < fuel ->
  exists cs, diff_fuel fuel old new = Some (Ok cs) /\ by_longest old new (map piece_of cs).
Proof.
  induction fuel as [|f IH]; intros old new Hf; [lia|].
  cbn [diff_fuel]. destruct old as [|o0 old'].
  { destruct new as [|n0 new']; eexists; (split; [reflexivity|]); constructor. discriminate. }
  destruct new as [|n0 new'].
  { eexists; (split; [reflexivity|]); constructor. discriminate. }
  set (old := o0 :: old') in *. set (new := n0 :: new') in *.
  pose proof (longest_run_ok old new) as R. cbv zeta in R. pose proof (run_is_first old new) as F. cbv zeta in F.
  pose proof (no_run_disjoint old new) as D.
  set (b := longest_run old new) in *.
  destruct (sub_len b =? 0) eqn:E0.
  { apply Nat.eqb_eq in E0. eexists; (split; [reflexivity|]). apply by_change; try discriminate. exact (D E0). }
  apply Nat.eqb_neq in E0. destruct R as (R1&R2&R3); [lia|]. specialize (F ltac:(lia)).
  rewrite !slice_tail by lia. rewrite !slice_ok by lia.
  rewrite !Nat.sub_0_r. simpl skipn at 1 2.
  replace (sub_new b + sub_len b - sub_new b) with (sub_len b) by lia.
  destruct (IH (firstn (sub_old b) old) (firstn (sub_new b) new)) as (c1&E1&T1).
  { rewrite firstn_length. lia. }
  destruct (IH (skipn (sub_old b + sub_len b) old) (skipn (sub_new b + sub_len b) new)) as (c2&E2&T2).
  { rewrite skipn_length. lia. }
  change (skipn 0 old) with old. change (skipn 0 new) with new.
  rewrite E1, E2. cbn [rbind]. eexists; split; [reflexivity|].
  pose proof (split3 old _ _ R1) as So. pose proof (split3 new _ _ R2) as Sn.
  rewrite R3 in So. rewrite map_app. cbn [map app]. unfold piece_of at 2. cbn [kind values].
  pose proof (by_keep _ _ _ _ _ _ _ F T1 T2) as K. rewrite <- So, <- Sn in K. exact K.
Qed.

Lemma app_cut : forall {A} (a b c d : list A), a ++ b = c ++ d -> length a = length c -> a = c /\ b = d.
Proof.
  induction a as [|x a IH]; intros b [|y c] d E L; cbn in *; try discriminate; auto.
  injection E as -> E. destruct (IH b c d E) as [-> ->]; auto.
Qed.
Lemma first_unique : forall o1 n1 run o2 n2 o1' n1' run' o2' n2',
  first_longest o1 n1 run o2 n2 -> first_longest o1' n1' run' o2' n2' ->
  o1' ++ run' ++ o2' = o1 ++ run ++ o2 -> n1' ++ run' ++ n2' = n1 ++ run ++ n2 ->
  o1 = o1' /\ n1 = n1' /\ run = run' /\ o2 = o2' /\ n2 = n2'.
Proof.
  intros o1 n1 run o2 n2 o1' n1' run' o2' n2' [_ H] [_ H'] Eo En.
  specialize (H _ _ _ _ _ Eo En). specialize (H' _ _ _ _ _ (eq_sym Eo) (eq_sym En)).
  destruct (app_cut _ _ _ _ Eo) as [-> Q]; [lia|]. destruct (app_cut _ _ _ _ Q) as [-> ->]; [lia|].
  destruct (app_cut _ _ _ _ En) as [-> Q']; [lia|]. destruct (app_cut _ _ _ _ Q') as [_ ->]; [lia|]. auto.
Qed.
Lemma first_nonempty : forall o1 n1 run o2 n2, first_longest o1 n1 run o2 n2 -> o1 ++ run ++ o2 <> [] /\ n1 ++ run ++ n2 <> [] /\
  ~ (forall l, In l (o1 ++ run ++ o2) -> ~ In l (n1 ++ run ++ n2)).
Proof.
  intros o1 n1 run o2 n2 [N _]. destruct run as [|x run]; [congruence|]. split; [|split].
  - intros Q. apply app_eq_nil in Q as [_ Q]. discriminate.
  - intros Q. apply app_eq_nil in Q as [_ Q]. discriminate.
  - intros Q. apply (Q x); rewrite !in_app_iff; cbn; auto.
Qed.
Lemma by_longest_det : forall old new p, by_longest old new p -> forall p', by_longest old new p' -> p = p'.
Proof.
  induction 1 as [|new Nn|old No|old new No Nn D|o1 n1 run o2 n2 p1 p2 F T1 IH1 T2 IH2]; intros p' H'.
  - inversion H' as [| | | |? ? ? ? ? ? ? F' ? ? Q1 Q2]; subst; try congruence.
    apply first_nonempty in F' as (F1&_). exfalso. auto.
  - inversion H' as [| | | |? ? ? ? ? ? ? F' ? ? Q1 Q2]; subst; try congruence.
    apply first_nonempty in F' as (F1&_). exfalso. auto.
  - inversion H' as [| | | |? ? ? ? ? ? ? F' ? ? Q1 Q2]; subst; try congruence.
    apply first_nonempty in F' as (_&F1&_). exfalso. auto.
  - inversion H' as [| | | |? ? ? ? ? ? ? F' ? ? Q1 Q2]; subst; try congruence.
    apply first_nonempty in F' as (_&_&F1). exfalso. auto.
  - destruct (first_nonempty _ _ _ _ _ F) as (F1&F2&F3).
    inversion H' as [Q1 Q2|? ? Q1 Q2|? ? Q1 Q2|? ? ? ? D Q1 Q2|o1' n1' run' o2' n2' p1' p2' F' T1' T2' Q1 Q2]; subst; try (exfalso; auto; fail); try congruence.
    destruct (first_unique _ _ _ _ _ _ _ _ _ _ F F' Q1 Q2) as (->&->&->&->&->). now rewrite (IH1 p1'), (IH2 p2').
Qed.
Lemma diff_by_longest : forall old new cs, diff old new = Some (Ok cs) <-> by_longest old new (map piece_of cs).
Proof.
  intros old new cs. destruct (fuel_by_longest (S (length old)) old new) as (cs0&E&T); [lia|]. unfold diff. rewrite E. split.
  - intros Q. injection Q as <-. exact T.
  - intros T'. pose proof (by_longest_det _ _ _ T _ T') as Q. do 2 f_equal. clear -Q. revert cs Q.
    induction cs0 as [|[k v] r IH]; intros [|[k' v'] r'] Q; try discriminate; auto. cbn [map] in Q. injection Q as Q1 Q2.
    f_equal; auto. destruct k, k'; cbn in Q1; congruence.
Qed.

(* ---------- what is printed ---------- *)
Lemma minus_taken : forall cs, minus_of cs = taken (map piece_of cs).
Proof. induction cs as [|[k v] cs IH]; auto. unfold minus_of, taken in *. cbn [flat_map map]. rewrite IH. now destruct k. Qed.
Lemma add_put : forall cs, add_of cs = put_in (map piece_of cs).
Proof. induction cs as [|[k v] cs IH]; auto. unfold add_of, put_in in *. cbn [flat_map map]. rewrite IH. now destruct k. Qed.
