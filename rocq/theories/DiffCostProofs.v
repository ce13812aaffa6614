(* Proofs for C153: how many steps Diff takes. *)
From Verif Require Import GoBase GoFacts DiffModel DiffProofs DiffMoreSpec DiffMoreProofs DiffRunSpec DiffFirstProofs DiffCostModel.

Local Notation length := List.length.
Local Notation cnt := (count_occ line_dec).
Definition pairs (old new : list bytes) : nat := list_sum (map (cnt old) new).

Lemma build_steps : forall old i m, build_indices_steps i old m = (build_indices i old m, length old).
Proof. induction old as [|x r IH]; intros i m; auto. cbn [build_indices_steps build_indices length]. now rewrite IH. Qed.
Lemma inner_steps : forall ov j is st, inner_loop_steps ov j is st = (fold_left (inner_step ov j) is st, length is).
Proof. intros ov j. induction is as [|x r IH]; intros st; auto. cbn [inner_loop_steps fold_left length]. now rewrite IH. Qed.
Lemma outer_steps : forall idx new j ov b,
  outer_loop_steps idx j new ov b = (outer_loop idx j new ov b, length new + list_sum (map (fun v => length (im_get idx v)) new)).
Proof.
  intros idx. induction new as [|v r IH]; intros j ov b; auto. cbn [outer_loop_steps outer_loop]. rewrite inner_steps.
  destruct (fold_left (inner_step ov j) (im_get idx v) ([], b)) as [nov b'] eqn:E.
  rewrite IH. cbn [length map list_sum]. change (list_sum (?a :: ?l)) with (a + list_sum l). f_equal. lia.
Qed.
Lemma positions_count : forall (v : bytes) (l : list bytes) n, length (positions n l v) = cnt l v.
Proof.
  intros v. induction l as [|x l IH]; intros n; auto. cbn [positions count_occ]. destruct (line_dec x v) as [->|N].
  - rewrite beqb_refl. cbn [length]. now rewrite IH.
  - apply beqb_neq in N. now rewrite N, IH.
Qed.
Lemma longest_steps : forall old new, longest_run_steps old new = (longest_run old new, length old + (length new + pairs old new)).
Proof.
  intros old new. unfold longest_run_steps, longest_run. rewrite build_steps, outer_steps. do 3 f_equal. unfold pairs. f_equal.
  apply map_ext. intros v. rewrite build_indices_get. cbn [im_get app]. apply positions_count.
Qed.

(* The number of steps as a relation; [first_longest] determines the parts. *)
Inductive cost : list bytes -> list bytes -> nat -> Prop :=
| co_old new : cost [] new 1
| co_new old : cost old [] 1
| co_change old new : old <> [] -> new <> [] -> (forall l, In l old -> ~ In l new) -> cost old new (1 + (length old + (length new + pairs old new)))
| co_keep o1 n1 run o2 n2 k1 k2 : first_longest o1 n1 run o2 n2 -> cost o1 n1 k1 -> cost o2 n2 k2 ->
    cost (o1 ++ run ++ o2) (n1 ++ run ++ n2)
      (1 + (length (o1 ++ run ++ o2) + (length (n1 ++ run ++ n2) + pairs (o1 ++ run ++ o2) (n1 ++ run ++ n2)) + k1 + k2)).
Lemma cost_det : forall old new k, cost old new k -> forall k', cost old new k' -> k = k'.
Proof.
  induction 1 as [new|old|old new No Nn D|o1 n1 run o2 n2 p1 p2 F T1 IH1 T2 IH2]; intros k' H'.
  - inversion H' as [| | |? ? ? ? ? ? ? F' ? ? Q1 Q2]; subst; try congruence.
    apply first_nonempty in F' as (F1&_). exfalso. auto.
  - inversion H' as [| | |? ? ? ? ? ? ? F' ? ? Q1 Q2]; subst; try congruence.
    apply first_nonempty in F' as (_&F1&_). exfalso. auto.
  - inversion H' as [| | |? ? ? ? ? ? ? F' ? ? Q1 Q2]; subst; try congruence.
    apply first_nonempty in F' as (_&_&F1). exfalso. auto.
  - destruct (first_nonempty _ _ _ _ _ F) as (F1&F2&F3).
    inversion H' as [? Q1 Q2|? Q1 Q2|? ? ? ? D Q1 Q2|o1' n1' run' o2' n2' p1' p2' F' T1' T2' Q1 Q2]; subst; try (exfalso; auto; fail); try congruence.
    destruct (first_unique _ _ _ _ _ _ _ _ _ _ F F' Q1 Q2) as (->&->&->&->&->). now rewrite (IH1 p1'), (IH2 p2').
Qed.

Lemma fuel_cost : forall fuel old new, length old < fuel ->
  exists cs k, diff_fuel_steps fuel old new = Some (Ok cs, k) /\ diff_fuel fuel old new = Some (Ok cs) /\ cost old new k.
Proof.
  induction fuel as [|f IH]; intros old new Hf; [lia|].
  cbn [diff_fuel diff_fuel_steps]. destruct old as [|o0 old'].
  { destruct new as [|n0 new']; do 2 eexists; (split; [reflexivity|]); (split; [reflexivity|]); constructor. }
  destruct new as [|n0 new'].
  { do 2 eexists; (split; [reflexivity|]); (split; [reflexivity|]); constructor. }
  set (old := o0 :: old') in *. set (new := n0 :: new') in *. rewrite longest_steps.
  pose proof (longest_run_ok old new) as R. cbv zeta in R. pose proof (run_is_first old new) as F. cbv zeta in F.
  pose proof (no_run_disjoint old new) as D.
  set (b := longest_run old new) in *.
  destruct (sub_len b =? 0) eqn:E0.
  { apply Nat.eqb_eq in E0. do 2 eexists; (split; [reflexivity|]); (split; [reflexivity|]). apply co_change; try discriminate. exact (D E0). }
  apply Nat.eqb_neq in E0. destruct R as (R1&R2&R3); [lia|]. specialize (F ltac:(lia)).
  rewrite !slice_tail by lia. rewrite !slice_ok by lia.
  rewrite !Nat.sub_0_r. simpl skipn at 1 2.
  replace (sub_new b + sub_len b - sub_new b) with (sub_len b) by lia.
  destruct (IH (firstn (sub_old b) old) (firstn (sub_new b) new)) as (c1&k1&E1&E1'&T1).
  { rewrite firstn_length. lia. }
  destruct (IH (skipn (sub_old b + sub_len b) old) (skipn (sub_new b + sub_len b) new)) as (c2&k2&E2&E2'&T2).
  { rewrite skipn_length. lia. }
  change (skipn 0 old) with old. change (skipn 0 new) with new.
  rewrite E1, E2, E1', E2'. cbn [rbind]. do 2 eexists. split; [reflexivity|]. split; [reflexivity|].
  pose proof (split3 old _ _ R1) as So. pose proof (split3 new _ _ R2) as Sn.
  rewrite R3 in So. pose proof (co_keep _ _ _ _ _ _ _ F T1 T2) as K. rewrite <- So, <- Sn in K. exact K.
Qed.
Lemma steps_cost : forall old new cs k, diff_steps old new = Some (Ok cs, k) -> cost old new k.
Proof.
  intros old new cs k E. destruct (fuel_cost (S (length old)) old new) as (cs'&k'&E'&_&C); [lia|]. unfold diff_steps in E. rewrite E' in E. congruence.
Qed.
Lemma steps_diff : forall old new, exists cs k, diff_steps old new = Some (Ok cs, k) /\ diff old new = Some (Ok cs).
Proof. intros old new. destruct (fuel_cost (S (length old)) old new) as (cs'&k'&E'&E&C); [lia|]. now exists cs', k'. Qed.

(* ---------- the bound ---------- *)
Lemma pairs_bound : forall r (old new : list bytes), (forall l, In l new -> cnt old l <= r) -> pairs old new <= r * length new.
Proof.
  intros r old. unfold pairs. induction new as [|v new IH]; intros H; cbn [map length]; [cbn; lia|].
  change (list_sum (?a :: ?l)) with (a + list_sum l). pose proof (H v (or_introl eq_refl)).
  specialize (IH (fun l I => H l (or_intror I))). lia.
Qed.
Lemma cost_bound : forall old new k, cost old new k -> forall r, (forall l, In l new -> cnt old l <= r) ->
  let N := S (length old) in let M := S (length new) in k <= (N + (1 + r) * M) * N /\ k <= (N + (1 + r) * M) * M.
Proof.
  induction 1 as [new|old|old new No Nn D|o1 n1 run o2 n2 k1 k2 F T1 IH1 T2 IH2]; intros r H; cbv zeta in *.
  - cbn [length]. split; nia.
  - cbn [length]. split; nia.
  - pose proof (pairs_bound r old new H) as P. set (s := S (length old) + (1 + r) * S (length new)).
    assert (Q : 1 + (length old + (length new + pairs old new)) <= s) by (unfold s; nia). clearbody s. split; nia.
  - pose proof (pairs_bound r _ _ H) as P.
    assert (H1 : forall l, In l n1 -> cnt o1 l <= r).
    { intros l I. specialize (H l (in_or_app _ _ _ (or_introl I))). rewrite count_occ_app in H. lia. }
    assert (H2 : forall l, In l n2 -> cnt o2 l <= r).
    { intros l I. specialize (H l ltac:(rewrite !in_app_iff; auto)). rewrite !count_occ_app in H. lia. }
    specialize (IH1 r H1). specialize (IH2 r H2). destruct F as [Nr _]. assert (Lr : 1 <= length run) by (destruct run; [congruence|cbn; lia]).
    set (a := length o1) in *. set (c := length o2) in *. set (e := length n1) in *. set (g := length n2) in *. set (ru := length run) in *.
    assert (Lo : length (o1 ++ run ++ o2) = a + (ru + c)) by (rewrite !app_length; reflexivity).
    assert (Ln : length (n1 ++ run ++ n2) = e + (ru + g)) by (rewrite !app_length; reflexivity).
    rewrite Lo, Ln in *. set (p := pairs _ _) in *. clearbody a c e g ru p. clear - IH1 IH2 P Lr.
    set (s1 := S a + (1 + r) * S e) in *. set (s2 := S c + (1 + r) * S g) in *.
    set (s := S (a + (ru + c)) + (1 + r) * S (e + (ru + g))) in *.
    assert (Q1 : s1 + s2 <= s) by (unfold s, s1, s2; nia).
    assert (Q2 : 1 + (a + (ru + c) + (e + (ru + g) + p)) <= s) by (unfold s; nia).
    clearbody s s1 s2. split; nia.
Qed.

(* ---------- the family of files that need many steps ---------- *)
Definition each (x : bytes) (l : list bytes) : list bytes := weave x (map (fun a => [a]) l).
Lemma each_cons : forall x a l, each x (a :: l) = a :: x :: each x l. Proof. reflexivity. Qed.
Lemma each_length : forall x l, length (each x l) = 2 * length l.
Proof. intros x. induction l as [|a l IH]; auto. rewrite each_cons. cbn [length]. lia. Qed.
Lemma each_in : forall x l y, In y (each x l) -> y = x \/ In y l.
Proof. intros x. induction l as [|a l IH]; intros y I; [destruct I|]. rewrite each_cons in I. cbn [In] in *. destruct I as [->|[->|I]]; auto. apply IH in I. tauto. Qed.
Lemma each_count : forall x l, ~ In x l -> cnt (each x l) x = length l.
Proof.
  intros x. induction l as [|a l IH]; intros N; auto. cbn [In] in N. rewrite each_cons.
  rewrite count_occ_cons_neq, count_occ_cons_eq, IH by tauto. reflexivity.
Qed.
Lemma each_pairs : forall x a b, ~ In x a -> ~ In x b -> (forall l, In l b -> ~ In l a) -> pairs (each x a) (each x b) = length a * length b.
Proof.
  intros x a b Na Nb D. unfold pairs. assert (G : forall b, ~ In x b -> (forall l, In l b -> ~ In l a) ->
    list_sum (map (cnt (each x a)) (each x b)) = length a * length b); [|auto]. clear b Nb D.
  induction b as [|y b IH]; intros Nb D; [cbn; lia|]. rewrite each_cons. cbn [map]. change (list_sum (?p :: ?l)) with (p + list_sum l).
  change (list_sum (?p :: ?l)) with (p + list_sum l). cbn [In] in *. rewrite IH by auto. rewrite each_count by auto.
  assert (Z : cnt (each x a) y = 0).
  { apply count_occ_not_In. intros I. apply each_in in I as [->|I]; [tauto|]. apply (D y); auto. }
  rewrite Z. cbn [length]. lia.
Qed.
(* of two lines that follow each other one is x or one is in l *)
Lemma each_two : forall x l o p q r, each x l = o ++ p :: q :: r -> In p l \/ In q l.
Proof.
  intros x. induction l as [|a l IH]; intros o p q r E; [destruct o; discriminate|].
  rewrite each_cons in E. destruct o as [|o1 [|o2 o]]; cbn [app] in E.
  - injection E as <- <- _. left. now left.
  - injection E as <- <- E. destruct l as [|b l]; [discriminate|]. rewrite each_cons in E. injection E as <- E. right. right. now left.
  - injection E as <- <- E. apply IH in E. cbn [In]. tauto.
Qed.
Lemma each_first : forall x a as_ b bs, ~ In x (a :: as_) -> ~ In x (b :: bs) -> (forall l, In l (b :: bs) -> ~ In l (a :: as_)) ->
  first_longest [a] [b] [x] (each x as_) (each x bs).
Proof.
  intros x a as_ b bs Na Nb D. split; [discriminate|]. intros o1 n1 run o2 n2 Eo En.
  change ([a] ++ [x] ++ each x as_) with (each x (a :: as_)) in Eo. change ([b] ++ [x] ++ each x bs) with (each x (b :: bs)) in En.
  destruct run as [|p [|q run]]; [left; cbn; lia| |].
  - right. split; auto. assert (P : p = x).
    { assert (I1 : In p (each x (a :: as_))) by (rewrite <- Eo, !in_app_iff; cbn; auto).
      assert (I2 : In p (each x (b :: bs))) by (rewrite <- En, !in_app_iff; cbn; auto).
      apply each_in in I1 as [?|I1]; auto. apply each_in in I2 as [?|I2]; auto. exfalso. apply (D p); auto. }
    subst p. cbn [length]. destruct n1 as [|n [|n' n1]].
    + rewrite each_cons in En. cbn [app] in En. injection En as Q _. exfalso. apply Nb. now left.
    + right. split; auto. destruct o1 as [|o o1]; [|cbn; lia]. rewrite each_cons in Eo. cbn [app] in Eo. injection Eo as Q _. exfalso. apply Na. now left.
    + left. cbn. lia.
  - exfalso. symmetry in Eo. pose proof (each_two _ _ _ _ _ _ Eo) as T.
    assert (I : forall l, In l [p; q] -> In l (each x (b :: bs))).
    { intros l I. rewrite <- En, !in_app_iff. cbn [In] in *. tauto. }
    destruct T as [T|T].
    + specialize (I p ltac:(cbn; auto)). apply each_in in I as [->|I]; [auto|]. apply (D p); auto.
    + specialize (I q ltac:(cbn; auto)). apply each_in in I as [->|I]; [auto|]. apply (D q); auto.
Qed.
Lemma each_cost : forall x as_ bs, length as_ = length bs -> ~ In x as_ -> ~ In x bs -> (forall l, In l bs -> ~ In l as_) ->
  exists k, cost (each x as_) (each x bs) k /\ 6 * k + 24 = (length as_ + 2) * (length as_ + 3) * (2 * length as_ + 5).
Proof.
  intros x. induction as_ as [|a as_ IH]; intros [|b bs] L Na Nb D; try discriminate.
  - exists 1. split; [constructor|reflexivity].
  - destruct (IH bs) as (k&C&E); [auto|cbn [In] in *; tauto|cbn [In] in *; tauto|intros l I J; apply (D l); now right|].
    eexists. split.
    + assert (Pz : pairs [a] [b] = 0).
      { unfold pairs. cbn [map]. change (list_sum [cnt [a] b]) with (cnt [a] b + 0). rewrite Nat.add_0_r. apply count_occ_not_In.
        intros [->|[]]. apply (D b); now left. }
      assert (Ca : cost [a] [b] 3).
      { assert (Q : cost [a] [b] (1 + (1 + (1 + pairs [a] [b])))) by (apply (co_change [a] [b]); try discriminate;
          intros l [<-|[]] [Q|[]]; subst; apply (D a); now left). now rewrite Pz in Q. }
      exact (co_keep [a] [b] [x] (each x as_) (each x bs) _ _ (each_first x a as_ b bs Na Nb D) Ca C).
    + change ([a] ++ [x] ++ each x as_) with (each x (a :: as_)). change ([b] ++ [x] ++ each x bs) with (each x (b :: bs)).
      rewrite each_pairs by auto. rewrite !each_length. cbn [length] in *. injection L as L. rewrite <- L. nia.
Qed.
