From Verif Require Import GoBase GoFacts DiffModel DiffSpec.

(* ---------- the longest common run ---------- *)
Section Run.
Variables old new : list bytes.

(* length of the longest common suffix of the first i lines of old and the first j lines of new *)
Fixpoint csuf (i j : nat) {struct i} : nat :=
  match i, j with
  | S i', S j' =>
      match nth_error old i', nth_error new j' with
      | Some a, Some b => if beqb a b then S (csuf i' j') else 0
      | _, _ => 0
      end
  | _, _ => 0
  end.

Lemma csuf_le : forall i j, csuf i j <= i /\ csuf i j <= j.
Proof.
  induction i as [|i IH]; intros [|j]; simpl; try lia.
  destruct (nth_error old i); [|lia]. destruct (nth_error new j); [|lia].
  destruct (beqb b b0); [|lia]. specialize (IH j). lia.
Qed.

Lemma firstn_S_nth : forall {A} (l : list A) n x, nth_error l n = Some x -> firstn (S n) l = firstn n l ++ [x].
Proof.
  induction l as [|y l IH]; intros [|n] x H; simpl in *; try discriminate.
  - congruence.
  - f_equal. apply IH; auto.
Qed.

Lemma nth_error_skipn : forall {A} (l : list A) p k, nth_error (skipn p l) k = nth_error l (p + k).
Proof. induction l as [|x l IH]; intros [|p] k; simpl; auto. now destruct k. Qed.

Lemma csuf_run : forall i j, csuf i j > 0 ->
  i <= length old /\ j <= length new /\
  firstn (csuf i j) (skipn (i - csuf i j) old) = firstn (csuf i j) (skipn (j - csuf i j) new).
Proof.
  induction i as [|i IH]; intros [|j] H; simpl in H; try lia.
  destruct (nth_error old i) as [a|] eqn:E1; [|simpl in H; rewrite ?E1 in H; lia].
  destruct (nth_error new j) as [b|] eqn:E2; [|lia].
  destruct (beqb a b) eqn:E3; [|lia]. apply beqb_eq in E3. subst b.
  assert (i < length old) by (apply nth_error_Some; congruence).
  assert (j < length new) by (apply nth_error_Some; congruence).
  simpl csuf. rewrite E1, E2, beqb_refl. split; [lia|]. split; [lia|].
  simpl Nat.sub. pose proof (csuf_le i j) as [L1 L2].
  rewrite firstn_S_nth with (x := a) by (rewrite nth_error_skipn; replace (i - csuf i j + csuf i j) with i by lia; auto).
  symmetry. rewrite firstn_S_nth with (x := a) by (rewrite nth_error_skipn; replace (j - csuf i j + csuf i j) with j by lia; auto).
  f_equal. destruct (csuf i j) eqn:Ec; auto.
  destruct (IH j) as (_&_&R); [lia|]. rewrite Ec in R. auto.
Qed.

Lemma csuf_max : forall k p q, p + k <= length old -> q + k <= length new ->
  firstn k (skipn p old) = firstn k (skipn q new) -> k <= csuf (p + k) (q + k).
Proof.
  induction k as [|k IH]; intros p q Hp Hq E; [lia|].
  rewrite !Nat.add_succ_r. simpl.
  destruct (nth_error old (p + k)) as [a|] eqn:E1; [|apply nth_error_None in E1; lia].
  destruct (nth_error new (q + k)) as [b|] eqn:E2; [|apply nth_error_None in E2; lia].
  rewrite (firstn_S_nth _ _ a) in E by (rewrite nth_error_skipn; auto).
  rewrite (firstn_S_nth _ _ b) in E by (rewrite nth_error_skipn; auto).
  apply app_inj_tail in E as [E ->]. rewrite beqb_refl.
  apply le_n_S. apply IH; auto; lia.
Qed.

Lemma csuf_neq : forall i j a b, nth_error old i = Some a -> nth_error new j = Some b -> a <> b ->
  csuf (S i) (S j) = 0.
Proof. intros i j a b H1 H2 H. simpl. rewrite H1, H2. apply beqb_neq in H. now rewrite H. Qed.

(* positions of k in l, counting from n *)
Fixpoint positions (n : nat) (l : list bytes) (k : bytes) : list nat :=
  match l with
  | [] => []
  | x :: r => if beqb x k then n :: positions (S n) r k else positions (S n) r k
  end.

Lemma positions_spec : forall l n k i, In i (positions n l k) <-> (n <= i /\ nth_error l (i - n) = Some k).
Proof.
  induction l as [|x r IH]; intros n k i; simpl.
  - split; [contradiction|]. intros [_ H]. destruct (i - n); discriminate.
  - destruct (beqb x k) eqn:E; simpl; rewrite ?IH; clear IH.
    + apply beqb_eq in E. subst. split.
      * intros [->|[H1 H2]]. { rewrite Nat.sub_diag. auto. }
        split; [lia|]. replace (i - n) with (S (i - S n)) by lia. auto.
      * intros [H1 H2]. destruct (Nat.eq_dec n i); [auto|right]. split; [lia|].
        replace (i - n) with (S (i - S n)) in H2 by lia. auto.
    + apply beqb_neq in E. split.
      * intros [H1 H2]. split; [lia|]. replace (i - n) with (S (i - S n)) by lia. auto.
      * intros [H1 H2]. destruct (Nat.eq_dec n i).
        { subst. rewrite Nat.sub_diag in H2. simpl in H2. congruence. }
        split; [lia|]. replace (i - n) with (S (i - S n)) in H2 by lia. auto.
Qed.

Lemma im_get_append : forall m k i k', im_get (im_append m k i) k' =
  if beqb k k' then im_get m k ++ [i] else im_get m k'.
Proof. reflexivity. Qed.

Lemma build_indices_get : forall l n m k, im_get (build_indices n l m) k = im_get m k ++ positions n l k.
Proof.
  induction l as [|x r IH]; intros n m k; simpl; [now rewrite app_nil_r|].
  rewrite IH, im_get_append. destruct (beqb x k) eqn:E; auto.
  apply beqb_eq in E. subst. now rewrite <- app_assoc.
Qed.

(* what is known about the best run after seeing all (i, j') with P i j' *)
Definition best_ok (P : nat -> nat -> Prop) (b : best) : Prop :=
  (forall i j, P i j -> csuf i j <= sub_len b) /\
  (sub_len b > 0 -> exists i j, i <= length old /\ j <= length new /\ csuf i j = sub_len b /\
     sub_old b = i - sub_len b /\ sub_new b = j - sub_len b).

Lemma inner_fold : forall overlap j v is nov b P,
  nth_error new j = Some v ->
  (forall i, i < length old -> om_get overlap i = csuf (S i) j) ->
  (forall i, In i is -> nth_error old i = Some v) ->
  best_ok P b ->
  let st := fold_left (inner_step overlap j) is (nov, b) in
  (forall i, om_get (fst st) i = if in_dec Nat.eq_dec i is then csuf (S i) (S j) else om_get nov i) /\
  best_ok (fun i' j' => P i' j' \/ (j' = S j /\ exists i, i' = S i /\ In i is)) (snd st).
Proof.
  intros overlap j v is. induction is as [|i0 is IH]; intros nov b P Hj Hov His Hb; cbn [fold_left].
  - simpl. split; auto. destruct Hb as [B1 B2]. split; auto.
    intros i' j' [H|(_&i&_&[])]; auto.
  - set (st := inner_step overlap j (nov, b) i0).
    assert (Hi0 : nth_error old i0 = Some v) by (apply His; left; auto).
    assert (L0 : i0 < length old) by (apply nth_error_Some; congruence).
    assert (V : (match i0 with 0 => 1 | S j0 => om_get overlap j0 + 1 end) = csuf (S i0) (S j)).
    { simpl. rewrite Hi0, Hj, beqb_refl. destruct i0 as [|i1]; auto. rewrite Hov by lia. lia. }
    assert (S1 : exists b', st = ((i0, csuf (S i0) (S j)) :: nov, b') /\
        best_ok (fun i' j' => P i' j' \/ (j' = S j /\ i' = S i0)) b').
    { unfold st, inner_step. rewrite V. cbn [om_get]. rewrite Nat.eqb_refl.
      destruct Hb as [B1 B2].
      destruct (sub_len b <? csuf (S i0) (S j)) eqn:E; eexists; (split; [reflexivity|]).
      - split; cbn [sub_len sub_old sub_new].
        + intros i' j' [H|[-> ->]]; auto. apply B1 in H. apply Nat.ltb_lt in E. lia.
        + intros _. exists (S i0), (S j). rewrite !Nat.add_1_r.
          split; [lia|]. split; [|auto].
          assert (j < length new) by (apply nth_error_Some; congruence). lia.
      - split; auto. intros i' j' [H|[-> ->]]; auto. apply Nat.ltb_ge in E. lia. }
    destruct S1 as (b'&E&Hb'). rewrite E.
    assert (His' : forall i, In i is -> nth_error old i = Some v) by (intros; apply His; right; auto).
    destruct (IH ((i0, csuf (S i0) (S j)) :: nov) b' _ Hj Hov His' Hb') as [I1 I2].
    split.
    + intros i. rewrite I1. cbn [om_get].
      destruct (in_dec Nat.eq_dec i is) as [H|H]; destruct (in_dec Nat.eq_dec i (i0 :: is)) as [H'|H']; auto.
      * exfalso; apply H'; right; auto.
      * destruct H' as [->|H']; [now rewrite Nat.eqb_refl|contradiction].
      * destruct (i0 =? i) eqn:E2; auto. apply Nat.eqb_eq in E2. exfalso; apply H'; left; auto.
    + destruct I2 as [I2 I3]. split; auto.
      intros i' j' [H|(->&i&->&[<-|H])]; apply I2; eauto 6.
Qed.

Lemma outer_ok : forall rest pre overlap b,
  new = pre ++ rest ->
  (forall i, i < length old -> om_get overlap i = csuf (S i) (length pre)) ->
  best_ok (fun i j => i <= length old /\ j <= length pre) b ->
  best_ok (fun i j => i <= length old /\ j <= length new)
    (outer_loop (build_indices 0 old []) (length pre) rest overlap b).
Proof.
  induction rest as [|v rest IH]; intros pre overlap b Hn Hov Hb; cbn [outer_loop].
  - rewrite app_nil_r in Hn. destruct Hb as [B1 B2]. split; auto.
    intros i j [H1 H2]. apply B1. split; auto. now rewrite <- Hn.
  - rewrite build_indices_get. simpl app.
    assert (Hj : nth_error new (length pre) = Some v).
    { rewrite Hn, nth_error_app2, Nat.sub_diag by lia. reflexivity. }
    assert (Hp : forall i, In i (positions 0 old v) -> nth_error old i = Some v).
    { intros i Hi. apply positions_spec in Hi as [_ Hi]. now rewrite Nat.sub_0_r in Hi. }
    destruct (inner_fold overlap (length pre) v (positions 0 old v) [] b _ Hj Hov Hp Hb) as [I1 I2].
    match goal with |- context [fold_left ?f ?l ?x] => destruct (fold_left f l x) as [nov b'] eqn:Ef end.
    match type of I1 with context [fold_left ?f ?l ?x] => replace (fold_left f l x) with (nov, b') in I1 by (symmetry; exact Ef) end.
    match type of I2 with context [fold_left ?f ?l ?x] => replace (fold_left f l x) with (nov, b') in I2 by (symmetry; exact Ef) end.
    cbn [fst snd] in *.
    assert (Z : forall i, i < length old -> ~ In i (positions 0 old v) -> csuf (S i) (S (length pre)) = 0).
    { intros i Hi Hnot. destruct (nth_error old i) as [a|] eqn:Ea.
      - eapply csuf_neq; eauto. intros ->. apply Hnot. apply positions_spec. split; [lia|]. now rewrite Nat.sub_0_r.
      - apply nth_error_None in Ea. lia. }
    replace (S (length pre)) with (length (pre ++ [v])) by (rewrite app_length; simpl; lia).
    apply IH.
    + now rewrite <- app_assoc.
    + intros i Hi. rewrite I1. rewrite app_length. simpl length. rewrite Nat.add_1_r.
      destruct (in_dec Nat.eq_dec i (positions 0 old v)) as [H|H]; auto.
      simpl. symmetry. apply Z; auto.
    + destruct I2 as [B1 B2]. split; auto. rewrite app_length. simpl length.
      intros i j [H1 H2]. destruct (Nat.eq_dec j (S (length pre))) as [->|N].
      * destruct i as [|i]; [simpl; lia|].
        destruct (in_dec Nat.eq_dec i (positions 0 old v)) as [H|H].
        -- apply B1. right. eauto.
        -- rewrite Z by (auto; lia). lia.
      * apply B1. left. lia.
Qed.

Lemma longest_run_best : best_ok (fun i j => i <= length old /\ j <= length new) (longest_run old new).
Proof.
  unfold longest_run. apply (outer_ok new [] []).
  - reflexivity.
  - intros i Hi. simpl. destruct (nth_error old i); reflexivity.
  - split; simpl; [|lia]. intros i j [_ H]. pose proof (csuf_le i j). lia.
Qed.

Lemma longest_run_ok : let b := longest_run old new in
  sub_len b > 0 ->
  sub_old b + sub_len b <= length old /\ sub_new b + sub_len b <= length new /\
  firstn (sub_len b) (skipn (sub_old b) old) = firstn (sub_len b) (skipn (sub_new b) new).
Proof.
  intros b H. destruct longest_run_best as [_ B2]. destruct (B2 H) as (i&j&H1&H2&H3&H4&H5). fold b in H3, H4, H5.
  destruct (csuf_run i j) as (R1&R2&R3). { rewrite H3. auto. }
  pose proof (csuf_le i j). rewrite H3 in *. rewrite H4, H5. split; [lia|]. split; [lia|]. auto.
Qed.

Lemma longest_run_max : forall run a b c d, old = a ++ run ++ b -> new = c ++ run ++ d ->
  length run <= sub_len (longest_run old new).
Proof.
  intros run a b c d Ho Hn. destruct longest_run_best as [B1 _].
  etransitivity; [|apply (B1 (length a + length run) (length c + length run))].
  - apply csuf_max.
    + rewrite Ho, !app_length. lia.
    + rewrite Hn, !app_length. lia.
    + rewrite Ho, Hn, !skipn_app, !skipn_all, !Nat.sub_diag. simpl.
      rewrite !firstn_app, !firstn_all, !Nat.sub_diag. reflexivity.
  - split; [rewrite Ho, !app_length; lia | rewrite Hn, !app_length; lia].
Qed.
End Run.

(* ---------- Diff ---------- *)
Lemma slice_ok : forall {A} (s : list A) lo hi, lo <= hi -> hi <= length s ->
  slice s lo hi = Some (firstn (hi - lo) (skipn lo s)).
Proof.
  intros. unfold slice. replace ((lo <=? hi) && (hi <=? length s)) with true by lia. reflexivity.
Qed.

Lemma slice_tail : forall {A} (s : list A) lo, lo <= length s -> slice s lo (length s) = Some (skipn lo s).
Proof.
  intros. rewrite slice_ok by lia. f_equal. apply firstn_all2. rewrite skipn_length. lia.
Qed.

Lemma split3 : forall {A} (l : list A) p k, p + k <= length l ->
  l = firstn p l ++ firstn k (skipn p l) ++ skipn (p + k) l.
Proof.
  intros A l p k H. rewrite <- (firstn_skipn p l) at 1. f_equal.
  rewrite <- (firstn_skipn k (skipn p l)) at 1. f_equal.
  clear H. revert p. induction l as [|x l IH]; intros p; [now rewrite !skipn_nil|].
  destruct p; [reflexivity|]. simpl. apply IH.
Qed.

(* The shape of the recursion, as a relation. *)
Inductive diff_tree : list bytes -> list bytes -> list comparison -> Prop :=
| dt_nil : diff_tree [] [] []
| dt_add : forall new, new <> [] -> diff_tree [] new [{| kind := Add; values := new |}]
| dt_minus : forall old, old <> [] -> diff_tree old [] [{| kind := Minus; values := old |}]
| dt_both : forall old new, old <> [] -> new <> [] -> sub_len (longest_run old new) = 0 ->
    diff_tree old new [{| kind := Minus; values := old |}; {| kind := Add; values := new |}]
| dt_run : forall o1 o2 n1 n2 run c1 c2, run <> [] ->
    length run = sub_len (longest_run (o1 ++ run ++ o2) (n1 ++ run ++ n2)) ->
    diff_tree o1 n1 c1 -> diff_tree o2 n2 c2 ->
    diff_tree (o1 ++ run ++ o2) (n1 ++ run ++ n2) (c1 ++ [{| kind := Equal; values := run |}] ++ c2).

Lemma diff_fuel_tree : forall fuel old new, length old < fuel ->
  exists cs, diff_fuel fuel old new = Some (Ok cs) /\ diff_tree old new cs.
Proof.
  induction fuel as [|f IH]; intros old new Hf; [lia|].
  cbn [diff_fuel]. destruct old as [|o0 old'].
  { destruct new as [|n0 new']; eexists; (split; [reflexivity|]); constructor. discriminate. }
  destruct new as [|n0 new'].
  { eexists; (split; [reflexivity|]); constructor. discriminate. }
  set (old := o0 :: old') in *. set (new := n0 :: new') in *.
  pose proof (longest_run_ok old new) as R. cbv zeta in R.
  set (b := longest_run old new) in *.
  destruct (sub_len b =? 0) eqn:E0.
  { apply Nat.eqb_eq in E0. eexists; (split; [reflexivity|]). apply dt_both; try discriminate. auto. }
  apply Nat.eqb_neq in E0. destruct R as (R1&R2&R3); [lia|].
  rewrite !slice_tail by lia. rewrite !slice_ok by lia.
  rewrite !Nat.sub_0_r. simpl skipn at 1 2.
  replace (sub_new b + sub_len b - sub_new b) with (sub_len b) by lia.
  destruct (IH (firstn (sub_old b) old) (firstn (sub_new b) new)) as (c1&E1&T1).
  { rewrite firstn_length. lia. }
  destruct (IH (skipn (sub_old b + sub_len b) old) (skipn (sub_new b + sub_len b) new)) as (c2&E2&T2).
  { rewrite skipn_length. lia. }
  change (skipn 0 old) with old. change (skipn 0 new) with new.
  rewrite E1, E2. cbn [rbind]. eexists; split; [reflexivity|].
  pose proof (split3 old _ _ R1) as So. pose proof (split3 new _ _ R2) as Sn.
  rewrite R3 in So.
  set (run := firstn (sub_len b) (skipn (sub_new b) new)) in *.
  set (o1 := firstn (sub_old b) old) in *. set (o2 := skipn (sub_old b + sub_len b) old) in *.
  set (n1 := firstn (sub_new b) new) in *. set (n2 := skipn (sub_new b + sub_len b) new) in *.
  assert (T : diff_tree (o1 ++ run ++ o2) (n1 ++ run ++ n2) (c1 ++ [{| kind := Equal; values := run |}] ++ c2)).
  2:{ rewrite <- So, <- Sn in T. exact T. }
  apply dt_run; auto.
  - assert (Lr : length run = sub_len b) by (unfold run; rewrite firstn_length, skipn_length; lia).
    intros H. rewrite H in Lr. simpl in Lr. lia.
  - rewrite <- So, <- Sn. fold b. unfold run. rewrite firstn_length, skipn_length. lia.
Qed.

Lemma diff_total : forall old new, exists cs, diff old new = Some (Ok cs) /\ diff_tree old new cs.
Proof. intros. apply diff_fuel_tree. lia. Qed.

Lemma assemble_old_app : forall a b, assemble_old (a ++ b) = assemble_old a ++ assemble_old b.
Proof. intros. apply flat_map_app. Qed.
Lemma assemble_new_app : forall a b, assemble_new (a ++ b) = assemble_new a ++ assemble_new b.
Proof. intros. apply flat_map_app. Qed.

Lemma diff_tree_assemble : forall old new cs, diff_tree old new cs ->
  assemble_old cs = old /\ assemble_new cs = new.
Proof.
  induction 1; simpl; rewrite ?app_nil_r; auto.
  rewrite !assemble_old_app, !assemble_new_app.
  change (assemble_old ({| kind := Equal; values := run |} :: c2)) with (run ++ assemble_old c2).
  change (assemble_new ({| kind := Equal; values := run |} :: c2)) with (run ++ assemble_new c2).
  destruct IHdiff_tree1, IHdiff_tree2. subst. auto.
Qed.

Definition changed_nonempty (cs : list comparison) : Prop :=
  Forall (fun c => values c <> []) cs.

Lemma diff_tree_nonempty : forall old new cs, diff_tree old new cs -> changed_nonempty cs.
Proof.
  unfold changed_nonempty. induction 1; auto.
  rewrite !Forall_app. auto.
Qed.

Lemma diff_reassembles : forall old new, exists cs, diff old new = Some (Ok cs) /\
  assemble_old cs = old /\ assemble_new cs = new.
Proof.
  intros. destruct (diff_total old new) as (cs&E&T). exists cs. split; auto.
  now apply diff_tree_assemble.
Qed.

Lemma diff_keeps_run : forall old new run a b c d cs, run <> [] ->
  old = a ++ run ++ b -> new = c ++ run ++ d -> diff old new = Some (Ok cs) ->
  exists kept, In {| kind := Equal; values := kept |} cs /\ length run <= length kept.
Proof.
  intros old new run a b c d cs Hr Ho Hn E.
  destruct (diff_total old new) as (cs'&E'&T). rewrite E in E'. inversion E'; subst cs'. clear E'.
  pose proof (longest_run_max old new run a b c d Ho Hn) as M.
  assert (length run > 0) by (destruct run; [congruence|simpl; lia]).
  assert (No : old <> []) by (intros Z; rewrite Z in Ho; destruct a; destruct run; discriminate || simpl in *; lia).
  assert (Nn : new <> []) by (intros Z; rewrite Z in Hn; destruct c; destruct run; discriminate || simpl in *; lia).
  clear Ho Hn E. destruct T; try congruence; try lia.
  exists run0. split; [apply in_or_app; right; left; auto|]. lia.
Qed.

(* ---------- Format ---------- *)
Lemma output_nonempty_lines : forall cs o n x, In x (output_lines o n cs) -> x <> [].
Proof.
  fix IH 1. intros cs o n x H. destruct cs as [|c rest]; [contradiction|].
  cbn [output_lines] in H. destruct (kind c).
  - eapply IH; eauto.
  - destruct H as [<-|H].
    + destruct (ntoa o) eqn:E; [now apply ntoa_nonempty in E|discriminate].
    + apply in_app_or in H as [H|H]; [|eapply IH; eauto].
      apply in_map_iff in H as (l&<-&_). discriminate.
  - assert (D : In x ((fmt_range o (length (values c)) ++ B "d" ++ ntoa n)
       :: map (fun l => B "< " ++ l) (values c) ++ output_lines (o + length (values c)) n rest) -> x <> []).
    { intros [<-|H'].
      - intros H'. apply app_eq_nil in H' as [_ H']. discriminate.
      - apply in_app_or in H' as [H'|H']; [|eapply IH; eauto].
        apply in_map_iff in H' as (l&<-&_). discriminate. }
    destruct rest as [|c2 rest']; auto. destruct (kind c2); auto. clear D.
    destruct H as [<-|H].
    { intros H'. apply app_eq_nil in H' as [_ H']. discriminate. }
    apply in_app_or in H as [H|H].
    { apply in_map_iff in H as (l&<-&_). discriminate. }
    apply in_app_or in H as [H|H].
    { destruct H as [<-|[]]. discriminate. }
    apply in_app_or in H as [H|H]; [|eapply IH; eauto].
    apply in_map_iff in H as (l&<-&_). discriminate.
Qed.

Lemma join_nil_iff : forall l, (forall x, In x l -> x <> []) -> (join [nl] l = [] <-> l = []).
Proof.
  intros l H. split; [|intros ->; auto]. destruct l as [|x r]; auto. intros E. exfalso.
  apply (H x); [left; auto|]. simpl in E. destruct r; auto. now apply app_eq_nil in E.
Qed.

Lemma output_nil_equal : forall cs o n, output_lines o n cs = [] -> Forall (fun c => kind c = Equal) cs.
Proof.
  induction cs as [|c rest IH]; intros o n H; auto. cbn [output_lines] in H.
  destruct (kind c) eqn:Ek; try discriminate.
  - constructor; eauto.
  - destruct rest as [|c2 r]; [discriminate|]. destruct (kind c2); discriminate.
Qed.

Lemma all_equal_same : forall cs, Forall (fun c => kind c = Equal) cs -> assemble_old cs = assemble_new cs.
Proof. induction 1 as [|c cs H _ IH]; auto. simpl. now rewrite H, IH. Qed.

Lemma format_nil_iff : forall cs, format cs = [] <-> output_lines 0 0 cs = [].
Proof.
  intros. unfold format. apply join_nil_iff. intros; eapply output_nonempty_lines; eauto.
Qed.

Lemma diff_same : forall l, l <> [] -> diff l l = Some (Ok [{| kind := Equal; values := l |}]).
Proof.
  intros l Hl. destruct (diff_total l l) as (cs&E&T). rewrite E. do 2 f_equal.
  pose proof (longest_run_max l l l [] [] [] []) as M. simpl in M. rewrite app_nil_r in M.
  specialize (M eq_refl eq_refl).
  assert (G : forall o n cs, diff_tree o n cs -> o = n -> n <> [] -> length n <= sub_len (longest_run o n) ->
    cs = [{| kind := Equal; values := n |}]).
  { clear. intros o n cs T He Hn HL. assert (length n > 0) by (destruct n; [congruence|simpl; lia]).
    destruct T; try congruence; try lia.
    rewrite <- H1 in HL. rewrite !app_length in HL.
    assert (length n1 = 0 /\ length n2 = 0) as [L3 L4] by lia.
    apply (f_equal (@length bytes)) in He. rewrite !app_length in He.
    assert (length o1 = 0 /\ length o2 = 0) as [L1 L2] by lia.
    apply length_zero_iff_nil in L1, L2, L3, L4. subst.
    assert (N : forall o n cs, diff_tree o n cs -> o = [] -> n = [] -> cs = []).
    { clear. intros o n cs T Ho Hn. destruct T; try congruence.
      apply app_eq_nil in Ho as [_ Ho]; apply app_eq_nil in Ho as [Ho _]; congruence. }
    rewrite (N _ _ _ T1), (N _ _ _ T2) by auto. simpl. now rewrite app_nil_r. }
  eapply G; eauto.
Qed.

Lemma format_empty_iff_equal : forall old new cs, diff old new = Some (Ok cs) ->
  (format cs = [] <-> old = new).
Proof.
  intros old new cs E. rewrite format_nil_iff. split.
  - intros H. apply output_nil_equal in H. apply all_equal_same in H.
    destruct (diff_reassembles old new) as (cs'&E'&A1&A2). rewrite E in E'. inversion E'; subst cs'. congruence.
  - intros <-. destruct old as [|x r].
    + inversion E. reflexivity.
    + rewrite diff_same in E by discriminate. inversion E. reflexivity.
Qed.
