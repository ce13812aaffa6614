(* Proofs for C156. *)
From Verif Require Import GoBase GoFacts GoMap TsortModel TsortSpec TsortProofs TsortQueueSpec TsortQueueProofs TsortRunSpec TsortRunProofs
  TsortSetSpec.

Lemma words_even : forall ps, Nat.even (List.length (words_of ps)) = true.
Proof. induction ps as [|p ps IH]; auto. Qed.
Lemma words_pairs : forall ps, pairs_of (words_of ps) = ps.
Proof. induction ps as [|[a b] ps IH]; auto. unfold words_of in *. cbn [flat_map app fst snd pairs_of]. now rewrite IH. Qed.
Lemma words_in : forall ps x, In x (words_of ps) <-> exists y, In (x, y) ps \/ In (y, x) ps.
Proof. intros ps x. rewrite (words_in_pairs (fun l => l) (fun l => Permutation_refl l) (List.length (words_of ps))), words_pairs by auto using words_even. reflexivity. Qed.
Lemma path_weaker : forall (r r' : bytes -> bytes -> Prop), (forall u v, r u v -> r' u v) -> forall x y, path r x y -> path r' x y.
Proof. intros r r' H x y P. induction P; [apply t_step, H, H0|eapply t_trans; eauto]. Qed.
Lemma same_nodup_perm : forall l l' : list bytes, NoDup l -> NoDup l' -> (forall x, In x l <-> In x l') -> Permutation l l'.
Proof. intros l l' N N' H. now apply NoDup_Permutation. Qed.

Section Runs.
Variables perm perm' : list bytes -> list bytes.
Hypothesis P : forall l, Permutation (perm l) l.
Hypothesis P' : forall l, Permutation (perm' l) l.
Lemma fewer_run : forall ps ps' l, no_erase_pairs ps -> no_erase_pairs ps' -> (forall p, In p ps' -> In p ps) ->
  tsort_run perm (words_of ps) None = Some (printed l) -> exists l', tsort_run perm' (words_of ps') None = Some (printed l').
Proof.
  intros ps ps' l N N' H E.
  destruct (tsort_command perm' P' (words_of ps') (words_even ps')) as [(l'&_&E')|((x&C)&_)]; [now rewrite words_pairs|eauto|].
  exfalso. destruct (tsort_command perm P (words_of ps) (words_even ps)) as [(l2&T&_)|(_&E2)]; [now rewrite words_pairs| |rewrite E in E2; discriminate E2].
  apply (topological_acyclic _ _ _ T). exists x. eapply path_weaker; [|exact C]. intros u v [I D]. split; auto.
  rewrite words_pairs in *. auto.
Qed.
Lemma same_run : forall ps ps', no_erase_pairs ps -> no_erase_pairs ps' -> (forall p, In p ps <-> In p ps') ->
  (tsort_run perm (words_of ps) None = Some impossible /\ tsort_run perm' (words_of ps') None = Some impossible) \/
  exists l l', Permutation l l' /\ tsort_run perm (words_of ps) None = Some (printed l) /\
    tsort_run perm' (words_of ps') None = Some (printed l').
Proof.
  intros ps ps' N N' H.
  assert (R : forall u v, rel_of (words_of ps) u v <-> rel_of (words_of ps') u v).
  { intros u v. unfold rel_of. rewrite !words_pairs, H. reflexivity. }
  destruct (tsort_command perm P (words_of ps) (words_even ps)) as [(l&T&E)|(C&E)]; [now rewrite words_pairs| |];
  (destruct (tsort_command perm' P' (words_of ps') (words_even ps')) as [(l'&T'&E')|(C'&E')]; [now rewrite words_pairs| |]).
  - right. exists l, l'. repeat split; auto. destruct T as (T1&T2&_), T' as (T1'&T2'&_). apply same_nodup_perm; auto.
    intros x. rewrite T2, T2', !words_in. split; intros (y&[I|I]); exists y; apply H in I; tauto.
  - exfalso. apply (topological_acyclic _ _ _ T). destruct C' as (x&C). exists x. eapply path_weaker; [|exact C]. intros; now apply R.
  - exfalso. apply (topological_acyclic _ _ _ T'). destruct C as (x&C). exists x. eapply path_weaker; [|exact C]. intros; now apply R.
  - left. auto.
Qed.
End Runs.

(* ---- a pair given again ---- *)
Lemma mset_same : forall (m : sorter) k v, mfind m k = Some v -> mset m k v = m.
Proof.
  induction m as [|[k' v'] m IH]; intros k v H; [discriminate|]. cbn [mfind mset] in *. destruct (beqb k' k) eqn:E.
  - now injection H as ->.
  - now rewrite IH.
Qed.
Definition call (p : bytes * bytes) : list bytes := if beqb (fst p) (snd p) then [fst p] else [fst p; snd p].
Lemma add_again : forall s x y, In y (successors s x) -> add s [x; y] = s.
Proof. intros s x y H. cbn [add add_pairs]. apply in_slice_iff in H. now rewrite H. Qed.
Lemma stays : forall ps s x y, In y (successors s x) -> ~ In (x, x) ps -> In y (successors (fold_left add (map call ps) s) x).
Proof.
  induction ps as [|[a b] ps IH]; intros s x y H N; [exact H|]. cbn [map fold_left]. apply IH; [|cbn in N; tauto].
  unfold call. cbn [fst snd]. destruct (beqb a b) eqn:E.
  - apply beqb_eq in E. subst b. cbn [add]. rewrite succ_set. destruct (beqb a x) eqn:E; auto.
    apply beqb_eq in E. subst a. exfalso. apply N. now left.
  - cbn [add add_pairs]. destruct (in_slice _ _); auto. rewrite succ_set. destruct (beqb a x) eqn:E2; auto.
    apply beqb_eq in E2. subst a. apply in_or_app. now left.
Qed.
Lemma stays_alone : forall ps s x, mfind s x = Some [] -> (forall z, In (x, z) ps -> z = x) ->
  mfind (fold_left add (map call ps) s) x = Some [].
Proof.
  induction ps as [|[a b] ps IH]; intros s x H N; [exact H|]. cbn [map fold_left]. apply IH; [|intros z I; apply N; now right].
  unfold call. cbn [fst snd]. destruct (beqb a b) eqn:E.
  - cbn [add]. rewrite mfind_set. now destruct (beqb a x).
  - cbn [add add_pairs]. destruct (in_slice _ _); auto. rewrite mfind_set. destruct (beqb a x) eqn:E2; auto.
    apply beqb_eq in E2. subst a. apply beqb_neq in E. exfalso. apply E. symmetry. apply N. now left.
Qed.
Lemma again_state : forall ps1 x y ps2 ps3 s, (x <> y -> ~ In (x, x) ps2) -> (x = y -> forall z, In (x, z) ps2 -> z = x) ->
  fold_left add (map call (ps1 ++ (x, y) :: ps2 ++ (x, y) :: ps3)) s = fold_left add (map call (ps1 ++ (x, y) :: ps2 ++ ps3)) s.
Proof.
  intros ps1 x y ps2 ps3 s H1 H2. rewrite !map_app, !fold_left_app. cbn [map fold_left]. rewrite !map_app, !fold_left_app. cbn [map fold_left].
  f_equal. set (s1 := fold_left add (map call ps1) s). assert (Ec : call (x, y) = if beqb x y then [x] else [x; y]) by reflexivity.
  rewrite Ec. clear Ec. destruct (beqb x y) eqn:E.
  - apply beqb_eq in E. subst y. cbn [add]. apply mset_same. apply stays_alone; auto. rewrite mfind_set. now rewrite beqb_refl.
  - apply beqb_neq in E. apply add_again. apply stays; auto. apply successors_find.
    destruct (in_slice (successors s1 x) y) eqn:I; cbn [add add_pairs]; rewrite I.
    + apply in_slice_iff in I. now apply successors_find.
    + rewrite mfind_set, beqb_refl. eexists. split; [reflexivity|]. apply in_or_app. right. now left.
Qed.
Lemma run_state : forall perm ps, tsort_run perm (words_of ps) None =
  match order perm (fold_left add (map call ps) new_sorter) with
  | None => None
  | Some (_, Ok l) => Some (printed l)
  | Some (_, Err e) => Some (die (B "sort error!") e)
  | Some (_, Panic) => None
  end.
Proof.
  intros perm ps. unfold tsort_run. rewrite (read_pairs_even (List.length (words_of ps))) by auto using words_even.
  rewrite words_pairs. reflexivity.
Qed.

(* ---- one item before all others ---- *)
Lemma star_state : forall a xs acc, NoDup (acc ++ xs) -> ~ In a xs ->
  fold_left add (map call (map (pair a) xs)) [(a, acc)] = [(a, acc ++ xs)].
Proof.
  intros a. induction xs as [|x xs IH]; intros acc N A; [now rewrite app_nil_r|]. cbn [map fold_left]. unfold call at 2. cbn [fst snd].
  assert (E : beqb a x = false) by (apply beqb_neq; intros ->; apply A; now left). rewrite E. cbn [add add_pairs].
  unfold successors. cbn [mfind mset]. rewrite !beqb_refl.
  assert (I : in_slice acc x = false).
  { destruct (in_slice acc x) eqn:I; auto. apply in_slice_iff in I. apply NoDup_remove_2 in N. exfalso. apply N. apply in_or_app. now left. }
  rewrite I, IH.
  - now rewrite <- app_assoc.
  - now rewrite <- app_assoc.
  - intros H. apply A. now right.
Qed.
Lemma star_loop : forall xs fuel out, List.length xs <= fuel -> order_loop fuel [] out xs = Some ([], out ++ xs).
Proof.
  induction xs as [|x xs IH]; intros fuel out L; [rewrite app_nil_r; now destruct fuel|].
  destruct fuel as [|f]; [cbn in L; lia|]. cbn [List.length] in L. cbn [order_loop successors mfind mdel filter]. rewrite app_nil_r, IH by lia.
  now rewrite <- app_assoc.
Qed.
Lemma remove_all_keeps : forall vs a, ~ In a vs -> remove_all [a] vs = [a].
Proof.
  induction vs as [|v vs IH]; intros a N; [reflexivity|]. unfold remove_all in *. cbn [fold_left filter].
  assert (E : beqb a v = false) by (apply beqb_neq; intros ->; apply N; now left). rewrite E. cbn [negb].
  apply IH. intros H. apply N. now right.
Qed.
Lemma star_run : forall perm a xs, (forall l, Permutation (perm l) l) -> NoDup (a :: xs) -> xs <> [] ->
  tsort_run perm (words_of (map (pair a) xs)) None = Some (printed (a :: xs)).
Proof.
  intros perm a xs P N Ne. inversion N as [|? ? Na Nx]; subst. rewrite run_state.
  assert (E : fold_left add (map call (map (pair a) xs)) new_sorter = [(a, xs)]).
  { destruct xs as [|x xs]; [congruence|]. cbn [map fold_left]. unfold call at 2. cbn [fst snd].
    assert (E : beqb a x = false) by (apply beqb_neq; intros ->; apply Na; now left). rewrite E.
    change (add new_sorter [a; x]) with [(a, [x])]. rewrite star_state; [reflexivity|exact Nx|].
    intros H. apply Na. now right. }
  rewrite E. unfold order, heads, mkeys. cbn [map fst fold_left snd]. rewrite remove_all_keeps by auto.
  pose proof (P [a]) as Pa. apply Permutation_sym, Permutation_length_1_inv in Pa. rewrite Pa.
  unfold order_fuel. cbn [List.length flat_map snd plus app]. rewrite app_nil_r. cbn [order_loop]. unfold successors. cbn [mfind mdel].
  rewrite !beqb_refl. rewrite (filter_ext_in _ (fun _ => true)) by (intros; reflexivity).
  replace (filter (fun _ : bytes => true) xs) with xs by (clear; induction xs as [|x xs IH]; cbn; [auto|now rewrite <- IH]).
  now rewrite star_loop.
Qed.
