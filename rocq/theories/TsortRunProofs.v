(* Proofs for C150. *)
From Verif Require Import GoBase GoFacts GoMap TsortModel TsortSpec TsortProofs TsortQueueSpec TsortQueueProofs TsortRunSpec.

Lemma first_free : forall ws x, first_item ws x <-> free (sorter_of (calls_of (pairs_of ws))) x.
Proof.
  intros ws x. unfold first_item, free. rewrite kept_known. split; intros [H1 H2]; (split; [exact H1|]); intros u H; apply (H2 u); now apply kept_edge.
Qed.
Lemma path_before_in : forall items r l, topological items r l -> forall u v, path r u v -> before l u v.
Proof.
  intros items r l (T1&T2&T3) u v H. induction H as [u v H|u v w H1 IH1 H2 IH2]; [now apply T3|].
  destruct IH2 as (p&q&t&E2). apply (before_split l (p ++ v :: q) w t u T1); [now rewrite <- app_assoc|].
  assert (In u p); [|rewrite in_app_iff; auto]. apply (before_split l p v (q ++ w :: t) u T1); auto.
Qed.
Lemma topological_acyclic : forall items r l, topological items r l -> ~ cyclic r.
Proof.
  intros items r l T (x&C). pose proof (path_before_in items r l T x x C) as (p&q&t&E2). destruct T as (T1&_).
  rewrite E2 in T1. apply NoDup_remove_2 in T1. apply T1. rewrite !in_app_iff. cbn. tauto.
Qed.
(* a run with an even number of words is a run of Order *)
Lemma run_order : forall perm ws, (forall l, Permutation (perm l) l) -> Nat.even (List.length ws) = true -> ~ cyclic (kept ws) ->
  exists s' l, order perm (sorter_of (calls_of (pairs_of ws))) = Some (s', Ok l) /\
    tsort_run perm ws None = Some {| out := unlines l; errout := []; fin := Exit 0 |}.
Proof.
  intros perm ws P He NC. unfold tsort_run. rewrite (read_pairs_even (List.length ws)) by auto.
  change (fold_left add (calls_of (pairs_of ws)) new_sorter) with (sorter_of (calls_of (pairs_of ws))).
  set (s := sorter_of (calls_of (pairs_of ws))). pose proof (sorter_of_reachable (calls_of (pairs_of ws))) as R. fold s in R.
  destruct (order_total perm P s R) as (s'&r&E&N). destruct r as [l|m|]; [| |congruence].
  - exists s', l. rewrite E. auto.
  - exfalso. apply NC. assert (C : cyclic (edge s)) by (apply (order_fails_iff_cyclic perm P s R); eauto).
    destruct C as (x&C). exists x. eapply path_ext; [|exact C]. apply kept_edge.
Qed.

Lemma some_order : forall ws x, ~ cyclic (kept ws) -> Nat.even (List.length ws) = true -> first_item ws x ->
  exists perm l, (forall l, Permutation (perm l) l) /\ tsort_run perm ws None = Some {| out := unlines (x :: l); errout := []; fin := Exit 0 |}.
Proof.
  intros ws x NC He F. set (s := sorter_of (calls_of (pairs_of ws))).
  pose proof (sorter_of_reachable (calls_of (pairs_of ws))) as R. fold s in R.
  set (c := heads (fun l => l) s). assert (I : forall l : list bytes, Permutation ((fun l => l) l) l) by (intros; apply Permutation_refl).
  assert (X : In x c). { unfold c. rewrite (heads_free _ s I). now apply first_free. }
  assert (Nc : NoDup c). { apply heads_nodup; auto. apply (reachable_wf s R). }
  apply in_split in X as (a&b&X). rewrite X in Nc.
  destruct (order_any_heads s (x :: a ++ b) R) as (perm&P&H).
  - apply NoDup_cons; [now apply NoDup_remove_2 in Nc|now apply NoDup_remove_1 in Nc].
  - intros y. rewrite <- (heads_free _ s I). fold c. rewrite X. rewrite in_app_iff. cbn [In]. rewrite in_app_iff. tauto.
  - destruct (run_order perm ws P He NC) as (s'&l&E&T). destruct (H s' l E) as (r&->). exists perm, ((a ++ b) ++ r). auto.
Qed.

Lemma one_order : forall ws perm perm', (forall l, Permutation (perm l) l) -> (forall l, Permutation (perm' l) l) ->
  (forall x y, first_item ws x -> first_item ws y -> x = y) -> Nat.even (List.length ws) = true ->
  tsort_run perm ws None = tsort_run perm' ws None.
Proof.
  intros ws perm perm' P P' U He.
  assert (D : (exists l, tsort_run perm ws None = Some {| out := unlines l; errout := []; fin := Exit 0 |} /\ ~ cyclic (kept ws)) \/
    (cyclic (kept ws) /\ tsort_run perm ws None = Some impossible)).
  { destruct (tsort_exact perm ws P He) as [(l&T&E)|H]; [left|now right]. exists l. split; [exact E|].
    eapply topological_acyclic; eauto. }
  destruct D as [(l&E&NC)|[C E]].
  - destruct (run_order perm ws P He NC) as (s1&l1&E1&T1). destruct (run_order perm' ws P' He NC) as (s2&l2&E2&T2).
    rewrite T1, T2. do 3 f_equal.
    set (s := sorter_of (calls_of (pairs_of ws))) in *. pose proof (sorter_of_reachable (calls_of (pairs_of ws))) as R. fold s in R.
    destruct (order_released perm s s1 l1 P R E1) as (hs&gs&Q1&Q2&Q3&_). destruct (order_released perm' s s2 l2 P' R E2) as (hs'&gs'&Q1'&Q2'&Q3'&_).
    assert (HH : hs = hs').
    { assert (Len : forall z : list bytes, NoDup z -> (forall x, In x z <-> free s x) -> z = [] \/ exists x, z = [x] /\ free s x).
      { intros z Nz Fz. destruct z as [|x [|y z]]; [now left|right; exists x; split; auto; apply Fz; now left|].
        exfalso. assert (x = y). { apply U; apply first_free; apply Fz; cbn; tauto. } subst. inversion Nz as [|? ? K]. apply K. now left. }
      destruct (Len hs Q2 Q3) as [->|(x&->&Fx)], (Len hs' Q2' Q3') as [->|(y&->&Fy)]; auto.
      - exfalso. apply Q3 in Fy. destruct Fy.
      - exfalso. apply Q3' in Fx. destruct Fx.
      - f_equal. apply U; now apply first_free. }
    subst hs'. apply (order_determined perm perm' s s1 s2 l1 l2 hs (concat gs) (concat gs')); auto.
  - rewrite E. destruct (tsort_exact perm' ws P' He) as [(l&T&E')|[_ E']]; [|now rewrite E'].
    exfalso. eapply topological_acyclic; eauto.
Qed.

Lemma chain_even : forall l, Nat.even (List.length (chain l)) = true.
Proof. induction l as [|a [|b l] IH]; auto. Qed.
Lemma chain_pairs : forall l u v, In (u, v) (pairs_of (chain l)) <-> adjacent l u v.
Proof.
  induction l as [|a [|b l] IH]; intros u v.
  - cbn. split; [tauto|]. intros ([|? ?]&?&E); discriminate.
  - cbn. split; [tauto|]. intros ([|? [|? ?]]&?&E); discriminate.
  - change (pairs_of (chain (a :: b :: l))) with ((a, b) :: pairs_of (chain (b :: l))). cbn [In]. rewrite IH. split.
    + intros [E|(p&q&E)]; [injection E as <- <-; exists [], l; auto|exists (a :: p), q; rewrite E; auto].
    + intros ([|x p]&q&E); cbn [app] in E; [injection E as -> -> _; now left|injection E as _ E; right; exists p, q; auto].
Qed.
Lemma adjacent_differ : forall l u v, NoDup l -> adjacent l u v -> u <> v.
Proof. intros l u v N (p&q&->) ->. apply NoDup_remove_2 in N. apply N. rewrite in_app_iff. cbn. tauto. Qed.
Lemma adjacent_before : forall l u v, adjacent l u v -> before l u v.
Proof. intros l u v (p&q&->). exists p, [], q. reflexivity. Qed.
Lemma chain_kept : forall l u v, NoDup l -> (kept (chain l) u v <-> adjacent l u v).
Proof.
  intros l u v N. split.
  - intros (p&q&E&_). apply chain_pairs. rewrite E, in_app_iff. cbn. tauto.
  - intros A. pose proof (adjacent_differ l u v N A) as D. apply chain_pairs, in_split in A as (p&q&E). exists p, q. repeat split; auto.
    intros I. apply (adjacent_differ l u u N); auto. apply chain_pairs. rewrite E, in_app_iff. cbn. tauto.
Qed.
Lemma has_next : forall (l : list bytes) x, In x l -> List.length l <> 1 -> (exists y, adjacent l x y) \/ exists y, adjacent l y x.
Proof.
  intros l x I L. apply in_split in I as (p&q&->). destruct q as [|y q]; [|left; exists y, p, q; auto].
  destruct p as [|z p] using rev_ind; [now elim L|]. right. exists z, p, []. now rewrite <- app_assoc.
Qed.
Lemma chain_topological : forall l, NoDup l -> List.length l <> 1 -> topological (kept_item (chain l)) (kept (chain l)) l.
Proof.
  intros l N L. split; [exact N|]. split.
  - intros x. split.
    + intros I. destruct (has_next l x I L) as [(y&A)|(y&A)]; [left; exists y; now apply chain_pairs|right; exists y; now apply chain_kept].
    + intros [(y&H)|(y&H)]; [apply chain_pairs in H|apply chain_kept in H; [|exact N]]; destruct H as (p&q&->); rewrite in_app_iff; cbn; tauto.
  - intros u v H. apply adjacent_before. now apply chain_kept.
Qed.
Lemma one_arrangement : forall l l' : list bytes, NoDup l -> NoDup l' -> (forall x, In x l <-> In x l') ->
  (forall u v, adjacent l u v -> before l' u v) -> l' = l.
Proof.
  induction l as [|a l IH]; intros l' N N' M A.
  - destruct l' as [|x l']; auto. exfalso. apply (M x). now left.
  - destruct l' as [|h t]; [exfalso; apply (M a); now left|].
    assert (h = a).
    { assert (I : In h (a :: l)) by (apply M; now left). destruct I as [|I]; auto. exfalso.
      assert (J : exists u, adjacent (a :: l) u h).
      { apply in_split in I as (p&q&->). destruct p as [|z p] using rev_ind; [exists a, [], q; auto|].
        exists z, (a :: p), q. cbn [app]. now rewrite <- app_assoc. }
      destruct J as (u&J). apply A in J. apply (before_split (h :: t) [] h t u N' eq_refl) in J. destruct J. }
    subst h. f_equal. inversion N as [|? ? Na Nl]; subst. inversion N' as [|? ? Na' Nt]; subst. apply IH; auto.
    + intros x. specialize (M x). cbn [In] in M. split; intros I.
      * destruct M as [M _]. destruct (M (or_intror I)) as [->|]; [contradiction|auto].
      * destruct M as [_ M]. destruct (M (or_intror I)) as [->|]; [contradiction|auto].
    + intros u v (p&q&E). assert (B0 : before (a :: t) u v) by (apply A; exists (a :: p), q; now rewrite E).
      destruct B0 as ([|y p']&q'&r'&E'); cbn [app] in E'; injection E' as E1 E2; [|subst; exists p', q', r'; auto].
      subst. exfalso. apply Na. rewrite in_app_iff. cbn. tauto.
Qed.
Lemma chain_run : forall perm l, (forall l, Permutation (perm l) l) -> NoDup l -> List.length l <> 1 ->
  tsort_run perm (chain l) None = Some {| out := unlines l; errout := []; fin := Exit 0 |}.
Proof.
  intros perm l P N L. pose proof (chain_topological l N L) as T.
  destruct (tsort_exact perm (chain l) P (chain_even l)) as [(l'&T'&E)|[C _]].
  - rewrite E. do 3 f_equal. destruct T as (T1&T2&T3), T' as (T1'&T2'&T3'). apply one_arrangement; auto.
    + intros x. now rewrite T2, T2'.
    + intros u v A. apply T3'. now apply chain_kept.
  - exfalso. eapply topological_acyclic; eauto.
Qed.

Lemma failure_fixed : forall perm perm' fs stdin args r, (forall l, Permutation (perm l) l) -> (forall l, Permutation (perm' l) l) ->
  tsort_main perm fs stdin args = Some r -> fin r <> Exit 0 -> tsort_main perm' fs stdin args = Some r.
Proof.
  intros perm perm' fs stdin args r P P' H F. destruct (input_of fs stdin args) as [[text e]|] eqn:I.
  - rewrite (tsort_main_reads _ _ _ _ _ _ I). rewrite (tsort_main_reads _ _ _ _ _ _ I) in H. set (ws := fst (scan_words text)) in *.
    destruct (if snd (scan_words text) then _ else e) as [e'|].
    + rewrite tsort_run_scan_error. rewrite tsort_run_scan_error in H. exact H.
    + destruct (Nat.even (List.length ws)) eqn:Ev; [|rewrite tsort_run_odd by exact Ev; rewrite tsort_run_odd in H by exact Ev; exact H].
      destruct (tsort_exact perm ws P Ev) as [(l&T&E)|[C E]].
      * exfalso. rewrite E in H. injection H as <-. now apply F.
      * destruct (tsort_exact perm' ws P' Ev) as [(l&T&E')|[_ E']]; [exfalso; eapply topological_acyclic; eauto|]. now rewrite E', <- E.
  - destruct args as [|f a]; [discriminate|]. unfold tsort_main in H |- *. cbn [input_of] in I. destruct (beqb f (B "-")); [discriminate|]. rewrite I in *. exact H.
Qed.
