(* Proofs for C113. *)
From Verif Require Import GoBase GoFacts GoMap TsortModel TsortSpec TsortProofs TsortQueueSpec.

Lemma part_of_filter : forall f l, part_of (filter f l) l.
Proof.
  induction l as [|x l IH]; [constructor|]. cbn [filter]. destruct (f x); constructor; auto.
Qed.

(* u waits for something that is not in [a] *)
Definition waits (s0 : sorter) (a : list bytes) (u : bytes) : bool :=
  existsb (fun kv => if in_dec bytes_dec (fst kv) a then false else existsb (fun i => beqb i u) (snd kv)) s0.
Lemma waits_iff : forall s0 a u, waits s0 a u = true <-> exists h, edge s0 h u /\ ~ In h a.
Proof.
  intros s0 a u. unfold waits. rewrite existsb_exists. split.
  - intros ([h l]&I&H). cbn [fst snd] in H. destruct (in_dec bytes_dec h a); [discriminate|].
    apply existsb_exists in H as (i&Hi&E). apply beqb_eq in E. subst i. exists h. split; [exists l; auto|auto].
  - intros (h&(l&I&Hu)&N). exists (h, l). split; auto. cbn [fst snd]. destruct (in_dec bytes_dec h a); [contradiction|].
    apply existsb_exists. exists u. split; auto. apply beqb_refl.
Qed.
(* the candidates that h, coming after [a], releases *)
Definition grp (s0 : sorter) (a : list bytes) (h : bytes) : list bytes :=
  filter (fun u => negb (waits s0 (a ++ [h]) u)) (successors s0 h).
Fixpoint grps (s0 : sorter) (a l : list bytes) : list (list bytes) :=
  match l with [] => [] | h :: r => grp s0 a h :: grps s0 (a ++ [h]) r end.
Lemma grps_snoc : forall s0 l a h, grps s0 a (l ++ [h]) = grps s0 a l ++ [grp s0 (a ++ l) h].
Proof.
  induction l as [|x l IH]; intros a h; cbn [grps app].
  - now rewrite app_nil_r.
  - rewrite IH, <- app_assoc. reflexivity.
Qed.

Section Queue.
Variable perm : list bytes -> list bytes.
Hypothesis perm_ok : forall l, Permutation (perm l) l.
Variable s0 : sorter.
Hypothesis wf0 : wf s0.

Lemma step_group : forall s out h rest, linv s0 s out (h :: rest) ->
  filter (fun u => negb (is_blocked (mdel s h) u)) (successors s h) = grp s0 out h.
Proof.
  intros s out h rest H. unfold grp.
  assert (E : successors s h = successors s0 h).
  { unfold successors. rewrite (l_find _ _ _ _ H). destruct (in_dec bytes_dec h out) as [i|i]; auto.
    exfalso. assert (Hh : In h (h :: rest)) by (left; auto). apply (l_cands _ _ _ _ H) in Hh. tauto. }
  rewrite E. apply filter_ext. intros u. f_equal.
  pose proof (linv_edge s0 wf0 _ _ _ (linv_step s0 wf0 _ _ _ _ H)) as L.
  destruct (waits s0 (out ++ [h]) u) eqn:W.
  - apply waits_iff in W as (k&W1&W2). apply is_blocked_iff. exists k. apply L. auto.
  - destruct (is_blocked (mdel s h) u) eqn:K; auto. apply is_blocked_iff in K as (k&K). apply L in K.
    assert (X : waits s0 (out ++ [h]) u = true) by (apply waits_iff; eauto). congruence.
Qed.

Lemma queue_loop : forall hs fuel s out cands s' l, linv s0 s out cands ->
  out ++ cands = hs ++ concat (grps s0 [] out) ->
  order_loop fuel s out cands = Some (s', l) -> l = hs ++ concat (grps s0 [] l).
Proof.
  intros hs. induction fuel as [|f IH]; intros s out cands s' l H E R.
  - destruct cands; [|discriminate]. cbn [order_loop] in R. injection R as <- <-. now rewrite app_nil_r in E.
  - destruct cands as [|h rest]; [cbn [order_loop] in R; injection R as <- <-; now rewrite app_nil_r in E|].
    cbn [order_loop] in R. eapply IH; [| |exact R].
    + now apply linv_step.
    + rewrite (step_group _ _ _ _ H), grps_snoc, concat_app. cbn [app concat]. rewrite app_nil_r.
      rewrite (app_assoc hs), <- E, <- !app_assoc. reflexivity.
Qed.

Lemma order_queue : forall s' l, order perm s0 = Some (s', Ok l) ->
  l = heads perm s0 ++ concat (grps s0 [] l).
Proof.
  intros s' l H. unfold order in H. destruct (order_loop _ _ _ _) as [[s1 out]|] eqn:E; [|discriminate].
  assert (out = l). { destruct s1; [|discriminate]. now injection H. } subst out.
  eapply queue_loop; [| |exact E]; [now apply linv_init|]. cbn [grps concat app]. now rewrite app_nil_r.
Qed.
End Queue.

Lemma nodup_split_unique : forall (a a' b b' : list bytes) x, a ++ x :: b = a' ++ x :: b' -> NoDup (a ++ x :: b) -> a = a'.
Proof.
  induction a as [|y a IH]; intros a' b b' x E N.
  - destruct a' as [|z a']; auto. cbn [app] in *. injection E as -> E. inversion N; subst. exfalso. apply H1.
    apply in_or_app. right. left. auto.
  - destruct a' as [|z a']; cbn [app] in *.
    + injection E as -> E. inversion N; subst. exfalso. apply H1. apply in_or_app. right. left. auto.
    + injection E as -> E. f_equal. eapply IH; [exact E|]. now inversion N.
Qed.
Lemma before_split : forall l a (h : bytes) b h', NoDup l -> l = a ++ h :: b -> (before l h' h <-> In h' a).
Proof.
  intros l a h b h' N E. split.
  - intros (x&y&z&X). subst l.
    assert (Q : a = x ++ h' :: y). { eapply nodup_split_unique; [|exact N]. rewrite X, <- app_assoc. reflexivity. }
    rewrite Q. apply in_or_app. right. left. auto.
  - intros I. apply in_split in I as (x&y&->). exists x, y, b. rewrite E, <- app_assoc. reflexivity.
Qed.

Lemma grps_released : forall s l, wf s -> NoDup l ->
  forall r a, l = a ++ r -> Forall2 (released_by s l) r (grps s a r).
Proof.
  intros s l W N. induction r as [|h r IH]; intros a E; [constructor|]. cbn [grps]. constructor.
  - split.
    + intros u. unfold grp. rewrite filter_In, negb_true_iff, <- edge_succ by apply W. unfold last_before. split.
      * intros [H1 H2]. split; auto. intros h' Hh'. destruct (bytes_dec h' h) as [|Ne]; auto. right.
        apply (before_split l a h r h' N E). destruct (in_dec bytes_dec h' a) as [|Na]; auto. exfalso.
        assert (X : waits s (a ++ [h]) u = true); [|congruence]. apply waits_iff. exists h'. split; auto.
        intros I. apply in_app_or in I as [I|[I|[]]]; congruence.
      * intros [H1 H2]. split; auto. destruct (waits s (a ++ [h]) u) eqn:X; auto.
        apply waits_iff in X as (h'&X1&X2). exfalso. apply X2. apply in_or_app. destruct (H2 _ X1) as [->|Hb].
        -- right. left. auto.
        -- left. now apply (before_split l a h r h' N E).
    + intros ls I. unfold grp. assert (successors s h = ls) as ->.
      { unfold successors. apply mfind_in in I; [|apply W]. now rewrite I. }
      apply part_of_filter.
  - apply IH. rewrite <- app_assoc. exact E.
Qed.

Lemma heads_free : forall perm s, (forall l, Permutation (perm l) l) -> forall x, In x (heads perm s) <-> free s x.
Proof.
  intros perm s P x. rewrite (heads_in perm P). unfold free. split; intros [H1 H2]; split; auto.
  - now apply known_key.
  - destruct H1 as [(l&H)|(u&H)]; [now apply (in_map fst) in H|]. exfalso. eapply H2; eauto.
Qed.

Lemma order_released : forall perm s s' l, (forall l, Permutation (perm l) l) -> reachable s ->
  order perm s = Some (s', Ok l) ->
  exists hs gs, l = hs ++ concat gs /\ NoDup hs /\ (forall x, In x hs <-> free s x) /\ Forall2 (released_by s l) l gs.
Proof.
  intros perm s s' l P R H. pose proof (reachable_wf s R) as W.
  exists (heads perm s), (grps s [] l). split; [eapply order_queue; eauto|].
  split; [apply heads_nodup; auto; apply W|]. split; [now apply heads_free|].
  apply grps_released; auto. now apply (order_topological perm P s s' l R H).
Qed.

Lemma app_inv_length : forall (A : Type) (a b c d : list A), length a = length b -> a ++ c = b ++ d -> a = b.
Proof.
  intros A. induction a as [|x a IH]; intros [|y b] c d L E; cbn in *; try lia; auto.
  injection E as -> E. f_equal. eapply IH; eauto.
Qed.

Lemma order_determined : forall perm perm' s s1 s2 l l' hs r r', (forall l, Permutation (perm l) l) ->
  (forall l, Permutation (perm' l) l) -> reachable s ->
  order perm s = Some (s1, Ok l) -> order perm' s = Some (s2, Ok l') ->
  NoDup hs -> (forall x, In x hs <-> free s x) -> l = hs ++ r -> l' = hs ++ r' -> l = l'.
Proof.
  intros perm perm' s s1 s2 l l' hs r r' P P' R H H' N F E E'. pose proof (reachable_wf s R) as W.
  assert (X : forall p t m q, (forall l, Permutation (p l) l) -> order p s = Some (t, Ok m) -> m = hs ++ q -> heads p s = hs).
  { intros p t m q Pp Hp Eq. pose proof (order_queue p Pp s W t m Hp) as Q. rewrite Eq in Q.
    symmetry. eapply app_inv_length; [|exact Q].
    apply Permutation_length. apply NoDup_Permutation; auto; [apply heads_nodup; auto; apply W|].
    intros x. now rewrite heads_free, F by auto. }
  pose proof (X perm s1 l r P H E) as X1. pose proof (X perm' s2 l' r' P' H' E') as X2.
  unfold order in H, H'. rewrite X1 in H. rewrite X2 in H'. rewrite H in H'. now injection H'.
Qed.

Lemma order_any_heads : forall s hs, reachable s -> NoDup hs -> (forall x, In x hs <-> free s x) ->
  exists perm, (forall l, Permutation (perm l) l) /\
  forall s' l, order perm s = Some (s', Ok l) -> exists r, l = hs ++ r.
Proof.
  intros s hs R N F. pose proof (reachable_wf s R) as W.
  set (c := heads (fun l => l) s).
  assert (P : Permutation hs c).
  { apply NoDup_Permutation; auto; [apply heads_nodup; auto; apply W|].
    intros x. unfold c. rewrite heads_free, F; tauto || (intros; apply Permutation_refl). }
  exists (fun l => if list_eq_dec bytes_dec l c then hs else l).
  assert (Q : forall l, Permutation (if list_eq_dec bytes_dec l c then hs else l) l).
  { intros l. destruct (list_eq_dec bytes_dec l c) as [->|]; [exact P|apply Permutation_refl]. }
  split; [exact Q|]. intros s' l H. pose proof (order_queue _ Q s W s' l H) as E.
  exists (concat (grps s [] l)). rewrite E at 1. f_equal. unfold heads at 1. fold c.
  change (fold_left _ s (mkeys s)) with c. destruct (list_eq_dec bytes_dec c c); congruence.
Qed.

(* ---- recorded order ---- *)
Lemma firsts_in : forall l x, In x (firsts l) <-> In x l.
Proof.
  induction l as [|y l IH]; intros x; cbn [firsts In]; [tauto|]. rewrite filter_In, IH.
  destruct (bytes_dec x y) as [->|]; [tauto|]. intuition congruence.
Qed.
Lemma firsts_snoc : forall l x, firsts (l ++ [x]) = if in_dec bytes_dec x l then firsts l else firsts l ++ [x].
Proof.
  induction l as [|y l IH]; intros x; [reflexivity|]. cbn [app firsts]. rewrite IH.
  destruct (in_dec bytes_dec x l) as [i|i]; destruct (in_dec bytes_dec x (y :: l)) as [j|j]; auto.
  - exfalso. apply j. now right.
  - destruct j as [->|j]; [|contradiction]. f_equal. rewrite filter_app. cbn [filter].
    destruct (bytes_dec x x); [now rewrite app_nil_r|congruence].
  - cbn [app]. f_equal. rewrite filter_app. cbn [filter]. destruct (bytes_dec x y); auto.
    subst. exfalso. apply j. now left.
Qed.
Lemma add_pairs_behind : forall items s acc h, successors s h = firsts acc ->
  successors (add_pairs s items) h = firsts (acc ++ behind h items).
Proof.
  induction items as [|a items IH]; intros s acc h E; [cbn; now rewrite app_nil_r|].
  destruct items as [|b r]; [cbn; now rewrite app_nil_r|]. rewrite add_pairs_cons.
  change (behind h (a :: b :: r)) with (if bytes_dec a h then b :: behind h (b :: r) else behind h (b :: r)).
  destruct (bytes_dec a h) as [->|Ne].
  - replace (acc ++ b :: behind h (b :: r)) with ((acc ++ [b]) ++ behind h (b :: r)) by (now rewrite <- app_assoc).
    apply IH. rewrite firsts_snoc. destruct (in_dec bytes_dec b acc) as [i|i].
    + assert (X : in_slice (successors s h) b = true) by (apply in_slice_iff; rewrite E; now apply firsts_in).
      now rewrite X.
    + assert (X : in_slice (successors s h) b = false).
      { destruct (in_slice (successors s h) b) eqn:Y; auto. apply in_slice_iff in Y. rewrite E in Y.
        apply (proj1 (firsts_in _ _)) in Y. contradiction. }
      rewrite X, succ_set, beqb_refl. now rewrite E.
  - apply IH. destruct (in_slice (successors s a) b); auto. rewrite succ_set.
    destruct (beqb a h) eqn:Y; auto. apply beqb_eq in Y. contradiction.
Qed.
Lemma asked_snoc : forall h calls c, asked h (calls ++ [c]) =
  if list_eq_dec bytes_dec c [h] then [] else asked h calls ++ behind h c.
Proof. intros h calls c. unfold asked. now rewrite fold_left_app. Qed.
Lemma recorded_order : forall calls h, successors (sorter_of calls) h = firsts (asked h calls).
Proof.
  induction calls as [|c calls IH] using rev_ind; intros h; [reflexivity|].
  rewrite sorter_of_snoc, asked_snoc. destruct (list_eq_dec bytes_dec c [h]) as [->|Ne].
  - cbn [add]. rewrite succ_set, beqb_refl. reflexivity.
  - unfold add. destruct c as [|a [|b r]].
    + cbn [behind]. now rewrite app_nil_r.
    + rewrite succ_set. cbn [behind]. rewrite app_nil_r. destruct (beqb a h) eqn:Y; auto.
      apply beqb_eq in Y. subst. contradiction.
    + apply add_pairs_behind, IH.
Qed.
Lemma recorded_list : forall calls h ls, In (h, ls) (sorter_of calls) -> ls = firsts (asked h calls).
Proof.
  intros calls h ls I. rewrite <- recorded_order. unfold successors.
  apply mfind_in in I; [now rewrite I|]. apply reachable_wf, sorter_of_reachable.
Qed.
