From Verif Require Import GoBase GoFacts GoMap Utf8Facts RuneFacts RuneMore TsortModel TsortSpec.

Definition wf (s : sorter) : Prop :=
  NoDup (mkeys s) /\ forall k l, In (k, l) s -> NoDup l.

Lemma in_slice_iff : forall h n, in_slice h n = true <-> In n h.
Proof.
  induction h as [|j r IH]; intros n; simpl; [split; [discriminate|contradiction]|].
  destruct (beqb n j) eqn:E.
  - apply beqb_eq in E. split; auto.
  - apply beqb_neq in E. rewrite IH. split; [auto|]. intros [H|H]; [congruence|auto].
Qed.

Lemma successors_find : forall s k v, In v (successors s k) <-> exists l, mfind s k = Some l /\ In v l.
Proof.
  intros. unfold successors. destruct (mfind s k); split.
  - eauto.
  - intros (l'&[= ->]&H); auto.
  - contradiction.
  - intros (l'&H&_). discriminate.
Qed.

Lemma edge_succ : forall s u v, NoDup (mkeys s) -> (edge s u v <-> In v (successors s u)).
Proof.
  intros s u v H. rewrite successors_find. unfold edge. split; intros (l&H1&H2); exists l; split; auto.
  - now apply mfind_in.
  - now apply mfind_in in H1.
Qed.

Lemma wf_succ_nodup : forall s k, wf s -> NoDup (successors s k).
Proof.
  intros s k [H1 H2]. unfold successors. destruct (mfind s k) eqn:E; [|constructor].
  apply mfind_in in E; eauto.
Qed.

Lemma wf_set : forall s k l, wf s -> NoDup l -> wf (mset s k l).
Proof.
  intros s k l [H1 H2] Hl. pose proof (mset_nodup s k l H1) as N. split; auto.
  intros k' l' H. apply (mfind_in _ k' l' N) in H. rewrite mfind_set in H.
  destruct (beqb k k'); [inversion H; subst; auto|]. apply mfind_in in H; eauto.
Qed.

Lemma wf_del : forall s k, wf s -> wf (mdel s k).
Proof.
  intros s k [H1 H2]. pose proof (mdel_nodup s k H1) as N. split; auto.
  intros k' l' H. apply (mfind_in _ k' l' N) in H. rewrite mfind_del in H.
  destruct (beqb k k'); [discriminate|]. apply mfind_in in H; eauto.
Qed.

Lemma nodup_snoc : forall {A} (l : list A) x, NoDup l -> ~ In x l -> NoDup (l ++ [x]).
Proof.
  intros. apply Permutation_NoDup with (l := x :: l).
  - apply Permutation_cons_append.
  - constructor; auto.
Qed.

Lemma wf_add_pairs : forall items s, wf s -> wf (add_pairs s items).
Proof.
  induction items as [|a r IH]; intros s H; simpl; auto. destruct r as [|b r]; auto.
  apply IH. destruct (in_slice (successors s a) b) eqn:E; auto.
  apply wf_set; auto. apply nodup_snoc; [now apply wf_succ_nodup|].
  intros Hin. apply in_slice_iff in Hin. congruence.
Qed.

Lemma wf_add : forall s items, wf s -> wf (add s items).
Proof.
  intros s items H. destruct items as [|a [|b r]]; auto.
  - apply wf_set; auto. constructor.
  - unfold add. now apply wf_add_pairs.
Qed.

(* ---------- heads and is_blocked ---------- *)
Lemma remove_all_in : forall vs c x, In x (remove_all c vs) <-> In x c /\ ~ In x vs.
Proof.
  unfold remove_all. induction vs as [|v vs IH]; intros c x; simpl.
  - tauto.
  - rewrite IH, filter_In. rewrite negb_true_iff, beqb_neq. split.
    + intros [[H1 H2] H3]. split; auto. intros [->|H]; auto.
    + intros [H1 H2]. repeat split; auto.
Qed.

Lemma heads_fold_in : forall (m : sorter) c x,
  In x (fold_left (fun c kv => remove_all c (snd kv)) m c) <->
  In x c /\ forall k l, In (k, l) m -> ~ In x l.
Proof.
  induction m as [|[k l] m IH]; intros c x; simpl.
  - split; [intros; split; auto|tauto].
  - rewrite IH, remove_all_in. split.
    + intros [[H1 H2] H3]. split; auto. intros k' l' [[= <- <-]|H]; eauto.
    + intros [H1 H2]. repeat split; eauto.
Qed.

Lemma remove_all_nodup : forall vs c, NoDup c -> NoDup (remove_all c vs).
Proof.
  unfold remove_all. induction vs as [|v vs IH]; intros c H; simpl; auto.
  apply IH. now apply NoDup_filter.
Qed.
Lemma heads_fold_nodup : forall (m : sorter) c, NoDup c ->
  NoDup (fold_left (fun c kv => remove_all c (snd kv)) m c).
Proof.
  induction m as [|[k l] m IH]; intros c H; simpl; auto. apply IH. now apply remove_all_nodup.
Qed.

Lemma is_blocked_iff : forall s n, is_blocked s n = true <-> exists u, edge s u n.
Proof.
  intros s n. unfold is_blocked. rewrite existsb_exists. split.
  - intros ([u l]&H1&H2). apply existsb_exists in H2 as (i&H2&H3). apply beqb_eq in H3. subst.
    exists u, l. auto.
  - intros (u&l&H1&H2). exists (u, l). split; auto. apply existsb_exists. exists n. split; auto. apply beqb_refl.
Qed.

Section Order.
Variable perm : list bytes -> list bytes.
Hypothesis perm_ok : forall l, Permutation (perm l) l.

Lemma heads_in : forall s x, In x (heads perm s) <-> In x (mkeys s) /\ forall u, ~ edge s u x.
Proof.
  intros s x. unfold heads.
  assert (P : forall l, In x (perm l) <-> In x l).
  { intros l. split; apply Permutation_in; [apply perm_ok|apply Permutation_sym, perm_ok]. }
  rewrite P, heads_fold_in. split; intros [H1 H2]; split; auto.
  - intros u (l&H3&H4). eapply H2; eauto.
  - intros k l H3 H4. apply (H2 k). exists l. auto.
Qed.

Lemma heads_nodup : forall s, NoDup (mkeys s) -> NoDup (heads perm s).
Proof.
  intros s H. unfold heads. eapply Permutation_NoDup; [apply Permutation_sym, perm_ok|].
  now apply heads_fold_nodup.
Qed.

(* ---------- the loop ---------- *)
Variable s0 : sorter.
Hypothesis wf0 : wf s0.

Record linv (s : sorter) (out cands : list bytes) : Prop := {
  l_wf : wf s;
  l_find : forall k, mfind s k = if in_dec bytes_dec k out then None else mfind s0 k;
  l_nodup : NoDup (out ++ cands);
  l_cands : forall x, In x cands <->
    known s0 x /\ ~ In x out /\ forall u, edge s0 u x -> In u out;
  l_known : forall x, In x out -> known s0 x;
  l_order : forall a v b u, out = a ++ v :: b -> edge s0 u v -> In u a
}.

Lemma known_key : forall s x, In x (mkeys s) -> known s x.
Proof. intros s x H. left. apply in_map_iff in H as ([k l]&E&H). simpl in E. subst. eauto. Qed.

Lemma edge_key : forall s u v, edge s u v -> In u (mkeys s).
Proof. intros s u v (l&H&_). now apply (in_map fst) in H. Qed.

Lemma linv_init : linv s0 [] (heads perm s0).
Proof.
  constructor.
  - exact wf0.
  - intros k. reflexivity.
  - simpl. apply heads_nodup, wf0.
  - intros x. rewrite heads_in. split.
    + intros [H1 H2]. split; [now apply known_key|]. split; [intros []|]. intros u Hu. exfalso; eapply H2; eauto.
    + intros (H1&_&H2). split.
      * destruct H1 as [(l&H)|(u&H)]; [now apply (in_map fst) in H|]. exfalso. now apply H2 in H.
      * intros u Hu. now apply H2 in Hu.
  - contradiction.
  - intros a v b u H. destruct a; discriminate.
Qed.

Lemma linv_edge : forall s out cands, linv s out cands -> forall u v,
  edge s u v <-> edge s0 u v /\ ~ In u out.
Proof.
  intros s out cands H u v. rewrite (edge_succ s) by (apply (l_wf _ _ _ H)).
  rewrite (edge_succ s0) by apply wf0. rewrite !successors_find, (l_find _ _ _ H).
  destruct (in_dec bytes_dec u out).
  - split; [intros (l&E&_); discriminate|tauto].
  - tauto.
Qed.

Lemma linv_step : forall s out h rest, linv s out (h :: rest) ->
  linv (mdel s h) (out ++ [h])
    (rest ++ filter (fun u => negb (is_blocked (mdel s h) u)) (successors s h)).
Proof.
  intros s out h rest H.
  assert (Hh : known s0 h /\ ~ In h out /\ forall u, edge s0 u h -> In u out).
  { apply (l_cands _ _ _ H). left; auto. }
  destruct Hh as (K1&K2&K3).
  assert (Hedge : forall u v, edge (mdel s h) u v <-> edge s0 u v /\ ~ In u (out ++ [h])).
  { intros u v. rewrite in_app_iff. simpl.
    rewrite (edge_succ (mdel s h)) by (apply wf_del, (l_wf _ _ _ H)).
    rewrite successors_find. rewrite mfind_del.
    destruct (beqb h u) eqn:E.
    - apply beqb_eq in E. subst. split; [intros (l&E&_); discriminate|tauto].
    - apply beqb_neq in E. rewrite <- successors_find, <- edge_succ by (apply (l_wf _ _ _ H)).
      rewrite (linv_edge _ _ _ H). intuition. }
  assert (Hsucc : forall x, In x (filter (fun u => negb (is_blocked (mdel s h) u)) (successors s h)) <->
     edge s0 h x /\ forall u, edge s0 u x -> In u (out ++ [h])).
  { intros x. rewrite filter_In, negb_true_iff.
    rewrite <- edge_succ by (apply (l_wf _ _ _ H)). rewrite (linv_edge _ _ _ H).
    split.
    - intros [[H1 _] H2]. split; auto. intros u Hu.
      destruct (in_dec bytes_dec u (out ++ [h])); auto. exfalso.
      assert (B : is_blocked (mdel s h) x = true) by (apply is_blocked_iff; exists u; apply Hedge; auto).
      congruence.
    - intros [H1 H2]. split; [auto|]. destruct (is_blocked (mdel s h) x) eqn:B; auto.
      apply is_blocked_iff in B as (u&Hu). apply Hedge in Hu as [Hu Hn]. exfalso; auto. }
  constructor.
  - apply wf_del, (l_wf _ _ _ H).
  - intros k. rewrite mfind_del, (l_find _ _ _ H).
    destruct (in_dec bytes_dec k (out ++ [h])) as [i|i]; rewrite in_app_iff in i; simpl in i;
      destruct (in_dec bytes_dec k out); destruct (beqb h k) eqn:E; auto;
      try apply beqb_neq in E; try apply beqb_eq in E; subst; tauto.
  - replace ((out ++ [h]) ++ rest ++ filter (fun u => negb (is_blocked (mdel s h) u)) (successors s h))
      with ((out ++ h :: rest) ++ filter (fun u => negb (is_blocked (mdel s h) u)) (successors s h)).
    2:{ rewrite <- !app_assoc. reflexivity. }
    assert (D : forall x, In x (out ++ h :: rest) ->
      ~ In x (filter (fun u => negb (is_blocked (mdel s h) u)) (successors s h))).
    { intros x Hx Hf. apply Hsucc in Hf as [Hf _].
      apply in_app_or in Hx as [Hx|Hx].
      - apply in_split in Hx as (a&b&Ex). apply K2. rewrite Ex. apply in_or_app; left.
        eapply (l_order _ _ _ H); eauto.
      - apply (l_cands _ _ _ H) in Hx as (_&_&Hx). apply K2, Hx, Hf. }
    assert (N1 := l_nodup _ _ _ H).
    assert (N2 : NoDup (filter (fun u => negb (is_blocked (mdel s h) u)) (successors s h))).
    { apply NoDup_filter, wf_succ_nodup, (l_wf _ _ _ H). }
    clear - N1 N2 D. induction (out ++ h :: rest) as [|y l IH]; simpl; auto.
    inversion N1; subst. constructor.
    + rewrite in_app_iff. intros [Hi|Hi]; auto. apply (D y); auto. left; auto.
    + apply IH; auto. intros x Hx. apply D. right; auto.
  - intros x. rewrite in_app_iff, Hsucc, in_app_iff. split.
    + intros [Hx|[Hx Hp]].
      * assert (Hc : In x (h :: rest)) by (right; auto).
        apply (l_cands _ _ _ H) in Hc as (A1&A2&A3). split; auto. split.
        -- intros [Hi|[<-|[]]]; auto. pose proof (l_nodup _ _ _ H) as N.
           apply NoDup_remove_2 in N. apply N. apply in_or_app; auto.
        -- intros u Hu. apply in_or_app; auto.
      * split; [right; eauto|]. split; auto. intros [Hi|[<-|[]]].
        -- apply in_split in Hi as (a&b&Ex). apply K2. rewrite Ex. apply in_or_app; left.
           eapply (l_order _ _ _ H); eauto.
        -- apply K2, K3, Hx.
    + intros (A1&A2&A3). destruct (in_dec bytes_dec x rest) as [|Nr]; [auto|]. right. split; auto.
      destruct (in_dec bytes_dec x (successors s h)) as [i|i].
      * rewrite <- edge_succ in i by (apply (l_wf _ _ _ H)). now apply (linv_edge _ _ _ H) in i.
      * exfalso. apply A2. assert (In x (h :: rest)) as [->|]; [|right; left; auto|contradiction].
        apply (l_cands _ _ _ H). split; auto. split; [tauto|].
        intros u Hu. apply A3 in Hu as Hu2. apply in_app_or in Hu2 as [|[<-|[]]]; auto.
        exfalso. apply i. rewrite <- edge_succ by (apply (l_wf _ _ _ H)). apply (linv_edge _ _ _ H). auto.
  - intros x Hx. apply in_app_or in Hx as [Hx|[<-|[]]]; auto. now apply (l_known _ _ _ H).
  - intros a v b u E Hu. 
    destruct b as [|y b'] using rev_ind.
    + apply app_inj_tail in E as [-> ->]. auto.
    + clear IHb'. rewrite app_comm_cons, app_assoc in E. apply app_inj_tail in E as [-> _].
      eapply (l_order _ _ _ H); eauto.
Qed.

Definition known_list : list bytes := mkeys s0 ++ flat_map snd s0.
Lemma known_in_list : forall x, known s0 x -> In x known_list.
Proof.
  intros x [(l&H)|(u&l&H1&H2)]; apply in_or_app.
  - left. now apply (in_map fst) in H.
  - right. apply in_flat_map. exists (u, l). auto.
Qed.

Lemma order_loop_ok : forall fuel s out cands, linv s out cands ->
  length out + fuel = length known_list ->
  exists s' out', order_loop fuel s out cands = Some (s', out') /\ linv s' out' [].
Proof.
  induction fuel as [|f IH]; intros s out cands H Hf; simpl.
  - destruct cands as [|h rest]; [eauto|]. exfalso.
    assert (L : length (out ++ h :: rest) <= length known_list).
    { apply NoDup_incl_length; [apply (l_nodup _ _ _ H)|].
      intros x Hx. apply known_in_list. apply in_app_or in Hx as [Hx|Hx].
      - now apply (l_known _ _ _ H).
      - now apply (l_cands _ _ _ H) in Hx. }
    rewrite app_length in L. simpl in L. lia.
  - destruct cands as [|h rest]; [eauto|].
    apply IH; [now apply linv_step|]. rewrite app_length. simpl. lia.
Qed.

Lemma order_result : exists s' out, linv s' out [] /\
  order perm s0 = Some (s', match s' with [] => Ok out | _ => Err msg_impossible end).
Proof.
  destruct (order_loop_ok (order_fuel s0) s0 [] (heads perm s0)) as (s'&out&E&H).
  - apply linv_init.
  - unfold order_fuel, known_list, mkeys. rewrite app_length, map_length. simpl. reflexivity.
  - exists s', out. split; auto. unfold order. rewrite E. destruct s'; auto.
Qed.

(* ---------- consequences ---------- *)
Lemma final_in : forall s out, linv s out [] -> forall x,
  In x out <-> known s0 x /\ forall u, edge s0 u x -> In u out.
Proof.
  intros s out H x. split.
  - intros Hx. split; [now apply (l_known _ _ _ H)|]. intros u Hu.
    apply in_split in Hx as (a&b&E). rewrite E. apply in_or_app; left. eapply (l_order _ _ _ H); eauto.
  - intros [H1 H2]. destruct (in_dec bytes_dec x out); auto. exfalso.
    apply (l_cands _ _ _ H x). auto.
Qed.

Lemma order_before : forall s out, linv s out [] -> forall u v, edge s0 u v -> In v out -> before out u v.
Proof.
  intros s out H u v Hu Hv. apply in_split in Hv as (a&b&E).
  assert (Ha : In u a) by (eapply (l_order _ _ _ H); eauto).
  apply in_split in Ha as (a1&a2&->). exists a1, a2, b. rewrite E. now rewrite <- app_assoc.
Qed.

(* position argument: an item on a path comes earlier *)
Lemma path_before : forall s out, linv s out [] -> forall u v, path (edge s0) u v ->
  forall a b, out = a ++ v :: b -> In u a.
Proof.
  intros s out H u v P. apply clos_trans_tn1 in P. induction P as [v E|w v E P IH]; intros a b Eo.
  - eapply (l_order _ _ _ H); eauto.
  - assert (Hw : In w a) by (eapply (l_order _ _ _ H); eauto).
    apply in_split in Hw as (a1&a2&->).
    assert (In u a1). { eapply (IH a1 (a2 ++ v :: b)). rewrite Eo. now rewrite <- app_assoc. }
    apply in_or_app; auto.
Qed.

Lemma cycle_not_out : forall s out, linv s out [] -> forall x, after_cycle (edge s0) x -> ~ In x out.
Proof.
  intros s out H x (c&P&Q) Hx.
  assert (Hc : In c out).
  { destruct Q as [->|Q]; auto. apply in_split in Hx as (a&b&E).
    rewrite E. apply in_or_app; left. eapply path_before; eauto. }
  apply in_split in Hc as (a&b&E). pose proof (path_before _ _ H _ _ P _ _ E) as Hc.
  pose proof (l_nodup _ _ _ H) as N. rewrite app_nil_r, E in N.
  apply NoDup_remove_2 in N. apply N. apply in_or_app; auto.
Qed.

(* backward paths inside a finite set without minimal elements *)
Inductive chain (r : bytes -> bytes -> Prop) : bytes -> list bytes -> Prop :=
| chain_one : forall x, chain r x [x]
| chain_cons : forall x y l, r y x -> chain r x l -> chain r y (y :: l).

Lemma chain_path : forall r x l, chain r x l -> forall y, In y l -> y = x \/ path r x y.
Proof.
  induction 1 as [x|x z l R C IH]; intros y Hy.
  - destruct Hy as [->|[]]; auto.
  - destruct Hy as [->|Hy]; auto. right.
    destruct (IH y Hy) as [->|P]; [now apply t_step|]. eapply t_trans; [apply t_step; eauto|auto].
Qed.

Lemma chain_dup_cycle : forall r x l, chain r x l -> ~ NoDup l ->
  exists c, In c l /\ path r c c.
Proof.
  induction 1 as [x|x z l R C IH]; intros N.
  - exfalso. apply N. repeat constructor; auto.
  - destruct (in_dec bytes_dec z l) as [Hz|Hz].
    + exists z. split; [left; auto|]. destruct (chain_path _ _ _ C z Hz) as [->|P].
      * now apply t_step.
      * eapply t_trans; [apply t_step; eauto|auto].
    + destruct IH as (c&Hc&P).
      * intros Hn. apply N. constructor; auto.
      * exists c. split; [right; auto|auto].
Qed.

Lemma chain_to_last : forall r x l k, chain r x l -> last l k = k -> In k l -> 
  forall y, In y l -> y = k \/ path r y k.
Proof.
  induction 1 as [x|x z l R C IH]; intros HL Hk y Hy.
  - simpl in HL. destruct Hy as [->|[]]; auto.
  - assert (Hl : l <> []) by (inversion C; discriminate).
    assert (HL' : last l k = k).
    { destruct l; [congruence|]. exact HL. }
    assert (Hk' : In k l).
    { rewrite <- HL'. destruct (exists_last Hl) as (l'&e&->). rewrite last_last. apply in_or_app; right; left; auto. }
    destruct Hy as [->|Hy]; [|auto].
    destruct (IH HL' Hk' x) as [->|P].
    + inversion C; left; auto.
    + right. now apply t_step.
    + right. eapply t_trans; [apply t_step; eauto|auto].
Qed.

Lemma stuck_chain : forall (R : list bytes) (r : bytes -> bytes -> Prop),
  (forall x, In x R -> exists u, r u x /\ In u R) ->
  forall k, In k R -> forall n, exists x l, chain r x l /\ length l = S n /\
    (forall y, In y l -> In y R) /\ last l k = k /\ In k l.
Proof.
  intros R r HR k Hk. induction n as [|n (x&l&C&L&I&La&Ik)].
  - exists k, [k]. repeat split; simpl; auto; try constructor. intros y [<-|[]]; auto.
  - assert (Hx : In x l) by (inversion C; left; auto).
    destruct (HR x (I x Hx)) as (u&Hu&HuR). exists u, (u :: l).
    split; [now apply chain_cons with x|]. simpl. split; [lia|].
    split; [intros y [<-|Hy]; auto|]. split; auto. destruct l; [contradiction|auto].
Qed.

Lemma stuck_after_cycle : forall (R : list bytes) (r : bytes -> bytes -> Prop),
  (forall x, In x R -> exists u, r u x /\ In u R) -> forall k, In k R -> after_cycle r k.
Proof.
  intros R r HR k Hk. destruct (stuck_chain R r HR k Hk (length R)) as (x&l&C&L&I&La&Ik).
  destruct (chain_dup_cycle r x l C) as (c&Hc&P).
  - intros N. pose proof (NoDup_incl_length N I). lia.
  - exists c. split; auto. eapply chain_to_last; eauto.
Qed.

Lemma not_out_stuck : forall s out, linv s out [] -> forall x, known s0 x -> ~ In x out ->
  after_cycle (edge s0) x.
Proof.
  intros s out H x Hk Hx.
  apply (stuck_after_cycle (filter (fun y => if in_dec bytes_dec y out then false else true) known_list)).
  - intros y Hy. apply filter_In in Hy as [Hy1 Hy2].
    destruct (in_dec bytes_dec y out) as [|Ny]; [discriminate|].
    assert (Ky : known s0 y).
    { apply in_app_or in Hy1 as [H1|H1]; [now apply known_key|].
      apply in_flat_map in H1 as ([u l]&H1&H2). right. exists u, l. auto. }
    assert (E : exists u, edge s0 u y /\ ~ In u out).
    { assert (D : forall l, (forall u, In u l -> edge s0 u y) ->
          (forall u, In u l -> In u out) \/ exists u, In u l /\ ~ In u out).
      { induction l as [|u l IH]; intros HL.
        - left. intros u [].
        - destruct (in_dec bytes_dec u out) as [i|i]; [|right; exists u; split; [left|]; auto].
          destruct IH as [IH|(w&W1&W2)].
          + intros; apply HL; right; auto.
          + left. intros w [<-|Hw]; auto.
          + right. exists w. split; [right|]; auto. }
      destruct (D (filter (fun u => in_slice (successors s0 u) y) (mkeys s0))) as [D1|(u&D1&D2)].
      - intros u Hu. apply filter_In in Hu as [_ Hu]. apply in_slice_iff in Hu. apply edge_succ; auto. apply wf0.
      - exfalso. apply Ny. apply (final_in _ _ H). split; auto. intros u Hu. apply D1. apply filter_In.
        split; [eapply edge_key; eauto|]. apply in_slice_iff. apply edge_succ; auto. apply wf0.
      - exists u. split; auto. apply filter_In in D1 as [_ D1]. apply in_slice_iff in D1. apply edge_succ; auto. apply wf0. }
    destruct E as (u&E1&E2). exists u. split; auto. apply filter_In.
    split; [apply known_in_list, known_key; eapply edge_key; eauto|].
    destruct (in_dec bytes_dec u out); [contradiction|auto].
  - apply filter_In. split; [now apply known_in_list|]. destruct (in_dec bytes_dec x out); [contradiction|auto].
Qed.

(* remaining keys are exactly the keys not output *)
Lemma remaining_keys : forall s out, linv s out [] -> forall k,
  In k (mkeys s) <-> In k (mkeys s0) /\ ~ In k out.
Proof.
  intros s out H k. rewrite !mfind_in_keys, (l_find _ _ _ H).
  destruct (in_dec bytes_dec k out); intuition.
Qed.

Lemma after_cycle_known : forall x, after_cycle (edge s0) x -> known s0 x.
Proof.
  intros x (c&P&Q). assert (exists u, edge s0 u x) as [u Hu]; [|right; eauto].
  assert (G : path (edge s0) c x) by (destruct Q as [->|]; auto).
  clear P Q. apply clos_trans_tn1 in G. destruct G; eauto.
Qed.

Lemma cyclic_stuck_key : forall s out, linv s out [] -> (cyclic (edge s0) <-> s <> []).
Proof.
  intros s out H. split.
  - intros (x&P) E. subst s.
    assert (A : after_cycle (edge s0) x) by (exists x; auto).
    pose proof (cycle_not_out _ _ H x A) as Nx.
    assert (K : In x (mkeys s0)).
    { apply clos_trans_t1n in P. inversion P; subst; eapply edge_key; eauto. }
    assert (Hin : In x (@mkeys (list bytes) [])) by (apply (remaining_keys _ _ H); auto).
    contradiction.
  - intros Hs. destruct s as [|[k l] r]; [congruence|].
    assert (Hk : In k (mkeys ((k, l) :: r))) by (left; auto).
    apply (remaining_keys _ _ H) in Hk as [H1 H2].
    destruct (not_out_stuck _ _ H k (known_key _ _ H1) H2) as (c&P&_). exists c. auto.
Qed.
End Order.

Lemma wf_order : forall perm s s' r, (forall l, Permutation (perm l) l) -> wf s ->
  order perm s = Some (s', r) -> wf s'.
Proof.
  intros perm s s' r Hp Hw H. destruct (order_result perm Hp s Hw) as (s1&out&L&E).
  rewrite H in E. inversion E; subst. apply (l_wf _ _ _ _ L).
Qed.

Lemma reachable_wf : forall s, reachable s -> wf s.
Proof.
  induction 1.
  - split; [constructor|]. intros k l [].
  - now apply wf_add.
  - eapply wf_order; eauto.
Qed.

Section Theorems.
Variable perm : list bytes -> list bytes.
Hypothesis perm_ok : forall l, Permutation (perm l) l.

Lemma order_topological : forall s s' l, reachable s -> order perm s = Some (s', Ok l) ->
  topological (known s) (edge s) l.
Proof.
  intros s s' l Hr H. apply reachable_wf in Hr as Hw.
  destruct (order_result perm perm_ok s Hw) as (s1&out&L&E). rewrite H in E.
  inversion E; subst s1. destruct s' as [|p s']; [|discriminate]. inversion E; subst out. clear E.
  assert (A : forall x, In x l <-> known s x).
  { intros x. split; [apply (l_known _ _ _ _ L)|]. intros Hx.
    assert (K : forall k, In k (mkeys s) -> In k l).
    { intros k Hk. destruct (in_dec bytes_dec k l); auto. exfalso.
      assert (Hin : In k (@mkeys (list bytes) [])) by (apply (remaining_keys _ _ _ L); auto). contradiction. }
    apply (final_in _ _ _ L). split; auto. intros u Hu. apply K. eapply edge_key; eauto. }
  split; [|split; auto].
  - pose proof (l_nodup _ _ _ _ L) as N. now rewrite app_nil_r in N.
  - intros u v Hu. eapply order_before; eauto. apply A. right. eauto.
Qed.

Lemma order_total : forall s, reachable s -> exists s' r, order perm s = Some (s', r) /\ r <> Panic.
Proof.
  intros s Hr. destruct (order_result perm perm_ok s (reachable_wf s Hr)) as (s1&out&L&E).
  rewrite E. do 2 eexists. split; [reflexivity|]. destruct s1; discriminate.
Qed.

Lemma order_fails_iff_cyclic : forall s, reachable s ->
  ((exists s' m, order perm s = Some (s', Err m)) <-> cyclic (edge s)).
Proof.
  intros s Hr. pose proof (reachable_wf s Hr) as Hw.
  destruct (order_result perm perm_ok s Hw) as (s1&out&L&E).
  rewrite (cyclic_stuck_key perm perm_ok s Hw s1 out L). rewrite E. split.
  - intros (s'&m&H). inversion H; subst. destruct s'; [discriminate|discriminate].
  - intros H. destruct s1; [congruence|]. eauto.
Qed.

Lemma order_consumes_success : forall s s' l, reachable s -> order perm s = Some (s', Ok l) ->
  s' = new_sorter /\ forall perm2, (forall l, Permutation (perm2 l) l) ->
  order perm2 s' = Some (new_sorter, Ok []).
Proof.
  intros s s' l Hr H. destruct (order_result perm perm_ok s (reachable_wf s Hr)) as (s1&out&L&E).
  rewrite H in E. inversion E; subst s1. destruct s' as [|p s']; [|discriminate]. split; auto.
  intros perm2 P2. unfold order, heads. simpl.
  assert (perm2 [] = []) as ->. { apply Permutation_nil, Permutation_sym, P2. }
  reflexivity.
Qed.

Lemma order_failure_leaves : forall s s' m, reachable s -> order perm s = Some (s', Err m) ->
  (forall x, known s' x <-> after_cycle (edge s) x) /\
  (forall u v, edge s' u v <-> edge s u v /\ after_cycle (edge s) u) /\
  forall perm2, (forall l, Permutation (perm2 l) l) -> order perm2 s' = Some (s', Err m).
Proof.
  intros s s' m Hr H. pose proof (reachable_wf s Hr) as Hw.
  destruct (order_result perm perm_ok s Hw) as (s1&out&L&E).
  rewrite H in E. inversion E; subst s1. destruct s' as [|p0 s0']; [discriminate|].
  set (s' := p0 :: s0') in *.
  assert (Em : m = msg_impossible) by (inversion E; auto). clear E.
  assert (Out : forall x, known s x -> (~ In x out <-> after_cycle (edge s) x)).
  { intros x Hx. split; [now apply (not_out_stuck perm perm_ok s Hw s' out L)|now apply (cycle_not_out s s' out L)]. }
  assert (Ed : forall u v, edge s' u v <-> edge s u v /\ after_cycle (edge s) u).
  { intros u v. rewrite (linv_edge s Hw _ _ _ L). split; intros [A1 A2]; split; auto.
    - apply Out; auto. apply known_key. eapply edge_key; eauto.
    - apply Out; auto. apply known_key. eapply edge_key; eauto. }
  assert (Kn : forall x, known s' x <-> after_cycle (edge s) x).
  { intros x. split.
    - intros [(l&Hx)|(u&Hu)].
      + apply (in_map fst) in Hx. simpl in Hx. apply (remaining_keys _ _ _ L) in Hx as [A1 A2].
        apply Out; auto. now apply known_key.
      + apply Ed in Hu as [A1 (c&P&Q)]. exists c. split; auto. right.
        destruct Q as [->|Q]; [now apply t_step|]. eapply t_trans; [eauto|now apply t_step].
    - intros Hx. pose proof (after_cycle_known s x Hx) as K.
      destruct Hx as (c&P&Q).
      assert (G : path (edge s) c x) by (destruct Q as [->|]; auto).
      apply clos_trans_tn1 in G. right. inversion G as [Hs|y Hs G2]; subst.
      + exists c. apply Ed. split; auto. exists c. auto.
      + exists y. apply Ed. split; auto. exists c. split; auto. right. now apply clos_tn1_trans. }
  split; [auto|]. split; [auto|]. intros perm2 P2.
  destruct (order_result perm2 P2 s' (l_wf _ _ _ _ L)) as (s2&out2&L2&E2).
  assert (out2 = []).
  { destruct out2 as [|x r]; auto. exfalso.
    assert (NE : forall u, ~ edge s' u x).
    { intros u Hu. apply (l_order _ _ _ _ L2 [] x r u) in Hu; auto. }
    assert (K : known s' x) by (apply (l_known _ _ _ _ L2); left; auto).
    apply Kn in K. destruct K as (c&P&Q).
    assert (G : path (edge s) c x) by (destruct Q as [->|]; auto).
    apply clos_trans_tn1 in G. inversion G as [Hs|y Hs G2]; subst.
    - apply (NE c). apply Ed. split; auto. exists c. auto.
    - apply (NE y). apply Ed. split; auto. exists c. split; auto. right. now apply clos_tn1_trans. }
  subst out2.
  assert (Efun : s2 = s').
  { unfold order in E2. 
    assert (Hh : heads perm2 s' = []).
    { destruct (heads perm2 s') as [|x r] eqn:Eh; auto. exfalso.
      assert (Hx : In x (heads perm2 s')) by (rewrite Eh; left; auto).
      apply (heads_in perm2 P2) in Hx as [Hx1 Hx2]. 
      assert (K : known s' x) by now apply known_key.
      apply Kn in K. destruct K as (c&P&Q).
      assert (G : path (edge s) c x) by (destruct Q as [->|]; auto).
      apply clos_trans_tn1 in G. inversion G as [Hs|y Hs G2]; subst.
      - apply (Hx2 c). apply Ed. split; auto. exists c. auto.
      - apply (Hx2 y). apply Ed. split; auto. exists c. split; auto. right. now apply clos_tn1_trans. }
    rewrite Hh in E2. destruct (order_fuel s'); simpl in E2; inversion E2; auto. }
  subst s2. rewrite E2. unfold s'. subst m. reflexivity.
Qed.
End Theorems.

(* ---------- Add ---------- *)
Lemma succ_set : forall s k l k', successors (mset s k l) k' = if beqb k k' then l else successors s k'.
Proof. intros. unfold successors. rewrite mfind_set. now destruct (beqb k k'). Qed.

Lemma adjacent_cons2 : forall a b r u v,
  adjacent (a :: b :: r) u v <-> (u = a /\ v = b) \/ adjacent (b :: r) u v.
Proof.
  intros. unfold adjacent. split.
  - intros ([|x p]&q&E); simpl in E.
    + inversion E; subst. auto.
    + inversion E; subst. right. exists p, q. auto.
  - intros [[-> ->]|(p&q&E)].
    + exists [], r. auto.
    + exists (a :: p), q. simpl. now rewrite E.
Qed.
Lemma adjacent_short : forall a u v, ~ adjacent [a] u v /\ ~ adjacent [] u v.
Proof.
  intros. split; intros (p&q&E).
  - destruct p as [|? [|]]; discriminate.
  - destruct p; discriminate.
Qed.

Lemma add_pairs_cons : forall s a b r, add_pairs s (a :: b :: r) =
  add_pairs (if in_slice (successors s a) b then s else mset s a (successors s a ++ [b])) (b :: r).
Proof. reflexivity. Qed.

Lemma add_pairs_succ : forall items s u v,
  In v (successors (add_pairs s items) u) <-> In v (successors s u) \/ adjacent items u v.
Proof.
  induction items as [|a r IH]; intros s u v.
  { simpl. pose proof (proj2 (adjacent_short u u v)). tauto. }
  destruct r as [|b r].
  { simpl. pose proof (proj1 (adjacent_short a u v)). tauto. }
  rewrite add_pairs_cons. rewrite IH, adjacent_cons2.
  destruct (in_slice (successors s a) b) eqn:E.
  - apply in_slice_iff in E. split; [tauto|]. intros [H|[[-> ->]|H]]; auto.
  - rewrite succ_set. destruct (beqb a u) eqn:E2.
    + apply beqb_eq in E2. subst. rewrite in_app_iff. simpl. split.
      * intros [[H|[H|[]]]|H]; auto.
      * intros [H|[[_ ->]|H]]; auto.
    + apply beqb_neq in E2. split; [tauto|]. intros [H|[[-> ->]|H]]; auto. congruence.
Qed.

Lemma add_pairs_keys : forall items s u,
  In u (mkeys (add_pairs s items)) <-> In u (mkeys s) \/ exists v, adjacent items u v.
Proof.
  induction items as [|a r IH]; intros s u.
  { simpl. split; auto. intros [|(v&H)]; auto. now apply (proj2 (adjacent_short u u v)) in H. }
  destruct r as [|b r].
  { simpl. split; auto. intros [|(v&H)]; auto. now apply (proj1 (adjacent_short a u v)) in H. }
  rewrite add_pairs_cons. rewrite IH.
  assert (K : In u (mkeys (if in_slice (successors s a) b then s else mset s a (successors s a ++ [b])))
      <-> In u (mkeys s) \/ u = a).
  { destruct (in_slice (successors s a) b) eqn:E.
    - split; auto. intros [| ->]; auto. apply in_slice_iff in E. apply successors_find in E as (l&E&_).
      apply mfind_in_keys. congruence.
    - rewrite mkeys_set_in. tauto. }
  rewrite K. split.
  - intros [[H| ->]|(v&H)]; auto; right; [exists b|exists v]; rewrite adjacent_cons2; auto.
  - intros [H|(v&H)]; auto. apply adjacent_cons2 in H as [[-> ->]|H]; eauto.
Qed.

Lemma sorter_of_snoc : forall calls c, sorter_of (calls ++ [c]) = add (sorter_of calls) c.
Proof. intros. unfold sorter_of. now rewrite fold_left_app. Qed.

Lemma sorter_of_reachable : forall calls, reachable (sorter_of calls).
Proof.
  induction calls as [|c calls IH] using rev_ind; [constructor|].
  rewrite sorter_of_snoc. now constructor.
Qed.

(* exact description of the recorded relation *)
Lemma sorter_of_edge : forall calls u v,
  edge (sorter_of calls) u v <->
  exists pre c post, calls = pre ++ c :: post /\ adjacent c u v /\ ~ In [u] post.
Proof.
  induction calls as [|c calls IH] using rev_ind; intros u v.
  { split; [intros (l&[]&_)|]. intros (pre&c&post&E&_). destruct pre; discriminate. }
  assert (W : forall x, wf (sorter_of x)) by (intros; apply reachable_wf, sorter_of_reachable).
  rewrite edge_succ by apply W. rewrite sorter_of_snoc.
  assert (G : (exists pre c' post, calls ++ [c] = pre ++ c' :: post /\ adjacent c' u v /\ ~ In [u] post) <->
     (adjacent c u v \/ (c <> [u] /\ edge (sorter_of calls) u v))).
  { rewrite IH. split.
    - intros (pre&c'&post&E&A&N). destruct post as [|y post'] using rev_ind.
      + apply app_inj_tail in E as [_ ->]. auto.
      + clear IHpost'. rewrite app_comm_cons, app_assoc in E. apply app_inj_tail in E as [-> ->].
        right. split.
        * intros ->. apply N. apply in_or_app; right; left; auto.
        * exists pre, c', post'. repeat split; auto. intros H. apply N. apply in_or_app; auto.
    - intros [A|(N&pre&c'&post&->&A&N2)].
      + exists calls, c, []. auto.
      + exists pre, c', (post ++ [c]). rewrite <- app_assoc. repeat split; auto.
        rewrite in_app_iff. intros [H|[H|[]]]; auto. }
  rewrite G. rewrite (edge_succ (sorter_of calls)) by apply W. clear G IH.
  destruct c as [|a [|b r]].
  - simpl. pose proof (proj2 (adjacent_short u u v)). split; [intros H1; right; split; [discriminate|auto]|tauto].
  - simpl. rewrite succ_set. pose proof (proj1 (adjacent_short a u v)).
    destruct (beqb a u) eqn:E.
    + apply beqb_eq in E. subst. simpl. split; [tauto|]. intros [|[N _]]; auto.
    + apply beqb_neq in E. split; [|tauto]. intros H1. right. split; auto. congruence.
  - unfold add. rewrite add_pairs_succ. split; [|tauto]. intros [H|H]; auto. right. split; [discriminate|auto].
Qed.

Lemma sorter_of_keys : forall calls u,
  In u (mkeys (sorter_of calls)) <-> In [u] calls \/ exists c v, In c calls /\ adjacent c u v.
Proof.
  induction calls as [|c calls IH] using rev_ind; intros u.
  { simpl. split; [contradiction|]. intros [[]|(c&v&[]&_)]. }
  rewrite sorter_of_snoc, in_app_iff.
  assert (G : (exists c0 v, In c0 (calls ++ [c]) /\ adjacent c0 u v) <->
    (exists c0 v, In c0 calls /\ adjacent c0 u v) \/ exists v, adjacent c u v).
  { split.
    - intros (c0&v&H&A). apply in_app_or in H as [H|[->|[]]]; eauto.
    - intros [(c0&v&H&A)|(v&A)]; [exists c0, v|exists c, v]; rewrite in_app_iff; simpl; auto. }
  rewrite G. clear G. destruct c as [|a [|b r]].
  - simpl. rewrite IH. split; [tauto|]. intros [[H|[H|[]]]|[H|(v&H)]]; auto; try discriminate.
    now apply (proj2 (adjacent_short u u v)) in H.
  - simpl. rewrite mkeys_set_in, IH. split.
    + intros [->|[H|H]]; auto.
    + intros [[H|[H|[]]]|[H|(v&H)]]; auto.
      * left. congruence.
      * now apply (proj1 (adjacent_short a u v)) in H.
  - unfold add. rewrite add_pairs_keys, IH. split.
    + intros [[H|H]|H]; auto.
    + intros [[H|[H|[]]]|[H|H]]; auto. discriminate.
Qed.

Lemma adjacent_in : forall c x, In x c -> c <> [x] -> (exists v, adjacent c x v) \/ (exists u, adjacent c u x).
Proof.
  intros c x H N. apply in_split in H as (a&b&->).
  destruct b as [|y b].
  - destruct a as [|z a] using rev_ind; [exfalso; now apply N|]. right. exists z, a, []. now rewrite <- app_assoc.
  - left. exists y, a, b. reflexivity.
Qed.

Lemma sorter_of_constraints : forall calls, no_erase calls ->
  (forall c x, In c calls -> In x c -> known (sorter_of calls) x) /\
  (forall c u v, In c calls -> adjacent c u v -> edge (sorter_of calls) u v).
Proof.
  intros calls N.
  assert (E : forall c u v, In c calls -> adjacent c u v -> edge (sorter_of calls) u v).
  { intros c u v Hc A. apply sorter_of_edge. apply in_split in Hc as (pre&post&->).
    exists pre, c, post. repeat split; auto. intros Hin. apply in_split in Hin as (p1&p2&->).
    apply (N (pre ++ c :: p1) u p2) with (c := c) (v := v).
    - now rewrite <- app_assoc.
    - apply in_or_app; right; left; auto.
    - auto. }
  split; auto. intros c x Hc Hx.
  destruct (list_eq_dec bytes_dec c [x]) as [->|Nc].
  - apply known_key. apply sorter_of_keys. auto.
  - destruct (adjacent_in c x Hx Nc) as [(v&A)|(u&A)].
    + apply known_key. eapply edge_key. eapply E; eauto.
    + right. exists u. eapply E; eauto.
Qed.

Lemma sorter_of_known_only : forall calls x, known (sorter_of calls) x -> exists c, In c calls /\ In x c.
Proof.
  intros calls x [(l&H)|(u&H)].
  - apply (in_map fst) in H. simpl in H. apply sorter_of_keys in H as [H|(c&v&H&(a&b&->))].
    + exists [x]. simpl; auto.
    + eexists. split; [exact H|]. apply in_or_app; right; left; auto.
  - apply sorter_of_edge in H as (pre&c&post&->&(a&b&->)&_).
    eexists. split; [apply in_or_app; right; left; reflexivity|]. apply in_or_app; right; right; left; auto.
Qed.

Lemma add_honoured : forall perm calls s' l, (forall l, Permutation (perm l) l) -> no_erase calls ->
  order perm (sorter_of calls) = Some (s', Ok l) ->
  (forall c x, In c calls -> In x c -> In x l) /\
  (forall c u v, In c calls -> adjacent c u v -> before l u v).
Proof.
  intros perm calls s' l P N H. destruct (sorter_of_constraints calls N) as [C1 C2].
  destruct (order_topological perm P _ _ _ (sorter_of_reachable calls) H) as (_&T1&T2).
  split; intros.
  - apply T1. eapply C1; eauto.
  - apply T2. eapply C2; eauto.
Qed.

(* ---------- the command ---------- *)
Definition calls_of (ps : list (bytes * bytes)) : list (list bytes) :=
  map (fun p => if beqb (fst p) (snd p) then [fst p] else [fst p; snd p]) ps.

Lemma read_pairs_even : forall m ws s, length ws <= m -> Nat.even (length ws) = true ->
  read_pairs s ws = inl (fold_left add (calls_of (pairs_of ws)) s).
Proof.
  induction m as [|m IH]; intros ws s Hm He.
  { destruct ws; [reflexivity|simpl in Hm; lia]. }
  destruct ws as [|a [|b r]]; [reflexivity|discriminate|].
  simpl in *. rewrite IH; auto; [|lia]. destruct (beqb a b); reflexivity.
Qed.

Lemma read_pairs_odd : forall m ws s, length ws <= m -> Nat.even (length ws) = false ->
  read_pairs s ws = inr (last ws []).
Proof.
  induction m as [|m IH]; intros ws s Hm He.
  { destruct ws; [discriminate|simpl in Hm; lia]. }
  destruct ws as [|a [|b [|c r]]]; [discriminate|reflexivity|discriminate|].
  change (last (a :: b :: c :: r) []) with (last (c :: r) []).
  apply (IH (c :: r) (if beqb a b then add s [a] else add s [a; b])); [cbn [length] in *; lia|exact He].
Qed.

Lemma adjacent_call : forall a b u v,
  adjacent (if beqb a b then [a] else [a; b]) u v <-> a <> b /\ u = a /\ v = b.
Proof.
  intros. destruct (beqb a b) eqn:E.
  - apply beqb_eq in E. pose proof (proj1 (adjacent_short a u v)). tauto.
  - apply beqb_neq in E. rewrite adjacent_cons2. pose proof (proj1 (adjacent_short b u v)). tauto.
Qed.

Lemma no_erase_calls : forall ps, no_erase_pairs ps -> no_erase (calls_of ps).
Proof.
  intros ps N pre x post E c v Hc A.
  unfold calls_of in E.
  assert (exists p1 p p2, ps = p1 ++ p :: p2 /\ map (fun p => if beqb (fst p) (snd p) then [fst p] else [fst p; snd p]) p1 = pre
     /\ (if beqb (fst p) (snd p) then [fst p] else [fst p; snd p]) = [x]) as (p1&p&p2&->&M&P).
  { clear - E. revert pre E. induction ps as [|q ps IH]; intros pre E; [destruct pre; discriminate|].
    destruct pre as [|c pre]; simpl in E; inversion E; subst.
    - exists [], q, ps. auto.
    - destruct (IH pre H1) as (p1&p&p2&->&M&P). exists (q :: p1), p, p2. split; auto. split; auto. simpl. now rewrite M. }
  destruct (beqb (fst p) (snd p)) eqn:Ep; [|discriminate]. apply beqb_eq in Ep. inversion P as [Px].
  destruct p as [p p']. simpl in *. subst p' p.
  subst pre. apply in_map_iff in Hc as ([a b]&<-&Hq). simpl in A.
  apply adjacent_call in A as (Nab&->&->).
  apply Nab. symmetry. eapply N; [reflexivity|]. exact Hq.
Qed.

Section Command.
Variable perm : list bytes -> list bytes.
Hypothesis perm_ok : forall l, Permutation (perm l) l.

Lemma tsort_run_even : forall ws, Nat.even (length ws) = true ->
  let s := sorter_of (calls_of (pairs_of ws)) in
  (exists l, topological (known s) (edge s) l /\
     tsort_run perm ws None = Some {| out := unlines l; errout := []; fin := Exit 0 |}) \/
  (cyclic (edge s) /\ tsort_run perm ws None = Some impossible).
Proof.
  intros ws He s. unfold tsort_run. rewrite (read_pairs_even (length ws)) by auto.
  change (fold_left add (calls_of (pairs_of ws)) new_sorter) with s.
  pose proof (sorter_of_reachable (calls_of (pairs_of ws))) as R. fold s in R.
  destruct (order_total perm perm_ok s R) as (s'&r&E&N). rewrite E. destruct r as [l|m|]; [| |congruence].
  - left. exists l. split; [eapply order_topological; eauto|reflexivity].
  - right. split; [apply (order_fails_iff_cyclic perm perm_ok s R); eauto|].
    assert (m = msg_impossible) as ->; [|reflexivity]. revert E. unfold order.
    destruct (order_loop _ _ _ _) as [[[|? ?] ?]|]; congruence.
Qed.

Lemma tsort_run_odd : forall ws se, Nat.even (length ws) = false ->
  tsort_run perm ws se = Some (unmatched ws).
Proof.
  intros ws se H. unfold tsort_run. now rewrite (read_pairs_odd (length ws) ws new_sorter (le_n _) H).
Qed.

Lemma tsort_run_scan_error : forall ws e,
  tsort_run perm ws (Some e) = Some (if Nat.even (length ws) then failed (B "scan error!") e else unmatched ws).
Proof.
  intros ws e. destruct (Nat.even (length ws)) eqn:Ev; [|now apply tsort_run_odd].
  unfold tsort_run. now rewrite (read_pairs_even (length ws)) by auto.
Qed.

(* relation and items of the input pairs themselves *)
Lemma pairs_relation : forall ps, no_erase_pairs ps ->
  (forall u v, edge (sorter_of (calls_of ps)) u v <-> In (u, v) ps /\ u <> v) /\
  (forall x, known (sorter_of (calls_of ps)) x <-> exists y, In (x, y) ps \/ In (y, x) ps).
Proof.
  intros ps N. destruct (sorter_of_constraints _ (no_erase_calls ps N)) as [C1 C2].
  assert (Ed : forall u v, edge (sorter_of (calls_of ps)) u v <-> In (u, v) ps /\ u <> v).
  { intros u v. split.
    - intros H. apply sorter_of_edge in H as (pre&c&post&E&A&_).
      assert (Hc : In c (calls_of ps)) by (rewrite E; apply in_or_app; right; left; auto).
      apply in_map_iff in Hc as ([a b]&<-&Hq). simpl in A. apply adjacent_call in A as (Nab&->&->). auto.
    - intros [H1 H2].
      apply (C2 [u; v]).
      + unfold calls_of. apply in_map_iff. exists (u, v). split; auto. simpl. apply beqb_neq in H2. now rewrite H2.
      + apply adjacent_cons2. auto. }
  split; auto. intros x. split.
  - intros H. apply sorter_of_known_only in H as (c&Hc&Hx). apply in_map_iff in Hc as ([a b]&<-&Hq).
    simpl in Hx. destruct (beqb a b) eqn:E.
    + destruct Hx as [<-|[]]. eauto.
    + destruct Hx as [<-|[<-|[]]]; eauto.
  - assert (G : forall a b, In (a, b) ps -> known (sorter_of (calls_of ps)) a /\ known (sorter_of (calls_of ps)) b).
    { intros a b Hq. assert (Hc : In (if beqb a b then [a] else [a; b]) (calls_of ps)).
      { apply in_map_iff. exists (a, b). auto. }
      destruct (beqb a b) eqn:E.
      - apply beqb_eq in E. subst. split; eapply C1; eauto; left; auto.
      - split; eapply C1; eauto; simpl; auto. }
    intros (y&[H|H]); apply G in H; tauto.
Qed.


Lemma topological_ext : forall P P' r r' l, (forall x, P x <-> P' x) -> (forall u v, r u v <-> r' u v) ->
  topological P r l -> topological P' r' l.
Proof.
  intros P P' r r' l H1 H2 (T1&T2&T3). split; auto. split.
  - intros x. now rewrite T2, H1.
  - intros u v H. apply T3, H2, H.
Qed.

Lemma path_ext : forall (r r' : bytes -> bytes -> Prop), (forall u v, r u v <-> r' u v) ->
  forall x y, path r x y -> path r' x y.
Proof. intros r r' H x y P. induction P; [apply t_step, H, H0|eapply t_trans; eauto]. Qed.

Lemma words_in_pairs : forall m ws x, length ws <= m -> Nat.even (length ws) = true ->
  (In x ws <-> exists y, In (x, y) (pairs_of ws) \/ In (y, x) (pairs_of ws)).
Proof.
  induction m as [|m IH]; intros ws x Hm He.
  { destruct ws; [|simpl in Hm; lia]. simpl. split; [contradiction|]. intros (y&[[]|[]]). }
  destruct ws as [|a [|b r]]; [|discriminate|].
  - simpl. split; [contradiction|]. intros (y&[[]|[]]).
  - simpl in *. rewrite (IH r x) by (auto; lia). split.
    + intros [->|[->|(y&[H|H])]]; eauto.
    + intros (y&[[[= -> ->]|H]|[[= -> ->]|H]]); eauto.
Qed.

Lemma tsort_command : forall ws, Nat.even (length ws) = true -> no_erase_pairs (pairs_of ws) ->
  (exists l, topological (fun x => In x ws) (rel_of ws) l /\
     tsort_run perm ws None = Some {| out := unlines l; errout := []; fin := Exit 0 |}) \/
  (cyclic (rel_of ws) /\ tsort_run perm ws None = Some impossible).
Proof.
  intros ws He N. destruct (pairs_relation _ N) as [R1 R2].
  destruct (tsort_run_even ws He) as [(l&T&E)|((x&P)&E)].
  - left. exists l. split; auto. eapply topological_ext; [| |exact T].
    + intros x. rewrite R2. symmetry. eapply words_in_pairs; eauto.
    + intros u v. apply R1.
  - right. split; auto. exists x. eapply path_ext; [|exact P]. intros u v. apply R1.
Qed.
End Command.

(* what is recorded of any list of pairs *)
Lemma split_map : forall A C (f : A -> C) l a x b, map f l = a ++ x :: b -> exists l1 y l2, l = l1 ++ y :: l2 /\ map f l1 = a /\ f y = x /\ map f l2 = b.
Proof.
  intros A C f l a x b. revert a. induction l as [|z l IH]; intros a E; [destruct a; discriminate|].
  destruct a as [|c a]; cbn [map app] in E; injection E as E1 E2.
  - exists [], z, l. auto.
  - destruct (IH _ E2) as (l1&y&l2&->&M&F&M2). exists (z :: l1), y, l2. repeat split; auto. cbn [map]. now rewrite E1, M.
Qed.
Lemma single_call : forall ps u, In [u] (calls_of ps) <-> In (u, u) ps.
Proof.
  intros ps u. unfold calls_of. rewrite in_map_iff. split.
  - intros ([a b]&E&H). cbn [fst snd] in E. destruct (beqb a b) eqn:Q; [|discriminate]. apply beqb_eq in Q. injection E as ->. now subst.
  - intros H. exists (u, u). split; auto. cbn [fst snd]. now rewrite beqb_refl.
Qed.
Lemma kept_edge : forall ws u v, edge (sorter_of (calls_of (pairs_of ws))) u v <-> kept ws u v.
Proof.
  intros ws u v. rewrite sorter_of_edge. unfold kept. split.
  - intros (pre&c&post&E&A&N). unfold calls_of in E. apply split_map in E. destruct E as (p1&[a b]&p2&E&M1&F&M2).
    cbn [fst snd] in F. subst c. apply adjacent_call in A. destruct A as (Nab&->&->). exists p1, p2. repeat split; auto.
    intros H. apply N. subst post. now apply single_call.
  - intros (pre&post&E&Nuv&H). exists (calls_of pre), [u; v], (calls_of post). repeat split.
    + rewrite E. unfold calls_of. rewrite map_app. cbn [map fst snd]. apply beqb_neq in Nuv. now rewrite Nuv.
    + apply adjacent_cons2. auto.
    + now rewrite single_call.
Qed.
Lemma kept_known : forall ws x, known (sorter_of (calls_of (pairs_of ws))) x <-> kept_item ws x.
Proof.
  intros ws x. unfold kept_item. set (ps := pairs_of ws). assert (K : In x (mkeys (sorter_of (calls_of ps))) <-> exists y, In (x, y) ps).
  { rewrite sorter_of_keys, single_call. split.
    - intros [H|(c&v&H&A)]; [eauto|]. unfold calls_of in H. apply in_map_iff in H. destruct H as ([a b]&<-&H). cbn [fst snd] in A.
      apply adjacent_call in A. destruct A as (_&->&->). eauto.
    - intros (y&H). destruct (bytes_dec x y) as [<-|Ne]; [auto|right]. exists [x; y], y. split; [|apply adjacent_cons2; auto].
      unfold calls_of. apply in_map_iff. exists (x, y). split; auto. cbn [fst snd]. apply beqb_neq in Ne. now rewrite Ne. }
  split.
  - intros [(l&H)|(u&H)]; [left; apply K; now apply (in_map fst) in H|right; exists u; now apply kept_edge].
  - intros [H|(u&H)]; [apply known_key; now apply K|right; exists u; now apply kept_edge].
Qed.
Lemma tsort_exact : forall perm ws, (forall l, Permutation (perm l) l) -> Nat.even (length ws) = true ->
  (exists l, topological (kept_item ws) (kept ws) l /\ tsort_run perm ws None = Some {| out := unlines l; errout := []; fin := Exit 0 |}) \/
  (cyclic (kept ws) /\ tsort_run perm ws None = Some impossible).
Proof.
  intros perm ws P He. destruct (tsort_run_even perm P ws He) as [(l&T&E)|((x&C)&E)].
  - left. exists l. split; auto. eapply topological_ext; [| |exact T]; [apply kept_known|apply kept_edge].
  - right. split; auto. exists x. eapply path_ext; [|exact C]. apply kept_edge.
Qed.

(* ---------- words ---------- *)
Lemma blank_space : forall r, is_space_rune r = true <-> blank r.
Proof.
  intros r. split; intros H.
  - unfold is_space_rune in H. rewrite !orb_true_iff, !andb_true_iff, !N.eqb_eq, !N.leb_le in H. unfold blank. cbn [In app].
    assert (E : forall k, r = k -> k = r) by auto.
    destruct H as [[[[[H|H]|H]|H]|H]|H]; [|apply E in H; tauto..].
    destruct H as [H|H]; [intuition auto|].
    assert (X : exists k, (k <= 10)%N /\ r = (8192 + k)%N) by (exists (r - 8192)%N; lia). destruct X as (k&Lk&->). clear H E.
    assert (Y : In k [0; 1; 2; 3; 4; 5; 6; 7; 8; 9; 10]%N).
    { cbn [In]. lia. }
    cbn [In] in Y. intuition subst; tauto.
  - unfold blank in H. cbn [In app] in H. repeat (destruct H as [<-|H]; [reflexivity|]). destruct H.
Qed.

Definition emit_word (cur : bytes) (w : nat) (k : list bytes * bool) : list bytes * bool :=
  match cur with
  | [] => k
  | _ => if (max_token <? N.of_nat (List.length cur + w))%N then ([], true)
         else let '(l, e) := k in (rev cur :: l, e)
  end.
Fixpoint scan_chars (l : list (N * bytes)) (cur : bytes) : list bytes * bool :=
  match l with
  | [] => emit_word cur 1 ([], false)
  | (r, c) :: t => if is_space_rune r then emit_word cur (length c) (scan_chars t []) else scan_chars t (rev c ++ cur)
  end.
Lemma scan_words_cons : forall f c b cur r, c <> [] -> decode_rune (c ++ b) = (r, length c) ->
  scan_words_from (S f) (c ++ b) cur =
  if is_space_rune r then emit_word cur (length c) (scan_words_from f b []) else scan_words_from f b (rev c ++ cur).
Proof.
  intros f c b cur r Ne D. destruct c as [|a c]; [congruence|]. cbn [app] in *. cbn [scan_words_from]. rewrite D. cbv iota beta.
  change (a :: c ++ b) with ((a :: c) ++ b). rewrite skipn_app, firstn_app, skipn_all, firstn_all, Nat.sub_diag. cbn [skipn firstn]. rewrite app_nil_r.
  destruct (is_space_rune r); reflexivity.
Qed.
Lemma scan_words_nil : forall f cur, scan_words_from f [] cur = emit_word cur 1 ([], false).
Proof. intros [|f] cur; unfold emit_word; destruct cur; reflexivity. Qed.
Lemma scan_words_chars : forall b l, characters b l -> forall f cur, length b <= f -> scan_words_from f b cur = scan_chars l cur.
Proof.
  induction 1 as [|r c b l V -> H IH|c b l D H IH]; intros f cur L.
  - now rewrite scan_words_nil.
  - rewrite app_length in L. pose proof (encode_nonempty r) as Ne. destruct f as [|f]; [destruct (encode_rune r); [congruence|cbn in L; lia]|].
    rewrite (scan_words_cons f (encode_rune r) b cur r Ne (decode_encode r b V)). cbn [scan_chars].
    assert (length b <= f) by (destruct (encode_rune r); [congruence|cbn in L; lia]). rewrite !IH by auto. reflexivity.
  - cbn [length] in L. destruct f as [|f]; [lia|]. change (c :: b) with ([c] ++ b).
    rewrite (scan_words_cons f [c] b cur rune_error) by (auto; discriminate). cbn [scan_chars]. rewrite !IH by lia. reflexivity.
Qed.
Lemma characters_nonempty : forall b l, characters b l -> Forall (fun x => snd x <> []) l.
Proof. induction 1 as [|r c b l V -> H IH|c b l D H IH]; constructor; auto; cbn [snd]; [apply encode_nonempty|discriminate]. Qed.

(* what the scanner returns for a list of words *)
Fixpoint scanned (l : list (bytes * nat)) : list bytes * bool :=
  match l with
  | [] => ([], false)
  | (w, k) :: r => if (max_token <? N.of_nat (length w + k))%N then ([], true) else let '(ws, e) := scanned r in (w :: ws, e)
  end.
Lemma scan_chars_word : forall w t cur, Forall (fun x => ~ blank (fst x)) w ->
  scan_chars (w ++ t) cur = scan_chars t (rev (concat (map snd w)) ++ cur).
Proof.
  induction w as [|[r c] w IH]; intros t cur F; [reflexivity|]. apply Forall_inv in F as F0. apply Forall_inv_tail in F. cbn [fst] in F0.
  cbn [app scan_chars map concat snd]. destruct (is_space_rune r) eqn:E; [now apply blank_space in E|]. rewrite IH by auto.
  now rewrite rev_app_distr, <- app_assoc.
Qed.
Lemma emit_some : forall w k x, w <> [] -> emit_word (rev w) k x = if (max_token <? N.of_nat (length w + k))%N then ([], true) else let '(ws, e) := x in (w :: ws, e).
Proof.
  intros w k x Ne. unfold emit_word. destruct (rev w) as [|a r] eqn:E.
  - apply (f_equal (@rev ascii)) in E. rewrite rev_involutive in E. cbn in E. congruence.
  - rewrite <- E, rev_length, rev_involutive. reflexivity.
Qed.
Lemma word_nonempty : forall w : list (N * bytes), w <> [] -> Forall (fun x => snd x <> []) w -> concat (map snd w) <> [].
Proof. intros [|[r c] w] Ne F; [congruence|]. apply Forall_inv in F. cbn [map concat snd] in *. destruct c; [congruence|discriminate]. Qed.
Lemma scan_chars_worded : forall l ws, worded_chars l ws -> Forall (fun x => snd x <> []) l -> scan_chars l [] = scanned ws.
Proof.
  induction 1 as [|r c t ws Hb H IH|w Ne Nb|w r c t ws Ne Nb Hb H IH]; intros F.
  - reflexivity.
  - apply Forall_inv_tail in F. cbn [scan_chars]. apply blank_space in Hb. rewrite Hb. cbn [emit_word]. now apply IH.
  - rewrite <- (app_nil_r w) at 1. rewrite scan_chars_word by auto. cbn [scan_chars]. rewrite app_nil_r, emit_some by now apply word_nonempty. reflexivity.
  - apply Forall_app in F as [F1 F2]. apply Forall_inv_tail in F2. rewrite scan_chars_word by auto. cbn [scan_chars]. apply blank_space in Hb. rewrite Hb, app_nil_r.
    rewrite emit_some by now apply word_nonempty. now rewrite IH.
Qed.
Lemma scan_words_spec : forall b l, worded_at b l -> scan_words b = scanned l.
Proof.
  intros b l (cs&H1&H2). unfold scan_words. rewrite (scan_words_chars _ _ H1) by auto. apply scan_chars_worded; auto. eapply characters_nonempty; eauto.
Qed.
Lemma scanned_short : forall l, Forall fits l -> scanned l = (map fst l, false).
Proof.
  induction 1 as [|[w k] l F H IH]; [reflexivity|]. unfold fits in F. cbn [fst snd scanned map] in *. rewrite IH. unfold max_token.
  destruct (N.ltb_spec 65536 (N.of_nat (length w + k))); [lia|reflexivity].
Qed.
Lemma scanned_long : forall l p, In p l -> ~ fits p -> exists ws, scanned l = (ws, true).
Proof.
  induction l as [|[w k] l IH]; [intros p []|]; intros p [<-|I] F; cbn [scanned].
  - unfold fits in F. cbn [fst snd] in F. unfold max_token. destruct (N.ltb_spec 65536 (N.of_nat (length w + k))); [eauto|lia].
  - destruct (max_token <? _)%N; [eauto|]. destruct (IH p I F) as (ws&->). eauto.
Qed.

(* every text has words *)
Lemma characters_exist : forall n b, length b <= n -> exists l, characters b l.
Proof.
  induction n as [|n IH]; intros b L; [destruct b; [exists []; constructor|cbn in L; lia]|].
  destruct b as [|c b]; [exists []; constructor|]. destruct (decode_rune (c :: b)) as [r w] eqn:D.
  pose proof (decode_width (c :: b) r w ltac:(discriminate) D) as W.
  destruct (N.eq_dec r rune_error) as [Er|Nr]; [destruct (Nat.eq_dec w 1) as [Ew|Nw]|].
  - subst. destruct (IH b) as (l&H); [cbn in L; lia|]. eexists. apply characters_bad; eauto.
  - destruct (encode_decode (c :: b) r w) as [V F]; [discriminate|auto|congruence|].
    destruct (IH (skipn w (c :: b))) as (l&H); [rewrite skipn_length; lia|].
    rewrite <- (firstn_skipn w (c :: b)). rewrite F. eexists. apply characters_cons; eauto.
  - destruct (encode_decode (c :: b) r w) as [V F]; [discriminate|auto|congruence|].
    destruct (IH (skipn w (c :: b))) as (l&H); [rewrite skipn_length; lia|].
    rewrite <- (firstn_skipn w (c :: b)). rewrite F. eexists. apply characters_cons; eauto.
Qed.
Lemma blank_dec : forall r, {blank r} + {~ blank r}.
Proof. intros r. destruct (is_space_rune r) eqn:E; [left; now apply blank_space|right]. intros H. apply blank_space in H. congruence. Qed.
Lemma worded_chars_exist : forall l, exists ws, worded_chars l ws.
Proof.
  assert (G : forall l, (exists ws, worded_chars l ws) /\ forall w, w <> [] -> Forall (fun x => ~ blank (fst x)) w -> exists ws, worded_chars (w ++ l) ws).
  { induction l as [|[r c] l [IH1 IH2]].
    - split; [exists []; constructor|]. intros w Ne F. rewrite app_nil_r. eexists. now apply worded_last.
    - destruct (blank_dec r) as [Hb|Hb].
      + destruct IH1 as (ws&H). split; [exists ws; now apply worded_blank|]. intros w Ne F. eexists. apply worded_word; eauto.
      + split.
        * destruct (IH2 [(r, c)]) as (ws&H); [discriminate|constructor; auto|]. now exists ws.
        * intros w Ne F. destruct (IH2 (w ++ [(r, c)])) as (ws&H); [destruct w; discriminate|apply Forall_app; split; auto|].
          rewrite <- app_assoc in H. now exists ws. }
  intros l. apply G.
Qed.
Lemma worded_exists : forall t, exists ws, worded t ws.
Proof.
  intros t. destruct (characters_exist (length t) t (le_n _)) as (l&H). destruct (worded_chars_exist l) as (ws&H2).
  exists (map fst ws), ws. split; auto. exists l. auto.
Qed.
Lemma short_or_long : forall t, short_words t \/ long_word t.
Proof.
  intros t. destruct (worded_exists t) as (_&l&W&_). assert (D : forall p, {fits p} + {~ fits p}) by (intros p; unfold fits; destruct (N.of_nat (length (fst p) + snd p) <=? 65536)%N eqn:Q; [left; now apply N.leb_le|right; now apply N.leb_gt in Q; lia]).
  destruct (Forall_Exists_dec fits D l) as [F|X]; [left|right].
  - intros l' W'. rewrite Forall_forall. intros p I. destruct (D p) as [Y|N]; auto. exfalso.
    apply scan_words_spec in W as E1. apply scan_words_spec in W' as E2. rewrite E1, (scanned_short l F) in E2.
    destruct (scanned_long l' p I N) as (ws&E). rewrite E in E2. discriminate.
  - apply Exists_exists in X. destruct X as (p&I&N). now exists l, p.
Qed.

Lemma tsort_main_reads : forall perm fs stdin args text e, input_of fs stdin args = Some (text, e) ->
  tsort_main perm fs stdin args = tsort_run perm (fst (scan_words text)) (if snd (scan_words text) then Some (B "bufio.Scanner: token too long") else e).
Proof.
  intros perm fs stdin args text e H. unfold tsort_main. cbv zeta. destruct args as [|f r]; cbn [input_of] in H.
  - inversion H; subst. cbn [fst snd]. now destruct (scan_words text).
  - destruct (beqb f (B "-")).
    + inversion H; subst. cbn [fst snd]. now destruct (scan_words text).
    + rewrite H. cbn [fst snd]. now destruct (scan_words text).
Qed.
Lemma tsort_main_long : forall perm fs stdin args text e, input_of fs stdin args = Some (text, e) -> long_word text ->
  tsort_main perm fs stdin args = Some (failed (B "scan error!") (B "bufio.Scanner: token too long")) \/
  exists ws, tsort_main perm fs stdin args = Some (unmatched ws).
Proof.
  intros perm fs stdin args text e H (l&p&W&I&N). destruct (scanned_long l p I N) as (ws&E). rewrite <- (scan_words_spec _ _ W) in E.
  rewrite (tsort_main_reads _ _ _ _ _ _ H), E. cbn [fst snd]. rewrite tsort_run_scan_error. destruct (Nat.even _); eauto.
Qed.
Lemma tsort_main_error : forall perm fs stdin args text e ws, input_of fs stdin args = Some (text, Some e) ->
  worded text ws -> short_words text ->
  tsort_main perm fs stdin args = Some (if Nat.even (length ws) then failed (B "scan error!") e else unmatched ws).
Proof.
  intros perm fs stdin args text e ws H (l&W&->) S.
  assert (E := scan_words_spec text l W). rewrite (scanned_short l (S l W)) in E.
  rewrite (tsort_main_reads _ _ _ _ _ _ H), E. cbn [fst snd]. apply tsort_run_scan_error.
Qed.
Lemma tsort_main_input : forall perm fs stdin args text ws, input_of fs stdin args = Some (text, None) ->
  worded text ws -> short_words text ->
  tsort_main perm fs stdin args = tsort_run perm ws None.
Proof.
  intros perm fs stdin args text ws H (l&W&->) S.
  assert (E := scan_words_spec text l W). rewrite (scanned_short l (S l W)) in E. now rewrite (tsort_main_reads _ _ _ _ _ _ H), E.
Qed.

Lemma tsort_main_total : forall perm fs stdin args, (forall l, Permutation (perm l) l) ->
  exists r, tsort_main perm fs stdin args = Some r /\
  (fin r = Exit 0 /\ errout r = [] \/ fin r = Exit 1 /\ out r = []).
Proof.
  intros perm fs stdin args P.
  assert (G : forall ws e, exists r, tsort_run perm ws e = Some r /\
     (fin r = Exit 0 /\ errout r = [] \/ fin r = Exit 1 /\ out r = [])).
  { intros ws [e|].
    - rewrite (tsort_run_scan_error perm ws e). eexists. split; [reflexivity|]. destruct (Nat.even _); simpl; auto.
    - destruct (Nat.even (length ws)) eqn:Ev.
      + destruct (tsort_run_even perm P ws Ev) as [(l&T&E)|(C&E)]; rewrite E; eexists; split; try reflexivity; simpl; auto.
      + rewrite (tsort_run_odd perm ws None Ev). eexists. split; [reflexivity|]. simpl; auto. }
  destruct (input_of fs stdin args) as [[text e]|] eqn:I; [rewrite (tsort_main_reads _ _ _ _ _ _ I); apply G|].
  unfold tsort_main. destruct args as [|f r]; cbn [input_of] in I; [discriminate|]. destruct (beqb f (B "-")); [discriminate|]. rewrite I.
  eexists. split; [reflexivity|]. simpl; auto.
Qed.

Lemma tsort_main_unopenable : forall perm fs stdin f r, f <> B "-" -> fs f = None ->
  tsort_main perm fs stdin (f :: r) = Some (failed (B "can't open") f).
Proof.
  intros. unfold tsort_main. cbv zeta. apply beqb_neq in H. now rewrite H, H0.
Qed.

Lemma tsort_main_odd : forall perm fs stdin args text ws, input_of fs stdin args = Some (text, None) ->
  worded text ws -> short_words text -> Nat.even (length ws) = false ->
  tsort_main perm fs stdin args = Some (unmatched ws).
Proof.
  intros. erewrite tsort_main_input by eauto. now apply tsort_run_odd.
Qed.

Lemma tsort_main_even : forall perm fs stdin args text ws, (forall l, Permutation (perm l) l) ->
  input_of fs stdin args = Some (text, None) ->
  worded text ws -> short_words text -> Nat.even (length ws) = true ->
  no_erase_pairs (pairs_of ws) ->
  (exists l, topological (fun x => In x ws) (rel_of ws) l /\
     tsort_main perm fs stdin args = Some {| out := unlines l; errout := []; fin := Exit 0 |}) \/
  (cyclic (rel_of ws) /\ tsort_main perm fs stdin args = Some impossible).
Proof.
  intros. erewrite tsort_main_input by eauto. now apply tsort_command.
Qed.

Lemma tsort_main_exact : forall perm fs stdin args text ws, (forall l, Permutation (perm l) l) ->
  input_of fs stdin args = Some (text, None) -> worded text ws -> short_words text -> Nat.even (length ws) = true ->
  (exists l, topological (kept_item ws) (kept ws) l /\
     tsort_main perm fs stdin args = Some {| out := unlines l; errout := []; fin := Exit 0 |}) \/
  (cyclic (kept ws) /\ tsort_main perm fs stdin args = Some impossible).
Proof. intros. erewrite tsort_main_input by eauto. now apply tsort_exact. Qed.

Lemma characters_ascii : forall b, forallb (fun c => byte_val c <? 128)%N b = true -> characters b (map (fun c => (byte_val c, [c])) b).
Proof.
  induction b as [|c b IH]; intros H; [constructor|]. cbn [forallb map] in *. apply andb_true_iff in H as [H1 H2]. apply N.ltb_lt in H1.
  change (c :: b) with ([c] ++ b). apply characters_cons; auto.
  - unfold valid_rune. lia.
  - rewrite encode_ascii by auto. unfold byte_val. now rewrite ascii_N_embedding.
Qed.
(* the words of a text, computed *)
Lemma worded_by : forall b ws, scan_words b = (ws, false) -> worded b ws /\ short_words b.
Proof.
  intros b ws E. destruct (worded_exists b) as (ws'&l&W&->). assert (S : short_words b).
  { destruct (short_or_long b) as [S|(l'&p&W'&I&N)]; auto. apply scan_words_spec in W'. destruct (scanned_long l' p I N) as (x&Ex). congruence. }
  split; auto. exists l. split; auto. apply scan_words_spec in W as Ew. rewrite (scanned_short l (S l W)) in Ew. congruence.
Qed.
