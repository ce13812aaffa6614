(* Proofs for PieceHeapProps.v: the heap cells reachable from the head as a list segment. *)
From Coq Require Import Permutation.
From Verif Require Import GoBase PieceTableModel PieceTableSpec PieceTableProofs PieceHeapModel PieceHeapSpec.
Local Open Scope Z_scope.

(* ---- cells ---- *)
Lemma upd_length : forall h a c, List.length (upd h a c) = List.length h.
Proof. induction h as [|x h IH]; intros [|a] c; cbn; auto. Qed.
Lemma upd_same : forall h a c, (a < List.length h)%nat -> nth_error (upd h a c) a = Some c.
Proof. induction h as [|x h IH]; intros [|a] c L; cbn in *; try lia; [reflexivity|]. apply IH. lia. Qed.
Lemma upd_other : forall h a b c, a <> b -> nth_error (upd h a c) b = nth_error h b.
Proof. induction h as [|x h IH]; intros [|a] [|b] c N; cbn; try reflexivity; try congruence. apply IH. congruence. Qed.
Lemma nth_lt : forall (h : heap) a c, nth_error h a = Some c -> (a < List.length h)%nat.
Proof. intros h a c H. apply nth_error_Some. congruence. Qed.
Lemma set_next_length : forall h a n, List.length (set_next h a n) = List.length h.
Proof. intros h a n. unfold set_next. destruct (nth_error h a); [apply upd_length|reflexivity]. Qed.
Lemma set_piece_length : forall h a n, List.length (set_piece h a n) = List.length h.
Proof. intros h a n. unfold set_piece. destruct (nth_error h a); [apply upd_length|reflexivity]. Qed.
Lemma set_next_same : forall h a n c, nth_error h a = Some c -> nth_error (set_next h a n) a = Some {| c_piece := c_piece c; c_next := n |}.
Proof. intros h a n c H. unfold set_next. rewrite H. apply upd_same. eapply nth_lt, H. Qed.
Lemma set_piece_same : forall h a p c, nth_error h a = Some c -> nth_error (set_piece h a p) a = Some {| c_piece := p; c_next := c_next c |}.
Proof. intros h a n c H. unfold set_piece. rewrite H. apply upd_same. eapply nth_lt, H. Qed.
Lemma set_next_other : forall h a b n, a <> b -> nth_error (set_next h a n) b = nth_error h b.
Proof. intros h a b n N. unfold set_next. destruct (nth_error h a); [now apply upd_other|reflexivity]. Qed.
Lemma set_piece_other : forall h a b n, a <> b -> nth_error (set_piece h a n) b = nth_error h b.
Proof. intros h a b n N. unfold set_piece. destruct (nth_error h a); [now apply upd_other|reflexivity]. Qed.

(* ---- segments ---- *)
Lemma seg_app : forall h l1 l2 p q, seg h p (l1 ++ l2) q <-> exists m, seg h p l1 m /\ seg h m l2 q.
Proof.
  intros h l1. induction l1 as [|[a x] l1 IH]; intros l2 p q; cbn [app seg].
  - split; [intros H; exists p; now split|]. intros (m & -> & H). exact H.
  - split.
    + intros (E & n & C & H). apply IH in H. destruct H as (m & H1 & H2). exists m. split; [|exact H2]. split; [exact E|]. now exists n.
    + intros (m & (E & n & C & H1) & H2). split; [exact E|]. exists n. split; [exact C|]. apply IH. now exists m.
Qed.
Lemma seg_keep : forall h h' l p q, (forall a, In a (map fst l) -> nth_error h' a = nth_error h a) -> seg h p l q -> seg h' p l q.
Proof.
  intros h h' l. induction l as [|[a x] l IH]; intros p q K H; [exact H|]. destruct H as (E & n & C & H). split; [exact E|].
  exists n. split; [rewrite K by (now left); exact C|]. apply IH; [|exact H]. intros b I. apply K. now right.
Qed.
Lemma seg_lt : forall h l p q a, seg h p l q -> In a (map fst l) -> (a < List.length h)%nat.
Proof.
  intros h l. induction l as [|[b x] l IH]; intros p q a H I; [destruct I|]. destruct H as (E & n & C & H). destruct I as [<-|I].
  - eapply nth_lt, C.
  - eapply IH; eassumption.
Qed.
Lemma seg_ext : forall h t l p q, seg h p l q -> seg (h ++ t) p l q.
Proof.
  intros h t l p q H. apply (seg_keep h); [|exact H]. intros a I. apply nth_error_app1. eapply seg_lt; eassumption.
Qed.
Lemma seg_size : forall h l p q, seg h p l q -> NoDup (map fst l) -> (List.length l <= List.length h)%nat.
Proof.
  intros h l p q H N. rewrite <- (map_length fst l), <- (seq_length (List.length h) 0). apply NoDup_incl_length; [exact N|].
  intros a I. apply in_seq. pose proof (seg_lt _ _ _ _ _ H I). lia.
Qed.
Lemma walk_seg : forall h l p fuel, seg h p l None -> (List.length l < fuel)%nat -> walk fuel h p = Returns (map snd l).
Proof.
  intros h l. induction l as [|[a x] l IH]; intros p fuel H L; (destruct fuel as [|f]; [cbn in L; lia|]); cbn [walk].
  - cbn in H. now rewrite H.
  - destruct H as (-> & n & C & H). rewrite C. cbn [c_next c_piece]. rewrite (IH n f H) by (cbn in L; lia). reflexivity.
Qed.

(* the address of the last cell of a segment *)
Definition last_of (l : list (nat * piece)) : option nat := match rev l with [] => None | (a, _) :: _ => Some a end.
Lemma last_snoc : forall l a x, last_of (l ++ [(a, x)]) = Some a.
Proof. intros l a x. unfold last_of. now rewrite rev_unit. Qed.
Lemma last_cases : forall (l : list (nat * piece)), l = [] \/ exists l' a x, l = l' ++ [(a, x)].
Proof. intros l. destruct l as [|y l] using rev_ind; [now left|]. right. destruct y as [a x]. now exists l, a, x. Qed.
(* relinking the end of a segment *)
Lemma seg_relink : forall h l b x p q n, seg h p (l ++ [(b, x)]) q -> NoDup (map fst (l ++ [(b, x)])) ->
  seg (set_next h b n) p (l ++ [(b, x)]) n.
Proof.
  intros h l b x p q n H N. apply seg_app in H. destruct H as (m & H1 & H2). apply seg_app. exists m.
  rewrite map_app in N. cbn [map fst] in N. pose proof (NoDup_remove_2 _ _ _ N) as X. rewrite app_nil_r in X. split.
  - apply (seg_keep h); [|exact H1]. intros a I. apply set_next_other. intros <-. now apply X.
  - destruct H2 as (E & y & C & _). split; [exact E|]. exists n. split; [|reflexivity]. now rewrite (set_next_same _ _ _ _ C).
Qed.
Lemma nodup_parts : forall (l1 l2 : list (nat * piece)), NoDup (map fst (l1 ++ l2)) ->
  NoDup (map fst l1) /\ NoDup (map fst l2) /\ forall a, In a (map fst l1) -> In a (map fst l2) -> False.
Proof.
  intros l1 l2. rewrite map_app. induction (map fst l1) as [|a l IH]; cbn [app]; intros N.
  - split; [constructor|]. split; [exact N|]. intros a [].
  - inversion N as [|? ? X Y]; subst. destruct (IH Y) as (A & C & D). split; [|split; [exact C|]].
    + constructor; [|exact A]. intros I. apply X, in_or_app. now left.
    + intros b [<-|I] J; [apply X, in_or_app; now right|exact (D b I J)].
Qed.

(* ---- Insert ---- *)
Lemma insert_seg : forall ab text at_ hd h l2 pre p idx fuel, seg h hd pre p -> seg h p l2 None -> NoDup (map fst (pre ++ l2)) ->
  (List.length l2 < fuel)%nat ->
  match insert_pieces ab text at_ idx (map snd l2) with
  | None => insert_loop fuel h ab hd text at_ idx (last_of pre) p = Dies
  | Some (ps, buf) => exists h' hd' l', insert_loop fuel h ab hd text at_ idx (last_of pre) p = Returns (h', hd', buf) /\
      seg h' hd' (pre ++ l') None /\ NoDup (map fst (pre ++ l')) /\ map snd l' = ps
  end.
Proof.
  intros ab text at_ hd h l2. induction l2 as [|[a x] l2 IH]; intros pre p idx fuel H1 H2 N L;
    (destruct fuel as [|f]; [cbn in L; lia|]); cbn [map snd insert_pieces insert_loop].
  - cbn in H2. now rewrite H2.
  - destruct H2 as (-> & n & C & H2). rewrite C. cbn [c_piece c_next]. destruct (at_ <=? idx + plen x) eqn:E.
    + destruct ab as [buf|]; [|reflexivity]. cbv zeta. set (k := List.length h).
      set (p1 := {| plen := at_ - (idx + plen x - plen x); poff := poff x; prdr := prdr x |}).
      set (p2 := {| plen := Z.of_nat (List.length text); poff := Z.of_nat (List.length buf); prdr := RBuf (buf ++ text) |}).
      set (p3 := {| plen := plen x - (at_ - (idx + plen x - plen x)); poff := poff x + (at_ - (idx + plen x - plen x)); prdr := prdr x |}).
      set (h1 := h ++ _). set (new := [(k, p1); (S k, p2); (S (S k), p3)]).
      assert (Hs : seg h1 (Some k) (new ++ l2) None).
      { apply seg_app. exists n. split; [|now apply seg_ext]. cbn [seg new]. split; [reflexivity|]. exists (Some (S k)).
        split; [unfold h1; rewrite nth_error_app2 by (unfold k; lia); unfold k; now rewrite Nat.sub_diag|]. split; [reflexivity|].
        exists (Some (S (S k))). split; [unfold h1; rewrite nth_error_app2 by (unfold k; lia); unfold k; now replace (S (List.length h) - List.length h)%nat with 1%nat by lia|].
        split; [reflexivity|]. exists n. split; [|reflexivity]. unfold h1. rewrite nth_error_app2 by (unfold k; lia). unfold k.
        now replace (S (S (List.length h)) - List.length h)%nat with 2%nat by lia. }
      assert (Lt : forall b, In b (map fst (pre ++ l2)) -> (b < k)%nat).
      { intros b I. rewrite map_app in I. apply in_app_or in I. destruct I as [I|I]; [exact (seg_lt _ _ _ _ _ H1 I)|exact (seg_lt _ _ _ _ _ H2 I)]. }
      assert (N2 : NoDup (map fst (pre ++ new ++ l2))).
      { rewrite map_app in N. cbn [map fst] in N. apply NoDup_remove_1 in N. rewrite <- map_app in N.
        apply (Permutation_NoDup (l := map fst new ++ map fst (pre ++ l2))).
        - rewrite !map_app, !app_assoc. apply Permutation_app_tail, Permutation_app_comm.
        - cbn [map fst new app]. repeat constructor; try exact N; cbn [In]; intros I;
            repeat (destruct I as [I|I]; [lia|]); apply Lt in I; lia. }
      destruct (last_cases pre) as [->|(pre' & b & y & ->)].
      * cbn [last_of rev]. exists h1, (Some k), (new ++ l2). split; [reflexivity|]. split; [exact Hs|]. split; [exact N2|reflexivity].
      * rewrite last_snoc. exists (set_next h1 b (Some k)), hd, (new ++ l2). split; [reflexivity|].
        destruct (nodup_parts _ _ N2) as (Na & _ & D). split; [|split; [exact N2|reflexivity]].
        apply seg_app. exists (Some k). split; [eapply seg_relink; [apply seg_ext, H1|exact Na]|].
        apply (seg_keep h1); [|exact Hs]. intros c I. apply set_next_other. intros <-. refine (D b _ I). rewrite map_app. apply in_or_app. right. now left.
    + specialize (IH (pre ++ [(a, x)]) n (idx + plen x) f). rewrite last_snoc in IH.
      assert (Q : seg h hd (pre ++ [(a, x)]) n).
      { apply seg_app. exists (Some a). split; [exact H1|]. split; [reflexivity|]. exists n. now split. }
      rewrite <- app_assoc in IH. cbn [app] in IH. specialize (IH Q H2 N ltac:(cbn in L; lia)).
      destruct (insert_pieces ab text at_ (idx + plen x) (map snd l2)) as [[ps buf]|]; [|exact IH].
      destruct IH as (h' & hd' & l' & E1 & S1 & N1 & M). exists h', hd', ((a, x) :: l'). split; [exact E1|].
      rewrite <- app_assoc in S1, N1. split; [exact S1|]. split; [exact N1|]. cbn [map snd]. now rewrite M.
Qed.

(* ---- Delete ---- *)
(* after the first piece: [pre] ends with it, [mid] are the pieces passed since *)
Lemma delete_seg_rest : forall n at_ stop hd b y h l2 pre mid p e fuel, seg h hd (pre ++ [(b, y)]) (match mid ++ l2 with [] => None | (a, _) :: _ => Some a end) ->
  seg h p l2 None -> seg h (match mid ++ l2 with [] => None | (a, _) :: _ => Some a end) (mid ++ l2) None ->
  NoDup (map fst ((pre ++ [(b, y)]) ++ mid ++ l2)) -> (List.length l2 < fuel)%nat ->
  exists h' l', delete_loop fuel h n at_ stop (Some b) e p = Returns h' /\ seg h' hd ((pre ++ [(b, y)]) ++ l') None /\
    NoDup (map fst ((pre ++ [(b, y)]) ++ l')) /\
    map snd l' = match delete_rest stop e (map snd l2) with Some r => r | None => map snd (mid ++ l2) end.
Proof.
  intros n at_ stop hd b y h l2. induction l2 as [|[a x] l2 IH]; intros pre mid p e fuel H1 H2 H3 N L;
    (destruct fuel as [|f]; [cbn in L; lia|]); cbn [map snd delete_rest delete_loop].
  - cbn in H2. subst p. exists h, (mid ++ []). split; [reflexivity|]. split; [|split; [exact N|reflexivity]].
    apply seg_app. eexists. split; [exact H1|exact H3].
  - destruct H2 as (-> & m & C & H2). rewrite C. cbn [c_piece c_next]. destruct (stop <=? e + plen x) eqn:E.
    + cbv zeta. set (x' := {| plen := plen x - (stop - e); poff := poff x + (stop - e); prdr := prdr x |}).
      assert (N2 : NoDup (map fst ((pre ++ [(b, y)]) ++ (a, x') :: l2))).
      { rewrite !map_app in *. cbn [map fst] in *. revert N. generalize (map fst pre ++ [b]). intros l N. clear - N.
        revert N. generalize (map fst mid). intros k. revert l. induction k as [|z k IHk]; intros l N; [exact N|].
        cbn [app] in N. apply NoDup_remove_1 in N. now apply IHk. }
      destruct (nodup_parts _ _ N2) as (Na & Nb & D). cbn [map fst] in Nb, D. inversion Nb as [|? ? Nc Nd]; subst.
      assert (Nab : b <> a). { intros <-. refine (D b _ (or_introl eq_refl)). rewrite map_app. apply in_or_app. right. now left. }
      eexists. exists ((a, x') :: l2). split; [reflexivity|]. split; [|split; [exact N2|reflexivity]].
      apply seg_app. exists (Some a). split.
      * apply (seg_keep (set_next h b (Some a))).
        -- intros c I. apply set_piece_other. intros <-. exact (D a I (or_introl eq_refl)).
        -- eapply seg_relink; [exact H1|exact Na].
      * split; [reflexivity|]. exists m. split.
        -- assert (C' : nth_error (set_next h b (Some a)) a = Some {| c_piece := x; c_next := m |}) by (now rewrite set_next_other).
           now rewrite (set_piece_same _ _ _ _ C').
        -- apply (seg_keep h); [|exact H2]. intros c I. rewrite set_piece_other by (intros <-; now apply Nc).
           apply set_next_other. intros <-. refine (D b _ (or_intror I)). rewrite map_app. apply in_or_app. right. now left.
    + specialize (IH pre (mid ++ [(a, x)]) m (e + plen x) f). rewrite <- app_assoc in IH. cbn [app] in IH.
      apply IH; try assumption. cbn in L. lia.
Qed.
Lemma delete_seg : forall n at_ stop hd h l2 pre p e fuel, seg h hd pre p -> seg h p l2 None -> NoDup (map fst (pre ++ l2)) ->
  (List.length l2 < fuel)%nat ->
  exists h' l', delete_loop fuel h n at_ stop None e p = Returns h' /\ seg h' hd (pre ++ l') None /\
    NoDup (map fst (pre ++ l')) /\ map snd l' = delete_pieces at_ n stop e (map snd l2).
Proof.
  intros n at_ stop hd h l2. induction l2 as [|[a x] l2 IH]; intros pre p e fuel H1 H2 N L;
    (destruct fuel as [|f]; [cbn in L; lia|]); cbn [map snd delete_pieces delete_loop].
  - cbn in H2. subst p. exists h, []. split; [reflexivity|]. split; [now rewrite app_nil_r|]. split; [exact N|reflexivity].
  - destruct H2 as (-> & m & C & H2). rewrite C. cbn [c_piece c_next].
    destruct (nodup_parts _ _ N) as (Na & Nb & D). cbn [map fst] in Nb, D. inversion Nb as [|? ? Nc Nd]; subst.
    destruct (at_ <=? e + plen x) eqn:E; cbv zeta.
    + set (x1 := {| plen := at_ - e; poff := poff x; prdr := prdr x |}).
      set (h1 := set_piece h a x1).
      assert (C1 : nth_error h1 a = Some {| c_piece := x1; c_next := m |}) by (unfold h1; now rewrite (set_piece_same _ _ _ _ C)).
      assert (K : forall c, c <> a -> nth_error h1 c = nth_error h c) by (intros c X; apply set_piece_other; congruence).
      assert (P1 : seg h1 hd pre (Some a)).
      { apply (seg_keep h); [|exact H1]. intros c I. apply K. intros ->. exact (D a I (or_introl eq_refl)). }
      assert (P2 : seg h1 m l2 None).
      { apply (seg_keep h); [|exact H2]. intros c I. apply K. intros ->. now apply Nc. }
      destruct (stop <=? e + plen x) eqn:E2.
      * set (x2 := {| plen := e + plen x - stop; poff := poff x + (at_ - e + n); prdr := prdr x |}).
        set (k := List.length h1). eexists. exists ((a, x1) :: (k, x2) :: l2). split; [reflexivity|].
        assert (Lt : forall c, In c (map fst (pre ++ (a, x) :: l2)) -> (c < k)%nat).
        { intros c I. unfold k, h1. rewrite set_piece_length. rewrite map_app in I. apply in_app_or in I. destruct I as [I|[<-|I]].
          - exact (seg_lt _ _ _ _ _ H1 I).
          - eapply nth_lt, C.
          - exact (seg_lt _ _ _ _ _ H2 I). }
        split; [|split; [|reflexivity]].
        -- replace (pre ++ (a, x1) :: (k, x2) :: l2) with ((pre ++ [(a, x1)]) ++ (k, x2) :: l2) by (now rewrite <- app_assoc).
           apply seg_app. exists (Some k). split.
           ++ eapply seg_relink.
              ** apply seg_ext. apply seg_app. exists (Some a). split; [exact P1|]. split; [reflexivity|]. exists m. now split.
              ** rewrite map_app in *. cbn [map fst] in *. apply (Permutation_NoDup (l := a :: map fst pre)); [apply Permutation_cons_append|].
                 constructor; [|exact Na]. intros I. exact (D a I (or_introl eq_refl)).
           ++ split; [reflexivity|]. exists m. assert (a < k)%nat by (apply Lt; rewrite map_app; apply in_or_app; right; now left). split.
              ** rewrite set_next_other by lia. rewrite nth_error_app2 by (unfold k; lia). unfold k. now rewrite Nat.sub_diag.
              ** apply (seg_keep (h1 ++ [{| c_piece := x2; c_next := m |}])); [|now apply seg_ext].
                 intros c I. apply set_next_other. intros <-. now apply Nc.
        -- rewrite map_app in *. cbn [map fst] in *. apply (Permutation_NoDup (l := k :: map fst pre ++ a :: map fst l2)).
           ++ replace (map fst pre ++ a :: k :: map fst l2) with ((map fst pre ++ [a]) ++ k :: map fst l2) by (now rewrite <- app_assoc).
              replace (map fst pre ++ a :: map fst l2) with ((map fst pre ++ [a]) ++ map fst l2) by (now rewrite <- app_assoc).
              apply Permutation_middle.
           ++ constructor; [|exact N]. intros I. apply Lt in I. lia.
      * destruct (delete_seg_rest n at_ stop hd a x1 h1 l2 pre [] m (e + plen x) f) as (h' & l' & E3 & S3 & N3 & M3); cbn [app].
        -- apply seg_app. exists (Some a). split; [exact P1|]. split; [reflexivity|]. exists m. split; [exact C1|].
           destruct l2 as [|[b z] l2]; [exact P2|]. destruct P2 as (-> & _). reflexivity.
        -- exact P2.
        -- destruct l2 as [|[b z] l2]; [reflexivity|]. destruct P2 as (-> & P2). split; [reflexivity|exact P2].
        -- rewrite <- app_assoc. rewrite !map_app in *. exact N.
        -- cbn in L. lia.
        -- exists h', ((a, x1) :: l'). split; [exact E3|]. rewrite <- app_assoc in S3, N3. split; [exact S3|]. split; [exact N3|].
           cbn [map snd]. rewrite M3. cbn [app]. destruct (delete_rest stop (e + plen x) (map snd l2)); reflexivity.
    + destruct (IH (pre ++ [(a, x)]) m (e + plen x) f) as (h' & l' & E3 & S3 & N3 & M3); [| exact H2 | | |].
      * apply seg_app. exists (Some a). split; [exact H1|]. split; [reflexivity|]. exists m. now split.
      * rewrite <- app_assoc. exact N.
      * cbn in L. lia.
      * exists h', ((a, x) :: l'). rewrite <- app_assoc in S3, N3. split; [exact E3|]. split; [exact S3|]. split; [exact N3|].
        cbn [map snd]. now rewrite M3.
Qed.

(* ---- tables ---- *)
Lemma string_shows : forall t pt, shows t pt -> t_string t = match pt_string pt with Ok s => Returns s | _ => Dies end.
Proof.
  intros t pt (Ea & Eb & Ec & Ed & l & H & N & M). unfold t_string. rewrite (walk_seg _ l); [|exact H|pose proof (seg_size _ _ _ _ H N); lia].
  rewrite Ea, Eb, Ec, Ed, M. destruct pt; reflexivity.
Qed.
Lemma insert_shows : forall t pt text at_, shows t pt ->
  match pt_insert pt text at_ with
  | (pt', Returned) => exists t', t_insert t text at_ = Returns t' /\ shows t' pt'
  | (_, Panics) => t_insert t text at_ = Dies
  end.
Proof.
  intros t pt text at_ (Ea & Eb & Ec & Ed & l & H & N & M). unfold pt_insert, t_insert. rewrite <- M. destruct l as [|[a x] l].
  - cbn in H. rewrite H. cbn [map]. eexists. split; [reflexivity|]. repeat split; cbn; try assumption.
    eexists [(_, _)]. split; [|split; [repeat constructor; intros []|reflexivity]]. cbn. split; [reflexivity|]. exists None.
    split; [|reflexivity]. rewrite nth_error_app2, Nat.sub_diag by lia. reflexivity.
  - cbn [map]. assert (Hd : t_head t = Some a) by apply H. rewrite Hd. rewrite Hd in H.
    pose proof (insert_seg (t_append t) text at_ (Some a) (t_heap t) ((a, x) :: l) [] (Some a) 0 (S (List.length (t_heap t))) eq_refl H N) as Q.
    pose proof (seg_size _ _ _ _ H N) as Sz. specialize (Q ltac:(lia)). cbn [map last_of rev app] in Q. change (snd (a, x)) with x in *. rewrite Ed in *.
    destruct (insert_pieces (appendb pt) text at_ 0 (x :: map snd l)) as [[ps buf]|].
    + destruct Q as (h' & hd' & l' & E & S1 & N1 & M1). rewrite E. eexists. split; [reflexivity|]. repeat split; cbn; try assumption.
      now exists l'.
    + now rewrite Q.
Qed.
Lemma delete_shows : forall t pt n at_, shows t pt -> exists t', t_delete t n at_ = Returns t' /\ shows t' (pt_delete pt n at_).
Proof.
  intros t pt n at_ (Ea & Eb & Ec & Ed & l & H & N & M). unfold pt_delete, t_delete.
  destruct (delete_seg n at_ (wrap64 (at_ + n)) (t_head t) (t_heap t) l [] (t_head t) 0 (S (List.length (t_heap t))) eq_refl H N) as (h' & l' & E & S1 & N1 & M1).
  - pose proof (seg_size _ _ _ _ H N). lia.
  - rewrite E. eexists. split; [reflexivity|]. repeat split; cbn; try assumption. exists l'. rewrite <- M. now repeat split.
Qed.
Lemma new_shows : forall content cc n, shows (new_table content cc n) (new_piece_table content cc n).
Proof.
  intros content cc n. repeat split. eexists [(0%nat, _)]. split; [|split; [repeat constructor; intros []|reflexivity]].
  cbn. split; [reflexivity|]. exists None. now split.
Qed.
Lemma run_shows : forall es t pt, shows t pt ->
  match run_edits pt es with
  | (pt', Returned) => exists t', edit_all t es = Returns t' /\ shows t' pt'
  | (_, Panics) => edit_all t es = Dies
  end.
Proof.
  induction es as [|[text a|n a] es IH]; intros t pt H; cbn [run_edits edit_all].
  - exists t. now split.
  - pose proof (insert_shows t pt text a H) as Q. destruct (pt_insert pt text a) as [pt' []].
    + destruct Q as (t' & E & S1). rewrite E. now apply IH.
    + now rewrite Q.
  - destruct (delete_shows t pt n a H) as (t' & E & S1). rewrite E. now apply IH.
Qed.

(* ---- clean ---- *)
(* what is left of the cells: the pieces without text at the front are dropped, of later ones every second in a row *)
Fixpoint drop_front (l : list (nat * piece)) : list (nat * piece) :=
  match l with (a, x) :: r => if plen x <=? 0 then drop_front r else l | [] => [] end.
Fixpoint skip_some (linked : bool) (l : list (nat * piece)) : list (nat * piece) :=
  match l with
  | [] => []
  | (a, x) :: r => if (plen x <=? 0) && linked then skip_some false r else (a, x) :: skip_some true r
  end.
Lemma clean_head_seg : forall h l p fuel, seg h p l None -> (List.length l < fuel)%nat ->
  exists hd, clean_head fuel h p = Returns hd /\ seg h hd (drop_front l) None.
Proof.
  intros h l. induction l as [|[a x] l IH]; intros p fuel H L; (destruct fuel as [|f]; [cbn in L; lia|]); cbn [clean_head drop_front].
  - cbn in H. subst p. exists None. now split.
  - pose proof H as H0. destruct H as (-> & n & C & H). rewrite C. cbn [c_piece c_next]. destruct (plen x <=? 0).
    + apply IH; [exact H|]. cbn in L. lia.
    + exists (Some a). now split.
Qed.
Lemma drop_front_incl : forall l, exists l0, l = l0 ++ drop_front l.
Proof.
  induction l as [|[a x] l [l0 E]]; [now exists []|]. cbn [drop_front]. destruct (plen x <=? 0); [|now exists []].
  exists ((a, x) :: l0). cbn [app]. now rewrite <- E.
Qed.
Lemma clean_loop_seg : forall hd l2 h pre p b linked fuel, seg h hd pre p -> seg h p l2 None -> NoDup (map fst (pre ++ l2)) ->
  (if linked : bool then last_of pre = Some b else ~ In b (map fst (pre ++ l2))) -> (List.length l2 < fuel)%nat ->
  exists h', clean_loop fuel h (Some b) p = Returns h' /\ seg h' hd (pre ++ skip_some linked l2) None /\
    NoDup (map fst (pre ++ skip_some linked l2)).
Proof.
  intros hd l2. induction l2 as [|[a x] l2 IH]; intros h pre p b linked fuel H1 H2 N Hb L;
    (destruct fuel as [|f]; [cbn in L; lia|]); cbn [clean_loop skip_some].
  - cbn in H2. subst p. exists h. rewrite app_nil_r in *. now repeat split.
  - destruct H2 as (-> & m & C & H2). rewrite C. cbn [c_piece c_next].
    destruct (nodup_parts _ _ N) as (Na & Nb & D). cbn [map fst] in Nb, D. inversion Nb as [|? ? Nc Nd]; subst.
    assert (N1 : NoDup (map fst ((pre ++ [(a, x)]) ++ l2))) by (rewrite <- app_assoc; exact N).
    destruct (plen x <=? 0) eqn:E; cbn [andb]; [destruct linked|].
    + destruct (last_cases pre) as [->|(pre' & c & y & ->)]; [discriminate Hb|]. rewrite last_snoc in Hb. injection Hb as ->.
      destruct (IH (set_next h b m) (pre' ++ [(b, y)]) m a false f) as (h' & R & S1 & N2).
      * eapply seg_relink; eassumption.
      * apply (seg_keep h); [|exact H2]. intros c I. apply set_next_other. intros <-. refine (D b _ (or_intror I)).
        rewrite map_app. apply in_or_app. right. now left.
      * rewrite map_app in N |- *. cbn [map fst] in N. now apply NoDup_remove_1 in N.
      * rewrite map_app in N |- *. cbn [map fst] in N. now apply NoDup_remove_2 in N.
      * cbn in L. lia.
      * now exists h'.
    + assert (K : forall c, In c (map fst (pre ++ (a, x) :: l2)) -> nth_error (set_next h b m) c = nth_error h c).
      { intros c I. apply set_next_other. intros <-. now apply Hb. }
      destruct (IH (set_next h b m) (pre ++ [(a, x)]) m a true f) as (h' & R & S1 & N2).
      * apply seg_app. exists (Some a). split.
        -- apply (seg_keep h); [|exact H1]. intros c I. apply K. rewrite map_app. apply in_or_app. now left.
        -- split; [reflexivity|]. exists m. split; [|reflexivity]. rewrite K; [exact C|]. rewrite map_app. apply in_or_app. right. now left.
      * apply (seg_keep h); [|exact H2]. intros c I. apply K. rewrite map_app. apply in_or_app. right. now right.
      * exact N1.
      * apply last_snoc.
      * cbn in L. lia.
      * exists h'. rewrite <- app_assoc in S1, N2. now repeat split.
    + destruct (IH h (pre ++ [(a, x)]) m a true f) as (h' & R & S1 & N2).
      * apply seg_app. exists (Some a). split; [exact H1|]. split; [reflexivity|]. exists m. now split.
      * exact H2.
      * exact N1.
      * apply last_snoc.
      * cbn in L. lia.
      * exists h'. rewrite <- app_assoc in S1, N2. now repeat split.
Qed.
Definition cleaned (l : list (nat * piece)) : list (nat * piece) := skip_some true (drop_front l).
Lemma clean_seg : forall t l, seg (t_heap t) (t_head t) l None -> NoDup (map fst l) ->
  exists t', t_clean t = Returns t' /\ t_orig t' = t_orig t /\ t_closable t' = t_closable t /\ t_closed t' = t_closed t /\
    t_append t' = t_append t /\ seg (t_heap t') (t_head t') (cleaned l) None /\ NoDup (map fst (cleaned l)).
Proof.
  intros t l H N. unfold t_clean, cleaned. pose proof (seg_size _ _ _ _ H N) as Sz.
  destruct (clean_head_seg _ _ _ (S (List.length (t_heap t))) H ltac:(lia)) as (hd & -> & H1).
  destruct (drop_front_incl l) as (l0 & E). rewrite E in N. destruct (nodup_parts _ _ N) as (_ & N1 & _).
  assert (Q : exists h, clean_loop (S (List.length (t_heap t))) (t_heap t) None hd = Returns h /\
    seg h hd (skip_some true (drop_front l)) None /\ NoDup (map fst (skip_some true (drop_front l)))).
  { assert (F : match drop_front l with (_, x) :: _ => (plen x <=? 0) = false | [] => True end).
    { clear. induction l as [|[a x] l IH]; [exact I|]. cbn [drop_front]. destruct (plen x <=? 0) eqn:E; [exact IH|exact E]. }
    destruct (drop_front l) as [|[a x] r].
    - cbn in H1. subst hd. exists (t_heap t). split; [reflexivity|]. split; [reflexivity|constructor].
    - pose proof (seg_size _ _ _ _ H1 N1) as Sz1. destruct H1 as (-> & m & C & H1). cbn [clean_loop skip_some]. rewrite C. cbn [c_piece c_next]. rewrite F. cbn [andb].
      destruct (clean_loop_seg (Some a) r (t_heap t) [(a, x)] m a true (List.length (t_heap t))) as (h' & R & S1 & N2).
      + cbn. split; [reflexivity|]. exists m. now split.
      + exact H1.
      + exact N1.
      + reflexivity.
      + cbn in Sz1. lia.
      + now exists h'. }
  destruct Q as (h & -> & S1 & N2). eexists. split; [reflexivity|]. now repeat split.
Qed.

Lemma drop_front_text : forall l, filter holds_text (map snd (drop_front l)) = filter holds_text (map snd l).
Proof.
  induction l as [|[a x] l IH]; [reflexivity|]. cbn [drop_front]. destruct (plen x <=? 0) eqn:E; [|reflexivity].
  cbn [map snd filter]. unfold holds_text at 2. rewrite Z.ltb_antisym, E. exact IH.
Qed.
Lemma holds_neg : forall x, holds_text x = negb (plen x <=? 0).
Proof. intros x. apply Z.ltb_antisym. Qed.
Lemma skip_some_text : forall l b, filter holds_text (map snd (skip_some b l)) = filter holds_text (map snd l).
Proof.
  induction l as [|[a x] l IH]; intros b; [reflexivity|]. cbn [skip_some]. destruct (plen x <=? 0) eqn:E; cbn [andb]; [destruct b|];
    cbn [map snd filter]; rewrite ?(holds_neg x), E; cbn [negb]; now rewrite IH.
Qed.
Lemma cleaned_text : forall l, filter holds_text (map snd (cleaned l)) = filter holds_text (map snd l).
Proof. intros l. unfold cleaned. now rewrite skip_some_text, drop_front_text. Qed.
Lemma skip_some_incl : forall l b x, In x (skip_some b l) -> In x l.
Proof.
  induction l as [|[a y] l IH]; intros b x; cbn [skip_some]; [intros []|]. destruct ((plen y <=? 0) && b).
  - intros I. right. eapply IH, I.
  - intros [<-|I]; [now left|]. right. eapply IH, I.
Qed.
Lemma cleaned_incl : forall l x, In x (map snd (cleaned l)) -> In x (map snd l).
Proof.
  intros l x I. apply in_map_iff in I. destruct I as (y & <- & I). apply skip_some_incl in I. apply in_map.
  destruct (drop_front_incl l) as (l0 & ->). apply in_or_app. now right.
Qed.
(* the text does not depend on the pieces without text *)
Lemma denote_text : forall pt ps, Forall (pok pt) ps -> denote pt (filter holds_text ps) = denote pt ps.
Proof.
  intros pt ps F. induction F as [|p ps Hp F IH]; [reflexivity|]. cbn [filter]. unfold holds_text at 1. destruct (0 <? plen p) eqn:E.
  - cbn [denote flat_map] in *. unfold denote in *. cbn [flat_map]. now rewrite IH.
  - unfold denote in *. cbn [flat_map]. rewrite IH. pose proof (pbytes_len pt p Hp) as Lp. unfold len in Lp.
    destruct (pbytes pt p); [reflexivity|]. cbn [List.length] in Lp. apply Z.ltb_ge in E. lia.
Qed.
Lemma skip_some_clean : forall l b, none_adjacent (map snd l) -> (b = false -> match l with (_, x) :: _ => holds_text x = true | [] => True end) ->
  Forall (fun p => holds_text p = true) (map snd (skip_some b l)).
Proof.
  induction l as [|[a x] l IH]; intros b A H; [constructor|]. cbn [skip_some].
  assert (A' : none_adjacent (map snd l)) by (destruct l as [|[c y] l]; [exact I|exact (proj2 A)]).
  destruct (plen x <=? 0) eqn:E; cbn [andb]; [destruct b|].
  - apply IH; [exact A'|]. intros _. destruct l as [|[c y] l]; [exact I|]. cbn in A. destruct A as ([A|A] & _); [|exact A].
    unfold holds_text in A. rewrite Z.ltb_antisym, E in A. discriminate A.
  - specialize (H eq_refl). cbn in H. unfold holds_text in H. rewrite Z.ltb_antisym, E in H. discriminate H.
  - constructor; [cbn; unfold holds_text; now rewrite Z.ltb_antisym, E|]. apply IH; [exact A'|discriminate].
Qed.
Lemma cleaned_all : forall l, none_adjacent (map snd l) -> Forall (fun p => holds_text p = true) (map snd (cleaned l)).
Proof.
  intros l A. unfold cleaned. apply skip_some_clean; [|discriminate]. induction l as [|[a x] l IH]; [exact I|]. cbn [drop_front].
  destruct (plen x <=? 0); [|exact A]. apply IH. destruct l as [|[c y] l]; [exact I|exact (proj2 A)].
Qed.

(* ---- append ---- *)
Lemma append_seg : forall l h p x tmp, nth_error h p = Some x -> NoDup (p :: map fst l) ->
  (forall a y, In (a, y) l -> exists n, nth_error h a = Some {| c_piece := y; c_next := n |}) ->
  seg (append_loop h p (map fst l) tmp) (Some p) ((p, c_piece x) :: l) tmp /\
  forall a, ~ In a (p :: map fst l) -> nth_error (append_loop h p (map fst l) tmp) a = nth_error h a.
Proof.
  induction l as [|[a y] l IH]; intros h p x tmp C N Hl; cbn [map fst append_loop].
  - split.
    + split; [reflexivity|]. exists tmp. split; [|reflexivity]. exact (set_next_same _ _ _ _ C).
    + intros b Nb. apply set_next_other. intros ->. apply Nb. now left.
  - cbn [map fst] in N. inversion N as [|? ? Np N1]; subst.
    assert (K : forall b, b <> p -> nth_error (set_next h p (Some a)) b = nth_error h b) by (intros b X; apply set_next_other; congruence).
    destruct (Hl a y (or_introl eq_refl)) as (n & Ca).
    assert (Nap : a <> p) by (intros ->; apply Np; now left).
    destruct (IH (set_next h p (Some a)) a {| c_piece := y; c_next := n |} tmp) as (S1 & S2).
    + now rewrite K.
    + exact N1.
    + intros b z I. destruct (Hl b z (or_intror I)) as (k & Cb). exists k. rewrite K; [exact Cb|]. intros ->. apply Np. right.
      apply (in_map fst) in I. exact I.
    + split.
      * split; [reflexivity|]. exists (Some a). split; [|exact S1]. rewrite S2 by exact Np. exact (set_next_same _ _ _ _ C).
      * intros b Nb. rewrite S2 by (intros I; apply Nb; now right). apply K. intros ->. apply Nb. now left.
Qed.
Lemma append_between : forall h hd pre p x post l, seg h hd (pre ++ (p, x) :: post) None -> NoDup (map fst (pre ++ (p, x) :: post ++ l)) ->
  (forall a y, In (a, y) l -> exists n, nth_error h a = Some {| c_piece := y; c_next := n |}) ->
  seg (p_append h p (map fst l)) hd (pre ++ (p, x) :: l ++ post) None.
Proof.
  intros h hd pre p x post l H N Hl. apply seg_app in H. destruct H as (m & H1 & (-> & q & C & H2)). unfold p_append. rewrite C. cbn [c_next].
  destruct (nodup_parts _ _ N) as (_ & Nb & D). cbn [map fst] in Nb, D. inversion Nb as [|? ? Nc Nd]; subst.
  rewrite map_app in Nc. destruct (nodup_parts _ _ Nd) as (_ & Nl & D2).
  destruct (append_seg l h p _ q C) as (S1 & S2).
  - constructor; [|exact Nl]. intros I. apply Nc, in_or_app. now right.
  - exact Hl.
  - cbn [c_piece] in S1. apply seg_app. exists (Some p). split.
    + apply (seg_keep h); [|exact H1]. intros a I. apply S2. intros J. apply (D a I). destruct J as [J|J]; [now left|].
      right. rewrite map_app. apply in_or_app. now right.
    + change ((p, x) :: l ++ post) with (((p, x) :: l) ++ post). apply seg_app. exists q. split; [exact S1|].
      apply (seg_keep h); [|exact H2]. intros a I. apply S2. intros [<-|J]; [apply Nc, in_or_app; now left|exact (D2 a I J)].
Qed.

(* ---- editing after clean: the list of pieces may have become empty ---- *)
Definition inv0 (pt : piece_table) (s : bytes) : Prop :=
  inv pt s \/ (closed pt = false /\ (exists buf, appendb pt = Some buf) /\ head pt = [] /\ s = []).
Lemma inv0_string : forall pt s, inv0 pt s -> pt_string pt = Ok s.
Proof.
  intros pt s [H|(H1 & H2 & H3 & ->)]; [now apply inv_string|]. unfold pt_string. rewrite H3. reflexivity.
Qed.
Lemma run_inv0 : forall es pt s, inv0 pt s -> len s <= max_int64 -> edits_in_range s es ->
  exists pt', run_edits pt es = (pt', Returned) /\ inv0 pt' (apply_edits s es).
Proof.
  induction es as [|e es IH]; intros pt s H L R; [exists pt; now split|].
  destruct H as [H|(H1 & H2 & H3 & ->)].
  { destruct (run_edits_inv (e :: es) pt s H L R) as (pt' & E & I). exists pt'. split; [exact E|now left]. }
  destruct R as [R1 R2]. destruct e as [t a|n a]; cbn [run_edits apply_edits apply_edit edit_in_range] in *.
  - unfold pt_insert. rewrite H3. apply IH; [left| |exact R2].
    + assert (a = 0) by (unfold len in R1; cbn in R1; lia). subst a. unfold splice. cbn [firstn skipn app Z.to_nat]. rewrite app_nil_r.
      unfold inv. cbn [closed appendb head]. split; [exact H1|]. split; [exact H2|]. split; [discriminate|]. split.
      * constructor; [|constructor]. unfold pok. cbn. unfold len. lia.
      * unfold denote, pbytes. cbn [flat_map rdr_content prdr poff plen]. rewrite app_nil_r. apply sub_all.
    + rewrite splice_len by lia. lia.
  - apply IH; [right|rewrite cut_out_len by lia; lia|exact R2]. unfold pt_delete. cbn [closed appendb head]. rewrite H3.
    unfold cut_out. rewrite firstn_nil, skipn_nil. now repeat split.
Qed.
Lemma clean_inv0 : forall pt s l, inv0 pt s -> map snd l = head pt ->
  inv0 {| orig := orig pt; closable := closable pt; closed := closed pt; appendb := appendb pt; head := map snd (cleaned l) |} s.
Proof.
  intros pt s l [(H1 & H2 & H3 & H4 & H5)|(H1 & H2 & H3 & ->)] M.
  - set (pt' := {| orig := orig pt; closable := _; closed := _; appendb := _; head := _ |}).
    assert (P : Forall (pok pt) (map snd (cleaned l))).
    { apply Forall_forall. intros x I. apply cleaned_incl in I. rewrite M in I. now apply (proj1 (Forall_forall _ _) H4). }
    assert (D : denote pt (map snd (cleaned l)) = s).
    { rewrite <- (denote_text pt _ P), cleaned_text, M, (denote_text pt _ H4). exact H5. }
    destruct (map snd (cleaned l)) as [|x r] eqn:E.
    + right. unfold pt'. cbn [closed appendb head]. split; [exact H1|]. split; [exact H2|]. split; [reflexivity|]. now rewrite <- D.
    + left. unfold inv. unfold pt' at 1 2 3. cbn [closed appendb head]. split; [exact H1|]. split; [exact H2|]. split; [discriminate|]. split.
      * apply (pok_ext pt); [reflexivity|exact P].
      * rewrite <- (denote_ext pt pt') by reflexivity. exact D.
  - right. rewrite H3 in M. apply map_eq_nil in M. subst l. now repeat split.
Qed.
