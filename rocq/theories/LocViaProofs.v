(* The correct-prefix property of the generated parser: while it has not failed, what it has read can be completed. *)
From Verif Require Import GoBase GoFacts LocGramSpec LocYaccModel LocYaccCert LocYaccProofs LocYaccGram LocYaccSound LocYaccComplete
  LocParseSpec LocYaccFinal LocHang LocViaCert LocViaSpec.
Local Open Scope Z_scope.

(* ---- the certificate: which token to feed next in state s lying on state p, and how many rounds are left ---- *)

Definition comp (s p : Z) : Z * nat :=
  match find (fun x => fst (fst x) =? p) (nth (Z.to_nat s) comp_tab []) with
  | Some (_, t, r) => (t, r)
  | None => (0, 0%nat)
  end.
Definition feed (s p : Z) : Z := fst (comp s p).
Definition left_ (s p : Z) : nat := snd (comp s p).

(* every state lying k places below q passes the test *)
Fixpoint downs (q : Z) (k : nat) (fin : Z -> bool) : bool :=
  match k with
  | O => fin q
  | S k' => forallb (fun x => downs x k' fin) (preds q)
  end.

Definition check_pair (s p : Z) : bool :=
  let a := feed s p in
  (1 <=? a) && (a <=? 98) &&
  match act_of s a with
  | AShift s' => (4 <=? a) && Nat.ltb (left_ s' s) (left_ s p)
  | AReduce n =>
      match prod_of gram n with
      | Some (A, r) =>
          let fin x := match goto_ x A with
                       | Some g => (feed g x =? a) && Nat.ltb (left_ g x) (left_ s p)
                       | None => false
                       end in
          match r with
          | [] => fin s
          | _ :: r' => downs p (length r') fin
          end
      | None => false
      end
  | AAccept => a =? 1
  | _ => false
  end.

Definition under (s : Z) : list Z := if s =? 0 then [-1] else preds s.

Lemma pairs_valid : forallb (fun s => forallb (check_pair s) (under s)) states = true.
Proof. vm_compute. reflexivity. Qed.

Definition numbered : list (Z * list Z * Z) :=
  map (fun n => match prod_of gram n with Some (A, r) => (- A, r, n) | None => (-1, [], 0) end) (map Z.of_nat (seq 1 (length gram))).
Lemma gram_actions : forallb check_action numbered = true.
Proof. vm_compute. reflexivity. Qed.

Lemma prod_action : forall n A r, prod_of gram n = Some (A, r) -> check_action (- A, r, n) = true.
Proof.
  intros n A r H. apply (proj1 (forallb_forall _ _) gram_actions). unfold numbered.
  apply in_map_iff. exists n. split; [now rewrite H|]. unfold prod_of in H. destruct (n <=? 0) eqn:N; [discriminate|].
  apply Z.leb_gt in N. assert (L : (Z.to_nat (n - 1) < length gram)%nat) by (apply nth_error_Some; congruence).
  apply in_map_iff. exists (Z.to_nat n). split; [lia|]. apply in_seq. lia.
Qed.

(* ---- the values on the stack never stop an action ---- *)

Lemma means_vok :
  (forall X w v d d', meansZ X w v d d' -> num_ok w -> vok X v) /\
  (forall r w es d d', meansZs r w es d d' -> num_ok w -> Forall2 vok r (map val es)).
Proof.
  apply meansZ_both.
  - intros t v d H N. split; intros E; [|lia]. subst t. apply N. now left.
  - intros n A r w es d d1 v0 v d2 P _ IH V A1 N. specialize (IH N).
    destruct (action_checked _ _ _ es v0 d1 (prod_action _ _ _ P) IH V) as (v' & d' & E & K). rewrite A1 in E. injection E as <- _. exact K.
  - intros d _. constructor.
  - intros X r u w e es d d1 d2 _ IH1 _ _ IH2 N. apply num_ok_app in N. destruct N as [N1 N2]. cbn [map]. constructor; auto.
Qed.

Lemma reduce_step : forall d0 ts c n A r, inv d0 ts c -> num_ok ts -> act_of (state c) (peek c) = AReduce n ->
  prod_of gram n = Some (A, r) ->
  exists c' popped e' stk' g v, step true c = Continue c' /\ full c = popped ++ e' :: stk' /\ length popped = length r /\
    goto_ (yys e') A = Some g /\ In (yys e') (preds g) /\ In g states /\
    full c' = {| yys := g; val := v |} :: e' :: stk' /\ pend c' = pend c.
Proof.
  intros d0 ts c n A r (G & w & HS & HT) N ACT PR.
  destruct check_parts as (CS & CP & CR).
  pose proof (step_spec c G) as SP.
  destruct (peek_range c G) as [PT _].
  unfold full in HS.
  destruct (stk_state _ _ _ _ _ HS) as [S1 S2]. cbn [yys] in S1, S2.
  pose proof (CS _ S1) as K. unfold check_state in K. rewrite S2 in K. cbn [negb orb] in K.
  rewrite forallb_forall in K. specialize (K _ PT).
  rewrite ACT in SP, K. destruct SP as (c1 & ST & B1 & B2 & B3 & B4 & G1).
  unfold check_reduce in K. rewrite PR in K.
  destruct (at_ yyR1 n) as [A'|] eqn:R1; [|discriminate].
  destruct (at_ yyR2 n) as [k|] eqn:R2; [|discriminate].
  apply andb_prop in K. destruct K as [K K3]. apply andb_prop in K. destruct K as [K1 K2].
  apply Z.eqb_eq in K1, K2. subst A' k.
  destruct (pop_spec d0 (rev r) _ {| yys := state c; val := yyval c |} _ w (defs c) HS K3 [] [] [] (defs c) (mzs_nil _))
    as (popped & e' & stk' & w1 & w2 & d1 & E1 & E2 & E3 & E4 & E5 & E6).
  rewrite rev_involutive, !app_nil_r in E6. rewrite rev_length in E2.
  destruct (goto_ (yys e') A) as [g|] eqn:GT; [|discriminate].
  apply andb_prop in E5. destruct E5 as [E5 K8]. apply andb_prop in E5. destruct E5 as [E5 K7].
  apply andb_prop in E5. destruct E5 as [K5 K6]. apply mem_In in K5, K7.
  set (v0 := match rev popped ++ above c1 with e :: _ => val e | [] => [] end).
  assert (N2 : num_ok w2) by (rewrite <- HT, E4 in N; apply num_ok_app in N; destruct N as [N _]; apply num_ok_app in N; tauto).
  destruct (action_checked _ _ _ (rev popped) v0 (defs c1) (prod_action _ _ _ PR)) as (v & d2 & AC & _).
  { exact (proj2 means_vok _ _ _ _ _ E6 N2). }
  { intros e es' E. unfold v0. now rewrite E. }
  rewrite rev_involutive in AC.
  exists {| state := g; yyval := v; below := e' :: stk'; above := rev popped ++ above c1; look := look c1; lval := lval c1;
            input := input c1; defs := d2 |}, popped, e', stk', g, v.
  split.
  { rewrite ST. unfold reduce. rewrite R1, R2.
    assert (KN : (Z.of_nat (length r) <? 0) = false) by (apply Z.ltb_ge; lia).
    rewrite KN, Nat2Z.id, B1. unfold full. rewrite E1, <- E2.
    rewrite firstn_app, Nat.sub_diag, firstn_all, skipn_app, Nat.sub_diag, skipn_all. cbn [firstn skipn app].
    rewrite app_nil_r, GT. fold v0. now rewrite AC. }
  split; [exact E1|]. split; [exact E2|]. split; [exact GT|]. split; [exact K5|]. split; [exact K7|].
  split; [reflexivity|]. unfold pend at 1. cbn [look lval input]. unfold pend in B3 at 1. exact B3.
Qed.

(* ---- states on the stack ---- *)

Inductive path : list Z -> Prop :=
| path_0 : path [0]
| path_s : forall s p l, path (p :: l) -> In p (preds s) -> In s states -> path (s :: p :: l).

Lemma stk_path : forall d0 stk w d, stk_ok d0 stk w d -> path (map yys stk).
Proof. intros d0 stk w d H. induction H; cbn [map]; [constructor|now constructor]. Qed.

Lemma path_state : forall s l, path (s :: l) -> In s states /\ reachable s = true.
Proof.
  intros s l H. inversion H; subst.
  - split; [left; reflexivity|reflexivity].
  - split; [assumption|]. unfold reachable. apply orb_true_iff. right. destruct (preds s); [contradiction|reflexivity].
Qed.

Lemma path_tl : forall s p l, path (s :: p :: l) -> path (p :: l) /\ In p (preds s).
Proof. intros s p l H. inversion H; subst. now split. Qed.

Definition second (l : list Z) : Z := match l with p :: _ => p | [] => -1 end.

Lemma path_under : forall s l, path (s :: l) -> In (second l) (under s).
Proof.
  intros s l H. inversion H as [|? p l' H1 H2 H3]; subst; [now left|]. unfold under. cbn [second].
  destruct (s =? 0) eqn:E; [|exact H2]. apply Z.eqb_eq in E. subst s. rewrite preds_0 in H2. contradiction.
Qed.

Lemma downs_path : forall k fin q l popped x rest, path (q :: l) -> downs q k fin = true -> q :: l = popped ++ x :: rest ->
  length popped = k -> fin x = true.
Proof.
  induction k as [|k IH]; intros fin q l popped x rest P D E L; cbn [downs] in D.
  - destruct popped; [|discriminate]. now injection E as -> _.
  - destruct popped as [|y popped]; [discriminate|]. cbn [app] in E. injection E as <- E. cbn [length] in L. injection L as L.
    destruct l as [|p l]; [destruct popped; discriminate|]. destruct (path_tl _ _ _ P) as [P1 P2]. rewrite forallb_forall in D.
    exact (IH fin p l popped x rest P1 (D p P2) E L).
Qed.

Lemma walk_path : forall rr fin s l, path (s :: l) -> walk s rr fin = true ->
  exists popped x rest, s :: l = popped ++ x :: rest /\ length popped = length rr /\ path (x :: rest) /\ fin x = true.
Proof.
  induction rr as [|y rr IH]; intros fin s l P W; cbn [walk] in W.
  - exists [], s, l. now repeat split.
  - apply andb_prop in W. destruct W as [W1 W2]. apply andb_prop in W1. destruct W1 as [W0 _]. rewrite forallb_forall in W2.
    inversion P as [|? p l' P1 P2 P3]; subst; [discriminate W0|].
    destruct (IH fin p l' P1 (W2 _ P2)) as (popped & x & rest & E1 & E2 & E3 & E4).
    exists (s :: popped), x, rest. cbn [app length]. rewrite E1, E2. now repeat split.
Qed.

Lemma app_same : forall (T : Type) (u u' : list T) v v', u ++ v = u' ++ v' -> length u = length u' -> u = u' /\ v = v'.
Proof.
  intros T. induction u as [|x u IH]; intros [|y u'] v v' E L; try discriminate; [now split|].
  cbn [app length] in *. injection E as <- E. injection L as L. destruct (IH _ _ _ E L) as [-> ->]. now split.
Qed.

(* ---- the tokens to feed ---- *)

Definition plain (t : token) : Prop := exists x, t = {| t_type := token_number x; t_value := B "1" |}.

Lemma plain_coded : forall t, plain t -> is_ws t = false /\ 0 < t_type t.
Proof. intros t (x & ->). destruct x; split; reflexivity. Qed.

Lemma plain_visible : forall l, Forall plain l -> visible l = l.
Proof.
  intros l H. induction H as [|t l H1 _ IH]; [reflexivity|]. unfold visible in *. cbn [filter].
  rewrite (proj1 (plain_coded t H1)). cbn [negb]. now rewrite IH.
Qed.

Lemma finish : forall k sts, path sts -> (left_ (hd 0%Z sts) (second (tl sts)) < k)%nat ->
  exists ts, Forall plain ts /\ hd1 (map coded ts) = feed (hd 0 sts) (second (tl sts)) /\
    forall d0 all c, inv d0 all c -> num_ok all -> map yys (full c) = sts -> pend c = map coded ts ->
    exists c' d, steps c c' /\ step true c' = Stop (Returns 0) d.
Proof.
  induction k as [|k IH]; intros sts P R; [lia|].
  destruct sts as [|s l]; [inversion P|]. cbn [hd tl] in *.
  pose proof (path_state _ _ P) as [PS PR]. pose proof (path_under _ _ P) as PU.
  pose proof (proj1 (forallb_forall _ _) pairs_valid s PS) as V. cbv beta in V.
  pose proof (proj1 (forallb_forall _ _) V _ PU) as W. unfold check_pair in W. clear V. cbv zeta in W.
  destruct check_parts as (CS & _ & _). pose proof (CS _ PS) as K. unfold check_state in K. rewrite PR in K. cbn [negb orb] in K.
  rewrite forallb_forall in K.
  set (a := feed s (second l)) in *.
  apply andb_prop in W. destruct W as [W0 W]. apply andb_prop in W0. destruct W0 as [W1 W2]. apply Z.leb_le in W1, W2.
  assert (TA : In a tokens) by (unfold tokens; apply in_map_iff; exists (Z.to_nat a); split; [lia|apply in_seq; lia]).
  specialize (K a TA).
  destruct (act_of s a) as [s'|n| | |] eqn:ACT; try discriminate.
  - apply andb_prop in W. destruct W as [W4 W3]. apply Z.leb_le in W4. apply Nat.ltb_lt in W3.
    apply andb_prop in K. destruct K as [K K4]. apply andb_prop in K. destruct K as [K _].
    apply andb_prop in K. destruct K as [K1 _]. apply mem_In in K1, K4.
    destruct (IH (s' :: s :: l)) as (ts & T1 & T2 & T3); [now constructor|cbn [hd tl second]; lia|].
    destruct (decode_term_range a (conj W4 W2)) as (x & X).
    exists ({| t_type := token_number x; t_value := B "1" |} :: ts). split; [constructor; [now exists x|exact T1]|].
    split; [exact X|]. intros d0 all c I N E Pd.
    assert (PK : peek c = a) by (unfold peek; rewrite Pd; exact X).
    assert (SE : state c = s) by (unfold full in E; cbn [map yys] in E; now injection E).
    pose proof (step_inv _ _ _ I) as SI. pose proof (step_spec c (proj1 I)) as SP. rewrite PK, SE, ACT in SP.
    cbn [map] in Pd. destruct (SP _ _ _ Pd) as (c' & ST & F & P' & _). rewrite ST in SI. destruct SI as [I' _].
    destruct (T3 d0 all c' I' N) as (c2 & d & Q1 & Q2).
    { rewrite F. cbn [map yys]. now rewrite E. }
    { exact P'. }
    exists c2, d. split; [econstructor; eauto|exact Q2].
  - destruct (prod_of gram n) as [[A r]|] eqn:PR'; [|discriminate].
    set (fin := fun x => match goto_ x A with Some g => (feed g x =? a) && Nat.ltb (left_ g x) (left_ s (second l)) | None => false end) in *.
    (* what the reduction uncovers, whatever the values on the stack *)
    assert (U : forall popped x rest, s :: l = popped ++ x :: rest -> length popped = length r -> fin x = true).
    { intros popped x rest E L. destruct r as [|y r].
      - destruct popped; [|discriminate]. injection E as -> _. exact W.
      - destruct popped as [|z popped]; [discriminate|]. cbn [app] in E. injection E as <- E. cbn [length] in L. injection L as L.
        destruct l as [|p l']; [destruct popped; discriminate|]. destruct (path_tl _ _ _ P) as [P1 P2].
        exact (downs_path _ _ _ _ _ _ _ P1 W E L). }
    unfold check_reduce in K. rewrite PR' in K.
    destruct (at_ yyR1 n) as [A'|]; [|discriminate]. destruct (at_ yyR2 n) as [m|]; [|discriminate].
    apply andb_prop in K. destruct K as [_ K].
    destruct (walk_path _ _ _ _ P K) as (popped & x & rest & E1 & E2 & E3 & E4). rewrite rev_length in E2.
    pose proof (U _ _ _ E1 E2) as F. unfold fin in F. destruct (goto_ x A) as [g|] eqn:GT; [|discriminate].
    apply andb_prop in F. destruct F as [F1 F2]. apply Z.eqb_eq in F1. apply Nat.ltb_lt in F2.
    apply andb_prop in E4. destruct E4 as [E4 _]. apply andb_prop in E4. destruct E4 as [E4 K7].
    apply andb_prop in E4. destruct E4 as [K5 _]. apply mem_In in K5, K7.
    destruct (IH (g :: x :: rest)) as (ts & T1 & T2 & T3); [now constructor|cbn [hd tl second]; lia|].
    exists ts. split; [exact T1|]. split; [cbn [hd tl second] in T2; now rewrite T2|]. intros d0 all c I N E Pd.
    cbn [hd tl second] in T2.
    assert (PK : peek c = a) by (unfold peek; rewrite Pd; rewrite <- F1, <- T2; reflexivity).
    assert (SE : state c = s) by (unfold full in E; cbn [map yys] in E; now injection E).
    pose proof (step_inv _ _ _ I) as SI.
    destruct (reduce_step d0 all c n A r I N) as (c' & po & e' & stk' & g' & v & ST & Fu & L & GT' & _ & _ & Fu' & P').
    { now rewrite PK, SE. }
    { exact PR'. }
    rewrite ST in SI. destruct SI as [I' _].
    rewrite Fu, map_app in E. cbn [map] in E. rewrite E1 in E. apply app_same in E; [|rewrite map_length; congruence].
    destruct E as [_ E]. injection E as E5 E6. rewrite E5, GT in GT'. injection GT' as <-.
    destruct (T3 d0 all c' I' N) as (c2 & d & Q1 & Q2).
    { rewrite Fu'. cbn [map yys]. now rewrite E5, E6. }
    { now rewrite P', Pd. }
    exists c2, d. split; [econstructor; eauto|exact Q2].
  - apply Z.eqb_eq in W. exists []. split; [constructor|]. split; [cbn [map hd1]; now rewrite W|].
    intros d0 all c I N E Pd.
    assert (PK : peek c = a) by (unfold peek; rewrite Pd; now rewrite W).
    assert (SE : state c = s) by (unfold full in E; cbn [map yys] in E; now injection E).
    pose proof (step_spec c (proj1 I)) as SP. rewrite PK, SE, ACT in SP. exists c, (defs c). split; [constructor|exact SP].
Qed.

(* ---- a parser that waits ---- *)

Lemma default_same : forall c, look c <> None \/ next_token (input c) <> None -> default_action false c = default_action true c.
Proof.
  intros c H. unfold default_action. destruct (at_ yyDef (state c)) as [n|]; [|reflexivity]. destruct (n =? -2); [|reflexivity].
  replace (read false c) with (read true c); [reflexivity|]. unfold read. destruct (look c); [reflexivity|].
  destruct (next_token (input c)) as [[t u]|]; [reflexivity|]. destruct H as [H|H]; congruence.
Qed.

Lemma step_same : forall c, Forall (fun t => 0 < t_type t) (input c) -> look c <> None \/ next_token (input c) <> None -> step false c = step true c.
Proof.
  intros c Ps H. unfold step. cbv zeta. set (c0 := {| state := _ |}).
  assert (P0 : Forall (fun t => 0 < t_type t) (input c0)) by exact Ps.
  assert (H0 : look c0 <> None \/ next_token (input c0) <> None) by exact H. clearbody c0.
  destruct (at_ yyPact (state c0)) as [p|]; [|reflexivity]. destruct (p <=? yyFlag); [now apply default_same|].
  assert (R : read false c0 = read true c0).
  { unfold read. destruct (look c0); [reflexivity|]. destruct (next_token (input c0)) as [[t u]|]; [reflexivity|].
    destruct H0 as [H0|H0]; congruence. }
  rewrite R. destruct (read true c0) as [[t c1]|] eqn:E; [|reflexivity].
  assert (L : look c1 <> None).
  { unfold read in E. destruct (look c0) eqn:L0; [injection E as _ <-; congruence|].
    pose proof (next_token_visible (input c0)) as V. destruct (next_token (input c0)) as [[t' u]|]; [|destruct H0; congruence].
    destruct V as (_ & _ & ws & V & _). rewrite V in P0. apply Forall_app in P0. destruct P0 as [_ P0]. inversion P0 as [|? ? P1 _]; subst.
    injection E as _ <-. cbn [look]. destruct (t_type t' <? 0) eqn:Z0; [apply Z.ltb_lt in Z0; lia|discriminate]. }
  rewrite (default_same c1 (or_introl L)). reflexivity.
Qed.

Lemma waits_empty : forall d0 ts c d, inv d0 ts c -> step false c = Stop Waits d -> pend c = [].
Proof.
  intros d0 ts c d I H. unfold pend. destruct (look c) as [t|] eqn:L.
  - exfalso. rewrite (step_same c (proj1 (proj1 I))) in H by (left; congruence). pose proof (step_inv _ _ _ I) as Q. rewrite H in Q.
    destruct Q as [[Q _]|[Q|Q]]; discriminate.
  - pose proof (next_token_visible (input c)) as V. destruct (next_token (input c)) as [[t u]|] eqn:N; [|now rewrite V].
    exfalso. rewrite (step_same c (proj1 (proj1 I))) in H by (right; congruence). pose proof (step_inv _ _ _ I) as Q. rewrite H in Q.
    destruct Q as [[Q _]|[Q|Q]]; discriminate.
Qed.

Lemma run_waits : forall f d0 c ts d, inv d0 ts c -> run f false c = Some (Waits, d) ->
  exists c1, steps c c1 /\ inv d0 ts c1 /\ pend c1 = [] /\ forall m, steps (longer m c) (longer m c1).
Proof.
  induction f as [|f IH]; intros d0 c ts d I H; [discriminate|]. cbn [run] in H.
  destruct (step false c) as [c'|o d'] eqn:E.
  - assert (E' : step true c = Continue c') by (destruct (step_false c) as [Q|Q]; congruence).
    pose proof (step_inv _ _ _ I) as SI. rewrite E' in SI. destruct SI as [I' _].
    destruct (IH _ _ _ _ I' H) as (c1 & H1 & H2 & H3 & H4). exists c1. split; [econstructor; eauto|]. split; [exact H2|]. split; [exact H3|].
    intros m. econstructor; [|apply H4]. destruct (step_longer m c) as [Q|Q]; [congruence|]. now rewrite Q, E.
  - injection H as -> _. exists c. split; [constructor|]. split; [exact I|]. split; [exact (waits_empty _ _ _ _ I E)|]. constructor.
Qed.

Lemma steps_inv : forall d0 ts c c', steps c c' -> inv d0 ts c -> inv d0 ts c'.
Proof.
  intros d0 ts c c' H. induction H as [c|c c1 c2 E _ IH]; intros I; [exact I|]. apply IH. pose proof (step_inv _ _ _ I) as Q.
  rewrite E in Q. tauto.
Qed.

Lemma visible_app : forall l m, visible (l ++ m) = visible l ++ visible m.
Proof. intros l m. unfold visible. induction l as [|t l IH]; [reflexivity|]. cbn [app filter]. destruct (negb (is_ws t)); cbn [app]; now rewrite IH. Qed.

Lemma plain_number : forall t, plain t -> atoi (t_value t) <> None.
Proof. intros t (x & ->). discriminate. Qed.

Lemma waits_prefix : forall d l fuel d1, positive l -> (forall t, In t l -> is T_NUMBER t -> atoi (t_value t) <> None) ->
  yyParse fuel false d l = Some (Waits, d1) ->
  exists m w, positive (l ++ m) /\ spells (l ++ m) w /\ locale_definition w /\
    (forall t, In t (l ++ m) -> is T_NUMBER t -> atoi (t_value t) <> None).
Proof.
  intros d l fuel d1 P N H. unfold yyParse in H.
  destruct (run_waits _ _ _ _ _ (start_inv d l P) H) as (c1 & S1 & (G1 & w1 & K1 & K2) & E1 & L1).
  pose proof (stk_path _ _ _ _ K1) as PA.
  destruct (finish _ _ PA (Nat.lt_succ_diag_r _)) as (m & M1 & _ & M3). exists m.
  assert (Pm : positive m).
  { apply Forall_forall. intros t I. rewrite Forall_forall in M1. exact (proj2 (plain_coded t (M1 t I))). }
  assert (PP : positive (l ++ m)) by (apply Forall_app; now split).
  assert (NN : forall t, In t (l ++ m) -> is T_NUMBER t -> atoi (t_value t) <> None).
  { intros t I Q. apply in_app_or in I. destruct I as [I|I]; [now apply N|]. rewrite Forall_forall in M1. now apply plain_number, M1. }
  assert (NO : num_ok (map coded (visible (l ++ m)))).
  { intros v I. apply in_map_iff in I. destruct I as (t & E & I). injection E as E2 E3. subst v.
    unfold visible in I. apply filter_In in I. destruct I as [I _]. apply NN; [exact I|].
    apply code_is; [exact (proj1 (Forall_forall _ _) PP t I)|exact E2]. }
  pose proof (start_inv d (l ++ m) PP) as I0.
  assert (S2 : steps (start d (l ++ m)) (longer m c1)) by exact (L1 m).
  pose proof (steps_inv _ _ _ _ S2 I0) as I2.
  destruct (M3 _ _ _ I2 NO) as (c2 & d2 & Q1 & Q2).
  { reflexivity. }
  { unfold pend in *. cbn [longer look lval input]. rewrite visible_app, map_app, app_assoc, E1, (plain_visible m M1). reflexivity. }
  destruct (steps_run _ _ _ _ (steps_trans _ _ _ S2 Q1) Q2) as (f & Hf).
  destruct (accepted_spells f d (l ++ m) 0 d2 PP Hf) as (_ & w & W1 & W2). exists w. now repeat split.
Qed.

(* ---- values do not steer the parser, except that a number that is no integer stops it ---- *)

Definition alike (c c' : config) : Prop :=
  state c = state c' /\ map yys (below c) = map yys (below c') /\ look c = look c' /\ map t_type (input c) = map t_type (input c').
Definition alike_result (x y : result) : Prop :=
  match x, y with
  | Continue c, Continue c' => alike c c'
  | Stop o _, Stop o' _ => o = BadNumber \/ o = o'
  | Stop o _, Continue _ => o = BadNumber
  | Continue _, Stop o _ => o = BadNumber
  end.

Lemma next_token_alike : forall l l', map t_type l = map t_type l' ->
  match next_token l, next_token l' with
  | Some (t, r), Some (t', r') => t_type t = t_type t' /\ map t_type r = map t_type r'
  | None, None => True
  | _, _ => False
  end.
Proof.
  induction l as [|t l IH]; intros [|t' l'] E; try discriminate; [exact I|]. cbn [map] in E. injection E as E1 E2.
  cbn [next_token]. rewrite <- E1. destruct (t_type t =? WHITESPACE); [now apply IH|now split].
Qed.

Lemma read_alike : forall cl c c', alike c c' ->
  match read cl c, read cl c' with
  | Some (t, c1), Some (t', c1') => t = t' /\ alike c1 c1'
  | None, None => True
  | _, _ => False
  end.
Proof.
  intros cl c c' (E1 & E2 & E3 & E4). unfold read. rewrite <- E3. destruct (look c) as [t|] eqn:L.
  { split; [reflexivity|]. unfold alike. now rewrite L, <- E3. }
  pose proof (next_token_alike _ _ E4) as N. destruct (next_token (input c)) as [[t r]|], (next_token (input c')) as [[t' r']|]; try contradiction.
  - destruct N as [N1 N2]. rewrite N1. split; [reflexivity|]. unfold alike. cbn [state below look input]. now repeat split.
  - destruct cl; [|exact I]. split; [reflexivity|]. unfold alike. cbn [state below look input]. now repeat split.
Qed.

Lemma reduce_alike : forall n c c', alike c c' -> alike_result (reduce n c) (reduce n c').
Proof.
  intros n c c' (E1 & E2 & E3 & E4). unfold reduce. destruct (at_ yyR2 n) as [k|]; [|now right]. destruct (at_ yyR1 n) as [A|]; [|now right].
  destruct (k <? 0); [now right|].
  assert (Sk : map yys (skipn (Z.to_nat k) (below c)) = map yys (skipn (Z.to_nat k) (below c'))) by now rewrite <- !skipn_map, E2.
  destruct (skipn (Z.to_nat k) (below c)) as [|e u], (skipn (Z.to_nat k) (below c')) as [|e' u']; try discriminate; [now right|].
  cbn [map] in Sk. injection Sk as S1 S2. rewrite <- S1. destruct (goto_ (yys e) A) as [g|]; [|now right].
  destruct (action n (firstn (Z.to_nat k) (below c)) _ _) as [[v d]|], (action n (firstn (Z.to_nat k) (below c')) _ _) as [[v' d']|];
    cbn [alike_result]; auto. unfold alike. cbn [state below look input map]. rewrite S1, S2. now repeat split.
Qed.

Lemma default_alike : forall cl c c', alike c c' -> alike_result (default_action cl c) (default_action cl c').
Proof.
  intros cl c c' E. unfold default_action. rewrite <- (proj1 E). destruct (at_ yyDef (state c)) as [n|]; [|now right].
  destruct (n =? -2).
  - pose proof (read_alike cl c c' E) as R. destruct (read cl c) as [[t c1]|], (read cl c') as [[t' c1']|]; try contradiction; [|now right].
    destruct R as [<- R]. rewrite <- (proj1 R). destruct (exca_find _ _) as [l|]; [|now right]. destruct (exca_pick t l) as [m|]; [|now right].
    destruct (m <? 0); [now right|]. destruct (m =? 0); [now right|]. now apply reduce_alike.
  - destruct (n =? 0); [now right|]. now apply reduce_alike.
Qed.

Lemma step_alike : forall cl c c', alike c c' -> alike_result (step cl c) (step cl c').
Proof.
  intros cl c c' E. unfold step. cbv zeta. set (c0 := {| state := state c |}). set (c0' := {| state := state c' |}).
  assert (E0 : alike c0 c0').
  { destruct E as (E1 & E2 & E3 & E4). unfold alike, c0, c0'. cbn [state below look input map yys]. rewrite E1, E2. now repeat split. }
  clearbody c0 c0'. clear E. rewrite <- (proj1 E0). destruct (at_ yyPact (state c0)) as [p|]; [|now right].
  destruct (p <=? yyFlag); [now apply default_alike|].
  pose proof (read_alike cl _ _ E0) as R. destruct (read cl c0) as [[t c1]|], (read cl c0') as [[t' c1']|]; try contradiction; [|now right].
  destruct R as [<- R]. destruct ((p + t <? 0) || (yyLast <=? p + t)); [now apply default_alike|].
  destruct (at_ yyAct (p + t)) as [s|]; [|now right]. destruct (at_ yyChk s) as [k|]; [|now right].
  destruct (k =? t); [|now apply default_alike]. destruct R as (E1 & E2 & E3 & E4). unfold alike_result, alike. cbn [state below look input].
  now repeat split.
Qed.

Lemma step_no_bad : forall d0 ts c d, inv d0 ts c -> num_ok ts -> step true c <> Stop BadNumber d.
Proof.
  intros d0 ts c d I N H. pose proof I as (G & w & HS & HT).
  destruct check_parts as (CS & CP & CR). pose proof (step_spec c G) as SP. destruct (peek_range c G) as [PT _]. unfold full in HS.
  destruct (stk_state _ _ _ _ _ HS) as [S1 S2]. cbn [yys] in S1, S2.
  pose proof (CS _ S1) as K. unfold check_state in K. rewrite S2 in K. cbn [negb orb] in K.
  rewrite forallb_forall in K. specialize (K _ PT). destruct (act_of (state c) (peek c)) as [s'|n| | |] eqn:ACT.
  - apply andb_prop in K. destruct K as [K _]. apply andb_prop in K. destruct K as [_ K]. apply Z.leb_le in K.
    destruct (pend c) as [|[a v] p] eqn:P; [unfold peek in K; rewrite P in K; lia|].
    destruct (SP a v p eq_refl) as (c' & ST & _). congruence.
  - unfold check_reduce in K. destruct (prod_of gram n) as [[A r]|] eqn:PR; [|discriminate].
    destruct (reduce_step d0 ts c n A r I N ACT PR) as (c' & _ & _ & _ & _ & _ & ST & _). congruence.
  - congruence.
  - congruence.
  - discriminate.
Qed.

Lemma run_no_bad : forall f cl d0 ts c d, inv d0 ts c -> num_ok ts -> run f cl c <> Some (BadNumber, d).
Proof.
  induction f as [|f IH]; intros cl d0 ts c d I N H; [discriminate|]. cbn [run] in H.
  assert (Q : step cl c = step true c \/ exists d', step cl c = Stop Waits d').
  { destruct cl; [now left|]. destruct (step_false c) as [Q|Q]; [right; eauto|now left]. }
  destruct Q as [Q|(d' & Q)]; rewrite Q in H; [|discriminate].
  pose proof (step_inv _ _ _ I) as SI. destruct (step true c) as [c'|o d'] eqn:E.
  - exact (IH cl d0 ts c' d (proj1 SI) N H).
  - injection H as -> ->. exact (step_no_bad _ _ _ _ I N E).
Qed.

Lemma run_alike : forall f cl d0 ts c c' o d, alike c c' -> inv d0 ts c' -> num_ok ts -> run f cl c = Some (o, d) ->
  o = BadNumber \/ exists d', run f cl c' = Some (o, d').
Proof.
  induction f as [|f IH]; intros cl d0 ts c c' o d E I N H; [discriminate|]. cbn [run] in *.
  assert (Q : step cl c' = step true c' \/ exists d', step cl c' = Stop Waits d').
  { destruct cl; [now left|]. destruct (step_false c') as [Q|Q]; [right; eauto|now left]. }
  pose proof (step_alike cl _ _ E) as SA. pose proof (step_inv _ _ _ I) as SI. pose proof (fun d => step_no_bad d0 ts c' d I N) as NB.
  destruct (step cl c) as [c1|o1 d1]; destruct (step cl c') as [c1'|o1' d1']; cbn [alike_result] in SA.
  - destruct Q as [Q|(d' & Q)]; [|discriminate]. rewrite <- Q in SI. exact (IH cl d0 ts c1 c1' o d SA (proj1 SI) N H).
  - exfalso. subst o1'. destruct Q as [Q|(d' & Q)]; [|discriminate]. exact (NB _ (eq_sym Q)).
  - left. now injection H as <- _.
  - injection H as <- <-. destruct SA as [->|SA]; [now left|]. right. exists d1'. now rewrite SA.
Qed.

(* the tokens with a number for every value *)
Definition ones (l : list token) : list token := map (fun t => {| t_type := t_type t; t_value := B "1" |}) l.

Lemma ones_types : forall l, map t_type (ones l) = map t_type l.
Proof. intros l. unfold ones. rewrite map_map. reflexivity. Qed.
Lemma ones_positive : forall l, positive l -> positive (ones l).
Proof. intros l H. unfold positive, ones. apply Forall_map. exact H. Qed.
Lemma ones_number : forall l t, In t (ones l) -> atoi (t_value t) <> None.
Proof. intros l t H. apply in_map_iff in H. destruct H as (u & <- & _). discriminate. Qed.
Lemma ones_num_ok : forall l, num_ok (map coded (visible (ones l))).
Proof.
  intros l v I. apply in_map_iff in I. destruct I as (t & E & I). injection E as _ <-.
  unfold visible in I. apply filter_In in I. exact (ones_number l t (proj1 I)).
Qed.
Lemma significant_ones : forall l, significant (ones l) = ones (significant l).
Proof.
  induction l as [|t l IH]; [reflexivity|]. unfold significant, ones in *. cbn [map filter t_type].
  destruct (negb (t_type t =? WHITESPACE)); cbn [map]; now rewrite IH.
Qed.
Lemma spells_ones : forall l w, spells (ones l) w <-> spells l w.
Proof.
  intros l. unfold spells. intros w. rewrite significant_ones. generalize (significant l). clear l. intros l. revert w.
  induction l as [|t l IH]; intros [|x w]; unfold ones; cbn [map]; (split; intros H; [inversion H; subst|inversion H; subst]); constructor; auto; now apply IH.
Qed.

Lemma start_alike : forall d l l', map t_type l = map t_type l' -> alike (start d l) (start d l').
Proof. intros d l l' H. unfold alike, start. cbn [state below look input]. now repeat split. Qed.

Lemma spells_app : forall l m w, spells (l ++ m) w -> exists u v, w = u ++ v /\ spells l u /\ spells m v.
Proof.
  intros l m w H. unfold spells, significant in *. rewrite filter_app in H. apply Forall2_app_inv_r in H.
  destruct H as (u & v & H1 & H2 & ->). exists u, v. now repeat split.
Qed.

Definition of_term (x : term) : token := {| t_type := token_number x; t_value := B "1" |}.
Lemma spells_terms : forall v, spells (map of_term v) v.
Proof.
  intros v. unfold spells. induction v as [|x v IH]; [constructor|]. cbn [map]. unfold significant in *. cbn [filter of_term t_type].
  assert (Q : (token_number x =? WHITESPACE) = false) by (destruct x; reflexivity). rewrite Q. cbn [negb]. constructor; [reflexivity|exact IH].
Qed.

Lemma parse_open : forall d l, positive l ->
  exists o d', yyParse (100 * S (length l)) false d l = Some (o, d') /\
    (o = Waits /\ begins_definition l \/ o = SyntaxError /\ ~ begins_definition l \/
     o = BadNumber /\ exists t, In t l /\ is T_NUMBER t /\ atoi (t_value t) = None).
Proof.
  intros d l P.
  destruct (parse_spec d l P) as (o & d' & E & C).
  assert (Q : exists o d', yyParse (100 * S (length l)) false d l = Some (o, d') /\ (o = Waits \/ o = SyntaxError \/ o = BadNumber)).
  { destruct (run_false _ _ _ E) as [X|(d1 & X)]; [|exists Waits, d1; split; [exact X|now left]].
    exists o, d'. split; [exact X|]. destruct C as [(-> & _)|[C|C]]; auto. exfalso. refine (run_goes _ _ _ _ _ X).
    split; [discriminate|exact P]. }
  clear o d' E C. destruct Q as (o & d' & E & C). exists o, d'. split; [exact E|].
  assert (A : o = BadNumber \/ exists d1, yyParse (100 * S (length l)) false d (ones l) = Some (o, d1)).
  { refine (run_alike _ _ d _ _ _ _ _ _ _ _ E); [apply start_alike; symmetry; apply ones_types| |].
    - apply start_inv. now apply ones_positive.
    - apply ones_num_ok. }
  destruct C as [->|[->| ->]].
  - left. split; [reflexivity|]. destruct A as [A|(d1 & A)]; [discriminate|].
    destruct (waits_prefix d (ones l) _ d1 (ones_positive l P) (fun t I _ => ones_number l t I) A) as (m & w & H1 & H2 & H3 & _).
    apply spells_app in H2. destruct H2 as (u & v & -> & H4 & _). exists u, v. split; [now apply spells_ones|exact H3].
  - right. left. split; [reflexivity|]. intros (w & v & H1 & H2). destruct A as [A|(d1 & A)]; [discriminate|].
    destruct (prefix_waits d (ones l) (map of_term v) (w ++ v) (100 * S (length l))) as [X|(d2 & X)].
    + apply Forall_app. split; [now apply ones_positive|]. apply Forall_map, Forall_forall. intros x _. destruct x; reflexivity.
    + unfold spells, significant. rewrite filter_app. apply Forall2_app; [apply spells_ones in H1; exact H1|apply spells_terms].
    + exact H2.
    + intros t I _. apply in_app_or in I. destruct I as [I|I]; [exact (ones_number l t I)|].
      apply in_map_iff in I. destruct I as (x & <- & _). discriminate.
    + congruence.
    + congruence.
  - right. right. split; [reflexivity|].
    destruct (Exists_dec (fun t => is T_NUMBER t /\ atoi (t_value t) = None) l) as [X|X].
    { intros t. unfold is. destruct (Z.eq_dec (t_type t) (token_number T_NUMBER)) as [Z1|Z1]; [|right; tauto].
      destruct (atoi (t_value t)) eqn:Z2; [right; intros [_ ?]; congruence|left; now split]. }
    + apply Exists_exists in X. destruct X as (t & X1 & X2 & X3). now exists t.
    + exfalso. refine (run_no_bad _ _ d _ _ _ (start_inv d l P) _ E).
      intros v I. apply in_map_iff in I. destruct I as (t & E1 & I). injection E1 as E2 E3. subst v.
      unfold visible in I. apply filter_In in I. destruct I as [I _]. intros F. apply X. apply Exists_exists. exists t. split; [exact I|].
      split; [|exact F]. apply code_is; [exact (proj1 (Forall_forall _ _) P t I)|exact E2].
Qed.
