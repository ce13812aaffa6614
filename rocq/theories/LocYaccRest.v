(* What a parse that ends in an error leaves behind. *)
From Verif Require Import GoBase GoFacts LocGramSpec LocYaccModel LocYaccCert LocYaccProofs LocYaccGram LocYaccSound LocYaccComplete
  LocYaccValues LocParseSpec LocYaccFinal.
Local Open Scope Z_scope.

(* ---- a definition followed by the beginning of another category ---- *)

Definition openers : list Z := [20; 36; 85; 64; 61; 46].

Definition same_act (x y : act) : bool :=
  match x, y with AReduce n, AReduce m => n =? m | _, _ => false end.

Lemma openers_valid : forallb (fun s =>
  match act_of s 1 with
  | AReduce n =>
      forallb (fun a => negb (mem n [1; 2]) && same_act (act_of s a) (AReduce n) ||
                        mem n [1; 2] && match act_of s a with
                                        | AShift s' => match act_of s' 1 with AError => true | _ => false end
                                        | _ => false
                                        end) openers
  | AShift _ => false
  | _ => true
  end) states = true.
Proof. vm_compute. reflexivity. Qed.

Lemma goto_1 : forall q A, goto_ q A = Some 1 -> A = 1.
Proof.
  intros q A H. unfold goto_ in H. destruct (at_ yyPgo A) as [g|] eqn:G; [|discriminate].
  assert (D : at_ yyAct g = Some 1 -> A = 1).
  { intros K.
    assert (F : forallb (fun i => match at_ yyPgo (Z.of_nat i) with
                                  | Some g => match at_ yyAct g with Some 1 => (i =? 1)%nat | _ => true end
                                  | None => true end) (seq 0 (length yyPgo)) = true) by (vm_compute; reflexivity).
    assert (R : 0 <= A /\ In (Z.to_nat A) (seq 0 (length yyPgo))).
    { unfold at_ in G. destruct (A <? 0) eqn:N; [discriminate|]. apply Z.ltb_ge in N. split; [exact N|].
      apply in_seq. split; [lia|]. apply nth_error_Some. congruence. }
    destruct R as [R0 R]. pose proof (proj1 (forallb_forall _ _) F _ R) as Q. cbv beta in Q.
    rewrite Z2Nat.id, G, K in Q by exact R0. apply Nat.eqb_eq in Q. lia. }
  destruct (yyLast <=? g + q + 1); [auto|].
  destruct (at_ yyAct (g + q + 1)) as [s|]; [|discriminate].
  destruct (at_ yyChk s) as [k|] eqn:K; [|discriminate].
  destruct (k =? - A) eqn:E; [|auto]. injection H as ->. apply Z.eqb_eq in E. subst k.
  change (at_ yyChk 1) with (Some (-1)) in K. injection K. lia.
Qed.

Lemma goto_from_1 : forall q s, goto_ q 1 = Some s -> s = 1.
Proof.
  intros q s H. unfold goto_ in H. destruct (at_ yyPgo 1) as [g|] eqn:G; [|discriminate].
  assert (D : at_ yyAct g = Some s -> s = 1).
  { intros K. vm_compute in G. injection G as <-. vm_compute in K. now injection K. }
  destruct (yyLast <=? g + q + 1); [auto|].
  destruct (at_ yyAct (g + q + 1)) as [s'|]; [|discriminate].
  destruct (at_ yyChk s') as [k|] eqn:K; [|discriminate].
  destruct (k =? - (1)) eqn:E; [|auto]. injection H as <-. apply Z.eqb_eq in E. subst k.
  assert (F : forallb (fun i => match at_ yyChk (Z.of_nat i) with
                                | Some k => negb (k =? -1) || (i =? 1)%nat
                                | None => true end) (seq 0 (length yyChk)) = true) by (vm_compute; reflexivity).
  assert (R : 0 <= s' /\ In (Z.to_nat s') (seq 0 (length yyChk))).
  { unfold at_ in K. destruct (s' <? 0) eqn:N; [discriminate|]. apply Z.ltb_ge in N. split; [exact N|].
    apply in_seq. split; [lia|]. apply nth_error_Some. congruence. }
  destruct R as [R0 R]. pose proof (proj1 (forallb_forall _ _) F _ R) as Q. cbv beta in Q.
  rewrite Z2Nat.id, K in Q by exact R0. cbn [negb orb] in Q. apply orb_prop in Q.
  destruct Q as [Q|Q]; [discriminate Q|]. apply Nat.eqb_eq in Q. lia.
Qed.

Lemma head_1 : forall n, at_ yyR1 n = Some 1 -> n = 1 \/ n = 2.
Proof.
  intros n H.
  assert (F : forallb (fun i => match at_ yyR1 (Z.of_nat i) with
                                | Some k => negb (k =? 1) || (i =? 1)%nat || (i =? 2)%nat
                                | None => true end) (seq 0 (length yyR1)) = true) by (vm_compute; reflexivity).
  assert (R : 0 <= n /\ In (Z.to_nat n) (seq 0 (length yyR1))).
  { unfold at_ in H. destruct (n <? 0) eqn:N; [discriminate|]. apply Z.ltb_ge in N. split; [exact N|].
    apply in_seq. split; [lia|]. apply nth_error_Some. congruence. }
  destruct R as [R0 R]. pose proof (proj1 (forallb_forall _ _) F _ R) as Q. cbv beta in Q.
  rewrite Z2Nat.id, H in Q by exact R0. cbn [negb orb Z.eqb Pos.eqb] in Q. apply orb_prop in Q.
  destruct Q as [Q|Q]; apply Nat.eqb_eq in Q; lia.
Qed.

(* two reductions on the same stack *)
Lemma reduce_both : forall n c1 c2, below c1 = below c2 -> above c1 = above c2 -> defs c1 = defs c2 ->
  match reduce n c1, reduce n c2 with
  | Continue x, Continue y =>
      full x = full y /\ above x = above y /\ defs x = defs y /\
      pend x = pend c1 /\ pend y = pend c2 /\ (good c1 -> good x) /\ (good c2 -> good y) /\
      (state x = 1 -> n = 1 \/ n = 2) /\ (n = 1 \/ n = 2 -> state x = 1 /\ defs x = defs c1)
  | Stop o d, Stop o' d' => o = o' /\ d = d' /\ forall m, o <> Returns m
  | _, _ => False
  end.
Proof.
  intros n c1 c2 E1 E2 E3. unfold reduce. rewrite <- E1, <- E2, <- E3.
  destruct (at_ yyR2 n) as [k|]; [|now repeat split]. destruct (at_ yyR1 n) as [A|] eqn:R1; [|now repeat split].
  destruct (k <? 0); [now repeat split|]. cbv zeta. destruct (skipn (Z.to_nat k) (below c1)) as [|top r]; [now repeat split|].
  destruct (goto_ (yys top) A) as [s|] eqn:GT; [|now repeat split].
  destruct (action n _ _ (defs c1)) as [[v d]|] eqn:AC; [|now repeat split].
  unfold full. cbn [state yyval below above defs]. repeat (split; [reflexivity|]).
  split; [intros G; exact G|]. split; [intros G; exact G|]. split.
  - intros ->. apply goto_1 in GT. subst A. now apply head_1.
  - intros HN.
    assert (A = 1) as ->.
    { destruct HN as [-> | ->]; vm_compute in R1; now injection R1. }
    split; [now apply goto_from_1 in GT|].
    unfold action in AC. destruct HN as [-> | ->]; cbn [Z.eqb Pos.eqb] in AC; now injection AC.
Qed.

Definition lock (a : Z) (v : bytes) (c1 c2 : config) : Prop :=
  full c1 = full c2 /\ above c1 = above c2 /\ defs c1 = defs c2 /\ good c2 /\
  pend c2 = pend c1 ++ [(a, v)] /\ (state c1 = 1 -> pend c1 <> []).

Lemma lock_run : forall a v, In a openers -> forall fuel d0 ts c1 c2 n d', inv d0 ts c1 -> lock a v c1 c2 ->
  run fuel true c1 = Some (Returns n, d') -> run fuel true c2 = Some (SyntaxError, d').
Proof.
  intros a v HA. induction fuel as [|f IH]; intros d0 ts c1 c2 n d' HI (L1 & L2 & L3 & G2 & L5 & L6) H; [discriminate|].
  cbn [run] in H |- *.
  pose proof (step_inv _ _ _ HI) as SI.
  pose proof HI as (G1 & w & HS & _). unfold full in HS.
  destruct (stk_state _ _ _ _ _ HS) as [S1 S2]. cbn [yys] in S1, S2.
  pose proof (step_spec c1 G1) as P1. pose proof (step_spec c2 G2) as P2.
  assert (ST : state c2 = state c1) by (unfold full in L1; congruence).
  rewrite ST in P2.
  destruct check_parts as (CS & _ & _).
  pose proof (CS _ S1) as K. unfold check_state in K. rewrite S2 in K. cbn [negb orb] in K.
  rewrite forallb_forall in K. destruct (peek_range c1 G1) as [PT _]. specialize (K _ PT).
  destruct (pend c1) as [|[a1 v1] p] eqn:E1.
  - (* the end of the first *)
    cbn [app] in L5.
    assert (K1 : peek c1 = 1) by (unfold peek; now rewrite E1).
    assert (K2 : peek c2 = a) by (unfold peek; now rewrite L5).
    rewrite K1 in P1, K. rewrite K2 in P2.
    pose proof (proj1 (forallb_forall _ _) openers_valid _ S1) as OV. cbv beta in OV.
    destruct (act_of (state c1) 1) as [s'|m| | |] eqn:ACT.
    + discriminate OV.
    + pose proof (proj1 (forallb_forall _ _) OV _ HA) as Q. cbv beta in Q. apply orb_prop in Q.
      destruct P1 as (x & X1 & X2 & X3 & X4 & X5 & X6). rewrite X1 in H, SI.
      destruct Q as [Q|Q]; apply andb_prop in Q; destruct Q as [Q1 Q2].
      * unfold same_act in Q2. destruct (act_of (state c1) a) as [|m'| | |]; try discriminate. apply Z.eqb_eq in Q2. subst m'.
        destruct P2 as (y & Y1 & Y2 & Y3 & Y4 & Y5 & Y6). rewrite Y1.
        pose proof (reduce_both m x y ltac:(congruence) ltac:(congruence) ltac:(congruence)) as RB.
        destruct (reduce m x) as [x'|o d], (reduce m y) as [y'|o' d'']; try contradiction.
        -- destruct RB as (R1 & R2 & R3 & R4 & R5 & R6 & R7 & R8 & R9).
           apply (IH d0 ts x' y' n d' (proj1 SI)); [|exact H].
           split; [exact R1|]. split; [exact R2|]. split; [exact R3|]. split; [now apply R7|].
           split; [rewrite R5, R4, Y4, L5, X4; reflexivity|].
           intros E. apply R8 in E. apply Bool.negb_true_iff in Q1. exfalso.
           destruct E as [-> | ->]; discriminate Q1.
        -- injection H as -> ->. destruct RB as (_ & _ & RB). now destruct (RB n).
      * apply mem_In in Q1.
        assert (HM : m = 1 \/ m = 2) by (cbn [In] in Q1; destruct Q1 as [<-|[<-|[]]]; auto).
        pose proof (reduce_both m x x eq_refl eq_refl eq_refl) as RB.
        destruct (reduce m x) as [x'|o d].
        2: { injection H as -> ->. destruct RB as (_ & _ & RB). now destruct (RB n). }
        destruct RB as (_ & _ & _ & R4 & _ & R6 & _ & _ & R9). destruct (R9 HM) as [R9a R9b].
        destruct (act_of (state c1) a) as [s'| | | |]; try discriminate.
        destruct (P2 a v [] L5) as (y & Y1 & Y2 & Y3 & Y4 & Y5 & _). rewrite Y1.
        destruct f as [|f]; [discriminate H|]. cbn [run] in H |- *.
        pose proof (step_spec x' (R6 X6)) as P3. 
        assert (PX : peek x' = 1) by (unfold peek; now rewrite R4, X4).
        rewrite PX, R9a in P3. change (act_of 1 1) with AAccept in P3. cbv iota in P3. rewrite P3 in H.
        injection H as _ <-.
        pose proof (step_spec y Y5) as P4.
        assert (PY : peek y = 1) by (unfold peek; now rewrite Y3).
        assert (SY : state y = s') by (unfold full in Y2; congruence).
        rewrite PY, SY in P4. destruct (act_of s' 1); try discriminate. rewrite P4. congruence.
    + apply andb_prop in K. destruct K as [K _]. apply Z.eqb_eq in K. now destruct (L6 K).
    + rewrite P1 in H. discriminate.
    + discriminate K.
  - (* the same token for both *)
    cbn [app] in L5.
    assert (K2 : peek c2 = peek c1) by (unfold peek; now rewrite L5, E1).
    rewrite K2 in P2.
    destruct (act_of (state c1) (peek c1)) as [s'|m| | |] eqn:ACT.
    + destruct (P1 _ _ _ eq_refl) as (x & X1 & X2 & X3 & X4 & X5 & X6).
      destruct (P2 _ _ _ L5) as (y & Y1 & Y2 & Y3 & Y4 & Y5 & Y6).
      rewrite X1 in H, SI. rewrite Y1. apply (IH d0 ts x y n d' (proj1 SI)); [|exact H].
      split; [congruence|]. split; [congruence|]. split; [congruence|]. split; [exact Y5|].
      split; [congruence|]. intros E. exfalso.
      assert (s' = 1) by (unfold full in X2; congruence). subst s'.
      apply andb_prop in K. destruct K as [K _]. apply andb_prop in K. destruct K as [K K4]. apply andb_prop in K. destruct K as [_ K].
      apply Z.eqb_eq in K. rewrite chk_1 in K. apply Z.leb_le in K4. lia.
    + destruct P1 as (x & X1 & X2 & X3 & X4 & X5 & X6). destruct P2 as (y & Y1 & Y2 & Y3 & Y4 & Y5 & Y6).
      rewrite X1 in H, SI. rewrite Y1.
      pose proof (reduce_both m x y ltac:(congruence) ltac:(congruence) ltac:(congruence)) as RB.
      destruct (reduce m x) as [x'|o d], (reduce m y) as [y'|o' d'']; try contradiction.
      * destruct RB as (R1 & R2 & R3 & R4 & R5 & R6 & R7 & R8 & R9).
        apply (IH d0 ts x' y' n d' (proj1 SI)); [|exact H].
        split; [exact R1|]. split; [exact R2|]. split; [exact R3|]. split; [now apply R7|].
        split; [rewrite R5, R4, Y4, L5, X4; reflexivity|]. intros _. rewrite R4, X4. discriminate.
      * injection H as -> ->. destruct RB as (_ & _ & RB). now destruct (RB n).
    + apply andb_prop in K. destruct K as [_ K]. apply Z.eqb_eq in K.
      exfalso. destruct G1 as [_ G1]. rewrite E1 in G1. inversion G1; subst. cbn [fst] in *. unfold peek in K. rewrite E1 in K. cbn [fst] in K. lia.
    + rewrite P1 in H. discriminate.
    + discriminate K.
Qed.

Lemma opener_code : forall t, opens_category t -> In (translate (t_type t)) openers /\ t_type t <> WHITESPACE /\ 0 < t_type t.
Proof.
  intros t H.
  destruct H as [H|[H|[H|[H|[H|H]]]]]; unfold is in H; rewrite H; (split; [vm_compute; tauto|split; [discriminate|reflexivity]]).
Qed.

Theorem rejected_after : forall fuel d l n d' t, positive l -> opens_category t ->
  yyParse fuel true d l = Some (Returns n, d') -> yyParse fuel true d (l ++ [t]) = Some (SyntaxError, d').
Proof.
  intros fuel d l n d' t P T H. destruct (opener_code t T) as (T1 & T2 & T3).
  assert (P2 : positive (l ++ [t])) by (apply Forall_app; split; [exact P|repeat constructor; exact T3]).
  apply (lock_run _ (t_value t) T1 fuel d (map coded (visible l)) (start d l) (start d (l ++ [t])) n d'); [now apply start_inv| |exact H].
  split; [reflexivity|]. split; [reflexivity|]. split; [reflexivity|].
  split; [apply (start_inv d _ P2)|]. split.
  - unfold pend, start. cbn [look input app]. unfold visible. rewrite filter_app, map_app. f_equal. cbn [filter].
    unfold is_ws. rewrite (proj2 (Z.eqb_neq _ _) T2). reflexivity.
  - discriminate.
Qed.

(* ---- what an unfinished parse has stored ---- *)

Lemma means_keeps : forall X w v d d', meansZ X w v d d' -> lacks sk w -> lacks gk w -> d' = d.
Proof.
  intros X w v d d' H L1 L2. pose proof (proj1 means_facts _ _ _ _ _ H) as F.
  destruct (mem X kws) eqn:K.
  - apply (f_same _ _ _ _ _ F). apply mem_In in K. unfold kws in K. cbn [In] in K.
    repeat (destruct K as [<-|K]; [reflexivity|]). contradiction.
  - destruct (f_fields _ _ _ _ _ F K) as [[F1 _] [F2 _]]. pose proof (f_frac _ _ _ _ _ F) as F3.
    specialize (F1 L1). specialize (F2 L2). destruct d, d'. cbn in *. congruence.
Qed.

Lemma stack_keeps : forall d0 stk w d, stk_ok d0 stk w d -> lacks sk w -> lacks gk w -> d = d0.
Proof.
  intros d0 stk w d H. induction H as [|e e' stk w u d d' H IH H1 H2 H3]; intros L1 L2; [reflexivity|].
  apply lacks_app in L1, L2. rewrite (means_keeps _ _ _ _ _ H3); [|tauto|tauto]. now apply IH.
Qed.

Lemma step_stop_defs : forall d0 ts c o d, inv d0 ts c -> step true c = Stop o d -> d = defs c.
Proof.
  intros d0 ts c o d HI H. pose proof HI as (G & w & HS & _). unfold full in HS.
  destruct (stk_state _ _ _ _ _ HS) as [S1 S2]. cbn [yys] in S1, S2.
  destruct check_parts as (CS & _ & _).
  pose proof (CS _ S1) as K. unfold check_state in K. rewrite S2 in K. cbn [negb orb] in K.
  rewrite forallb_forall in K. destruct (peek_range c G) as [PT _]. specialize (K _ PT).
  pose proof (step_spec c G) as P.
  destruct (act_of (state c) (peek c)) as [s'|m| | |].
  - destruct (pend c) as [|[a v] p] eqn:E.
    + apply andb_prop in K. destruct K as [K _]. apply andb_prop in K. destruct K as [_ K]. unfold peek in K. rewrite E in K. discriminate K.
    + destruct (P _ _ _ eq_refl) as (x & X & _). congruence.
  - destruct P as (x & X1 & _ & _ & _ & X5 & _). rewrite X1 in H. rewrite <- X5. unfold reduce in H.
    destruct (at_ yyR2 m) as [k|]; [|congruence]. destruct (at_ yyR1 m) as [A|]; [|congruence].
    destruct (k <? 0); [congruence|]. cbv zeta in H. destruct (skipn (Z.to_nat k) (below x)) as [|top r]; [congruence|].
    destruct (goto_ (yys top) A); [|congruence]. destruct (action m _ _ (defs x)) as [[v' d2]|]; congruence.
  - congruence.
  - congruence.
  - discriminate.
Qed.

Lemma run_keeps : forall fuel d0 ts c o d, inv d0 ts c -> lacks sk ts -> lacks gk ts ->
  run fuel true c = Some (o, d) -> d = d0.
Proof.
  induction fuel as [|f IH]; intros d0 ts c o d HI L1 L2 H; [discriminate|]. cbn [run] in H.
  pose proof (step_inv _ _ _ HI) as SI. destruct (step true c) as [c'|o' d'] eqn:ST.
  - exact (IH d0 ts c' o d (proj1 SI) L1 L2 H).
  - injection H as -> ->. rewrite (step_stop_defs _ _ _ _ _ HI ST). destruct HI as (_ & w & HS & <-).
    apply lacks_app in L1, L2. apply (stack_keeps _ _ _ _ HS); tauto.
Qed.

Theorem unchanged_without : forall fuel d l o d', positive l -> keyword_texts l ->
  (forall t, In t l -> ~ is T_INT_CURR_SYMBOL_STR t /\ ~ is T_MON_GROUPING_STR t) ->
  yyParse fuel true d l = Some (o, d') -> d' = d.
Proof.
  intros fuel d l o d' P K N H. apply (run_keeps fuel d (map coded (visible l)) (start d l) o d'); [now apply start_inv| | |exact H].
  - apply lacks_map. intros t I. apply in_significant in I. destruct (sk (coded t)) eqn:E; [|reflexivity].
    apply (sk_spec l t P K I) in E. now destruct (N t I).
  - apply lacks_map. intros t I. apply in_significant in I. destruct (gk (coded t)) eqn:E; [|reflexivity].
    apply gk_spec in E; [now destruct (N t I)|]. now apply (proj1 (Forall_forall _ _) P).
Qed.
