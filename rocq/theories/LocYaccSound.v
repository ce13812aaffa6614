(* Soundness and termination of the generated parser. *)
From Verif Require Import GoBase GoFacts LocGramSpec LocYaccModel LocYaccCert LocYaccProofs LocYaccGram.
Local Open Scope Z_scope.

(* [meansZ X w v d d']: the symbol X derives the tokens w, and the semantic actions on the way compute the value v and
   turn the definition d into d' *)
Inductive meansZ : Z -> list (Z * bytes) -> bytes -> definition -> definition -> Prop :=
| mz_term : forall t v d, 4 <= t <= 98 -> meansZ t [(t, v)] v d d
| mz_prod : forall n A r w es d d1 v0 v d2,
    prod_of gram n = Some (A, r) -> meansZs r w es d d1 ->
    (forall e es', es = e :: es' -> v0 = val e) ->
    action n (rev es) v0 d1 = Some (v, d2) -> meansZ (- A) w v d d2
with meansZs : list Z -> list (Z * bytes) -> list entry -> definition -> definition -> Prop :=
| mzs_nil : forall d, meansZs [] [] [] d d
| mzs_cons : forall X r u w e es d d1 d2,
    meansZ X u (val e) d d1 -> In (yys e) states -> meansZs r w es d1 d2 -> meansZs (X :: r) (u ++ w) (e :: es) d d2.

Scheme meansZ_mut := Induction for meansZ Sort Prop
  with meansZs_mut := Induction for meansZs Sort Prop.
Combined Scheme meansZ_both from meansZ_mut, meansZs_mut.

Inductive stk_ok (d0 : definition) : list entry -> list (Z * bytes) -> definition -> Prop :=
| so_base : forall v, stk_ok d0 [{| yys := 0; val := v |}] [] d0
| so_push : forall e e' stk w u d d',
    stk_ok d0 (e' :: stk) w d -> In (yys e') (preds (yys e)) -> In (yys e) states ->
    meansZ (chk (yys e)) u (val e) d d' -> stk_ok d0 (e :: e' :: stk) (w ++ u) d'.

Lemma check_parts :
  (forall s, In s states -> check_state gram s = true) /\
  (forall s q, In s states -> In q (preds s) -> reachable q = true /\ In q states) /\
  (forall s, In s states -> 0 <= rank s < 50).
Proof.
  split; [exact (proj1 (forallb_forall _ _) states_valid)|]. split.
  - intros s q Hs Hq. pose proof (proj1 (forallb_forall _ _) preds_valid s Hs) as H. cbv beta in H.
    pose proof (proj1 (forallb_forall _ _) H q Hq) as H'. cbv beta in H'.
    apply andb_prop in H'. destruct H' as [A C]. split; [exact A|now apply mem_In].
  - intros s Hs. pose proof (proj1 (forallb_forall _ _) ranks_valid s Hs) as H. cbv beta in H.
    apply andb_prop in H. destruct H as [A C]. apply Z.leb_le in A. apply Z.ltb_lt in C. lia.
Qed.

Lemma stk_state : forall d0 e stk w d, stk_ok d0 (e :: stk) w d -> In (yys e) states /\ reachable (yys e) = true.
Proof.
  intros d0 e stk w d H. inversion H; subst.
  - split; [left; reflexivity|reflexivity].
  - split; [assumption|]. unfold reachable. apply orb_true_iff. right.
    destruct (preds (yys e)); [contradiction|reflexivity].
Qed.

Lemma pop_spec : forall d0 rr fin e stk w d,
  stk_ok d0 (e :: stk) w d -> walk (yys e) rr fin = true ->
  forall r' w' es' d', meansZs r' w' es' d d' ->
  exists popped e' stk' w1 w2 d1,
    e :: stk = popped ++ e' :: stk' /\ length popped = length rr /\ stk_ok d0 (e' :: stk') w1 d1 /\
    w = w1 ++ w2 /\ fin (yys e') = true /\ meansZs (rev rr ++ r') (w2 ++ w') (rev popped ++ es') d1 d'.
Proof.
  induction rr as [|x rr IH]; intros fin e stk w d Hs Hw r' w' es' d' Hm; cbn [walk] in Hw.
  - exists [], e, stk, w, [], d. rewrite app_nil_r. now repeat split.
  - apply andb_prop in Hw. destruct Hw as [Hw1 Hw2]. apply andb_prop in Hw1. destruct Hw1 as [Hw0 Hw1].
    apply Z.eqb_eq in Hw1. rewrite forallb_forall in Hw2.
    pose proof (stk_state _ _ _ _ _ Hs) as [HS _].
    inversion Hs; subst.
    { discriminate Hw0. }
    assert (Hm2 : meansZs (chk (yys e) :: r') (u ++ w') (e :: es') d1 d') by (econstructor; eauto).
    destruct (IH fin e' stk0 w0 d1 H1 (Hw2 _ H2) _ _ _ _ Hm2)
      as (popped & e2 & stk' & w1 & w2 & d2 & E1 & E2 & E3 & E4 & E5 & E6).
    exists (e :: popped), e2, stk', w1, (w2 ++ u), d2.
    split; [cbn [app]; now rewrite E1|].
    split; [cbn [length]; now rewrite E2|].
    split; [exact E3|]. split; [rewrite E4; now rewrite app_assoc|]. split; [exact E5|].
    cbn [rev]. rewrite <- !app_assoc. exact E6.
Qed.

(* ---- the invariant of a parse ---- *)

Definition inv (d0 : definition) (ts : list (Z * bytes)) (c : config) : Prop :=
  good c /\ exists w, stk_ok d0 (full c) w (defs c) /\ w ++ pend c = ts.

Definition meas (c : config) : Z :=
  100 * Z.of_nat (length (pend c)) + rank_c * Z.of_nat (length (full c)) + rank (state c).

Lemma peek_range : forall c, good c -> In (peek c) tokens /\ (peek c = 1 -> pend c = []).
Proof.
  intros c [_ G]. unfold peek. destruct (pend c) as [|[a v] p] eqn:E.
  - split; [|reflexivity]. left. reflexivity.
  - inversion G; subst. cbn [fst] in *. split; [|lia].
    unfold tokens. apply in_map_iff. exists (Z.to_nat a). split; [lia|]. apply in_seq. lia.
Qed.

Lemma at_inj : forall t i x y, at_ t i = Some x -> at_ t i = Some y -> x = y.
Proof. congruence. Qed.

Lemma step_inv : forall d0 ts c, inv d0 ts c ->
  match step true c with
  | Continue c' => inv d0 ts c' /\ meas c' < meas c
  | Stop o d =>
      (o = Returns 0 /\ exists v, meansZ (-1) ts v d0 d) \/ o = SyntaxError \/ o = BadNumber
  end.
Proof.
  intros d0 ts c (G & w & HS & HT).
  destruct check_parts as (CS & CP & CR). pose proof preds_0 as C0. pose proof chk_1 as C1.
  assert (CQ : forall q, In q (preds 1) -> q = 0) by (intros q; rewrite preds_1; intros [E|[]]; now symmetry).
  pose proof (step_spec c G) as SP.
  destruct (peek_range c G) as [PT PE].
  unfold full in HS.
  destruct (stk_state _ _ _ _ _ HS) as [S1 S2]. cbn [yys] in S1, S2.
  pose proof (CS _ S1) as K. unfold check_state in K. rewrite S2 in K. cbn [negb orb] in K.
  rewrite forallb_forall in K. specialize (K _ PT).
  destruct (act_of (state c) (peek c)) as [s'|n| | |] eqn:ACT.
  - (* shift *)
    apply andb_prop in K. destruct K as [K K4]. apply andb_prop in K. destruct K as [K K3].
    apply andb_prop in K. destruct K as [K1 K2].
    apply mem_In in K1, K4. apply Z.eqb_eq in K2. apply Z.leb_le in K3.
    destruct (pend c) as [|[a v] p] eqn:P.
    { unfold peek in K3. rewrite P in K3. lia. }
    destruct (SP a v p eq_refl) as (c' & ST & F & P' & D & G' & _).
    rewrite ST.
    assert (PK : peek c = a) by (unfold peek; now rewrite P).
    assert (A98 : a <= 98).
    { destruct G as [_ G]. rewrite P in G. inversion G; subst. cbn [fst] in *. lia. }
    assert (ST' : state c' = s') by (unfold full in F; now injection F).
    split.
    + split; [exact G'|]. exists (w ++ [(a, v)]). split.
      * rewrite F. unfold full. econstructor; [exact HS| | |].
        { exact K1. }
        { exact K4. }
        { cbn [yys val]. rewrite K2, PK, D. apply mz_term. lia. }
      * rewrite P', <- app_assoc. exact HT.
    + unfold meas. rewrite F, P', P. cbn [length]. rewrite ST'.
      pose proof (CR _ K4). pose proof (CR _ S1). unfold rank_c. lia.
  - (* reduce *)
    destruct SP as (c1 & ST & B1 & B2 & B3 & B4 & G1). rewrite ST.
    unfold check_reduce in K.
    destruct (prod_of gram n) as [[A r]|] eqn:PR; [|discriminate].
    destruct (at_ yyR1 n) as [A'|] eqn:R1; [|discriminate].
    destruct (at_ yyR2 n) as [k|] eqn:R2; [|discriminate].
    apply andb_prop in K. destruct K as [K K3]. apply andb_prop in K. destruct K as [K1 K2].
    apply Z.eqb_eq in K1, K2. subst A' k.
    destruct (pop_spec d0 (rev r) _ {| yys := state c; val := yyval c |} _ w (defs c) HS K3 [] [] [] (defs c) (mzs_nil _))
      as (popped & e' & stk' & w1 & w2 & d1 & E1 & E2 & E3 & E4 & E5 & E6).
    rewrite rev_involutive, !app_nil_r in E6. rewrite rev_length in E2.
    destruct (goto_ (yys e') A) as [g|] eqn:GT; [|discriminate].
    apply andb_prop in E5. destruct E5 as [E5 K8]. apply andb_prop in E5. destruct E5 as [E5 K7].
    apply andb_prop in E5. destruct E5 as [K5 K6].
    apply mem_In in K5, K7. apply Z.eqb_eq in K6. apply Z.ltb_lt in K8.
    unfold reduce. rewrite R1, R2.
    assert (KN : (Z.of_nat (length r) <? 0) = false) by (apply Z.ltb_ge; lia).
    rewrite KN, Nat2Z.id, B1. unfold full. rewrite E1, <- E2.
    rewrite firstn_app, Nat.sub_diag, firstn_all, skipn_app, Nat.sub_diag, skipn_all. cbn [firstn skipn app].
    rewrite app_nil_r, GT.
    set (v0 := match rev popped ++ above c1 with e :: _ => val e | [] => [] end).
    destruct (action n popped v0 (defs c1)) as [[v d2]|] eqn:AC; [|now right; right].
    assert (M : meansZ (chk g) w2 v d1 d2).
    { rewrite K6. eapply mz_prod; [exact PR|exact E6| |].
      - intros e es' E. instantiate (1 := v0). unfold v0. now rewrite E.
      - rewrite rev_involutive, <- B4. exact AC. }
    split.
    + split.
      * destruct G1 as [G1 G2]. split; [exact G1|exact G2].
      * exists (w1 ++ w2). unfold full. cbn [state yyval below defs]. split.
        { econstructor; [exact E3|exact K5|exact K7|exact M]. }
        { unfold pend. cbn [look lval input]. change (pend c1) with (pend c1) in B3. unfold pend in B3 at 1. rewrite B3.
          rewrite <- E4. exact HT. }
    + unfold meas, full. cbn [state yyval below]. rewrite E1.
      unfold pend at 1. cbn [look lval input]. unfold pend in B3 at 1. rewrite B3.
      rewrite app_length. cbn [length]. rewrite E2.
      unfold rank_c in *. lia.
  - (* accept *)
    apply andb_prop in K. destruct K as [K1 K2]. apply Z.eqb_eq in K1, K2.
    rewrite SP. left. split; [reflexivity|].
    inversion HS as [v0 E0|e e' stk w0 u d d' H1 H2 H3 H4 E1 E2]; subst.
    { rewrite K1 in E0. discriminate. }
    cbn [yys val] in *. rewrite K1 in H2, H4.
    pose proof (CQ _ H2) as Q0.
    inversion H1 as [v1 E0|e2 e3 stk2 w2 u2 d2 d2' L1 L2 L3 L4 E3 E4]; subst.
    + exists (yyval c). rewrite (PE K2), app_nil_r. cbn [app]. rewrite C1 in H4. exact H4.
    + rewrite Q0, C0 in L2. contradiction.
  - rewrite SP. auto.
  - discriminate.
Qed.

(* ---- termination ---- *)

Lemma meas_pos : forall d0 ts c, inv d0 ts c -> 0 <= meas c.
Proof.
  intros d0 ts c (G & w & HS & HT). unfold full in HS. destruct (stk_state _ _ _ _ _ HS) as [S1 _]. cbn [yys] in S1.
  destruct check_parts as (_ & _ & CR). specialize (CR _ S1). unfold meas, rank_c. lia.
Qed.

Lemma run_spec : forall fuel d0 ts c, inv d0 ts c -> meas c < Z.of_nat fuel ->
  exists o d, run fuel true c = Some (o, d) /\
    ((o = Returns 0 /\ exists v, meansZ (-1) ts v d0 d) \/ o = SyntaxError \/ o = BadNumber).
Proof.
  induction fuel as [|f IH]; intros d0 ts c I M.
  { pose proof (meas_pos _ _ _ I). lia. }
  pose proof (step_inv _ _ _ I) as S1. cbn [run]. destruct (step true c) as [c'|o d].
  - destruct S1 as [I' M']. apply (IH d0 ts c' I'). lia.
  - exists o, d. now split.
Qed.

Lemma run_false : forall fuel c r, run fuel true c = Some r ->
  run fuel false c = Some r \/ exists d, run fuel false c = Some (Waits, d).
Proof.
  induction fuel as [|f IH]; intros c r H; [discriminate|].
  cbn [run] in *. destruct (step_false c) as [E|E]; rewrite E; [right; eauto|].
  destruct (step true c) as [c'|o d]; [now apply IH|now left].
Qed.

Definition well_typed (l : list token) : Prop := Forall (fun t => 0 < t_type t) l.

Lemma start_inv : forall d l, well_typed l -> inv d (map coded (visible l)) (start d l).
Proof.
  intros d l H. split.
  - split; [exact H|]. unfold pend, start. cbn [look input app].
    unfold well_typed in H. rewrite Forall_forall in H. apply Forall_forall. intros p Hp.
    apply in_map_iff in Hp. destruct Hp as (t & <- & Ht). unfold visible in Ht. apply filter_In in Ht.
    cbn [coded fst]. apply translate_range, H, Ht.
  - exists []. split; [|reflexivity]. apply so_base.
Qed.

Lemma visible_le : forall l, (length (visible l) <= length l)%nat.
Proof. induction l as [|t l IH]; [auto|]. unfold visible in *. cbn [filter]. destruct (negb (is_ws t)); cbn [length]; lia. Qed.

Lemma parse_spec : forall d l, well_typed l ->
  exists o d', yyParse (100 * S (length l)) true d l = Some (o, d') /\
    ((o = Returns 0 /\ exists v, meansZ (-1) (map coded (visible l)) v d d') \/ o = SyntaxError \/ o = BadNumber).
Proof.
  intros d l H. apply run_spec; [now apply start_inv|].
  unfold meas, pend, full, start. cbn [state look input app below length]. rewrite map_length.
  pose proof (visible_le l). change (rank 0) with (nth 0 rank_tab 0).
  assert (R : nth 0 rank_tab 0 < 50) by (vm_compute; reflexivity). unfold rank_c. lia.
Qed.

Lemma run_more : forall fuel more closed c r, run fuel closed c = Some r -> run (fuel + more) closed c = Some r.
Proof.
  induction fuel as [|f IH]; intros more closed c r H; [discriminate|].
  cbn [run Nat.add] in *. destruct (step closed c); [now apply IH|exact H].
Qed.

Lemma run_det : forall f1 f2 closed c r1 r2, run f1 closed c = Some r1 -> run f2 closed c = Some r2 -> r1 = r2.
Proof.
  intros f1 f2 closed c r1 r2 H1 H2.
  apply (run_more _ f2) in H1. apply (run_more _ f1) in H2. rewrite Nat.add_comm in H2. congruence.
Qed.

(* ---- from codes back to the grammar ---- *)

Lemma sym_code_inj : forall X Y, sym_code X = sym_code Y -> X = Y.
Proof.
  intros [t|A] [u|A'] E; cbn [sym_code] in E.
  - f_equal. now apply term_code_inj.
  - pose proof (term_code_range t). pose proof (nt_code_range A'). lia.
  - pose proof (term_code_range u). pose proof (nt_code_range A). lia.
  - f_equal. apply nt_code_inj. lia.
Qed.

Lemma map_inj : forall (A C : Type) (f : A -> C), (forall x y, f x = f y -> x = y) ->
  forall l l', map f l = map f l' -> l = l'.
Proof.
  intros A C f I. induction l as [|x l IH]; intros [|y l'] E; try discriminate; [reflexivity|].
  cbn [map] in E. injection E as E1 E2. f_equal; [now apply I|now apply IH].
Qed.

Lemma prod_of_grammar : forall n A r, prod_of gram n = Some (A, r) ->
  exists A' r', In (A', r') grammar /\ A = nt_code A' /\ r = map sym_code r'.
Proof.
  intros n A r H. unfold prod_of in H. destruct (n <=? 0); [discriminate|].
  apply nth_error_In in H. unfold gram in H. apply in_map_iff in H.
  destruct H as ((A' & r') & E & I). injection E as <- <-. now exists A', r'.
Qed.

Lemma means_derives :
  (forall X w v d d', meansZ X w v d d' ->
     exists X' w', X = sym_code X' /\ map fst w = map term_code w' /\ derives X' w') /\
  (forall r w es d d', meansZs r w es d d' ->
     exists r' w', r = map sym_code r' /\ map fst w = map term_code w' /\ derives_all r' w').
Proof.
  apply meansZ_both.
  - intros t v d H. destruct (decode_term_range t H) as (t' & E).
    exists (Tm t'), [t']. cbn [sym_code map fst]. rewrite E. repeat split. constructor.
  - intros n A r w es d d1 v0 v d2 P M (r' & w' & E1 & E2 & D) _ _.
    destruct (prod_of_grammar _ _ _ P) as (A' & r2 & I & -> & ->).
    apply (map_inj _ _ _ sym_code_inj) in E1. subst r2.
    exists (Nt A'), w'. split; [reflexivity|]. split; [exact E2|]. econstructor; eauto.
  - intros d. exists [], []. repeat split. constructor.
  - intros X r u w e es d d1 d2 _ (X' & u' & E1 & E2 & D1) _ _ (r' & w' & E3 & E4 & D2).
    exists (X' :: r'), (u' ++ w'). cbn [map]. rewrite E1, E3, !map_app, E2, E4.
    repeat split. now constructor.
Qed.
