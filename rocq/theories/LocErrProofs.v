(* Proofs for C151: the message of a syntax error. *)
From Verif Require Import GoBase GoFacts LocGramSpec LocYaccModel LocYaccCert LocYaccProofs LocYaccGram LocYaccSound LocYaccComplete
  LocParseSpec LocYaccFinal LocHang LocViaSpec LocViaProofs LocErrModel LocErrSpec.
Local Open Scope Z_scope.

(* ---- facts about the tables, checked by computation ---- *)

Definition is_shift (a : act) : bool := match a with AShift _ => true | _ => false end.
Definition terminals : list Z := map Z.of_nat (seq 4 95).
Definition shifts (s : Z) : list Z := filter (fun b => is_shift (act_of s b)) terminals.
Definition errs (s : Z) : bool := match at_ yyDef s with Some n => (n =? 0) || (n =? -2) | None => false end.
Definition cut4 (sh : list Z) : list Z := if (length sh <=? 4)%nat then sh else [].
Definition listed (s : Z) : list Z := cut4 (shifts s).

(* terminals that can be shifted in a state from which the parser gets to this one by reductions alone (computed outside
   Coq, checked in owes_valid) *)
Definition owes_tab : list (list Z) := [
  []; [20; 36; 46; 61; 64; 85]; []; []; []; []; []; []; []; []; []; []; []; []; []; []; []; []; []; []; []; []; [];
  []; []; []; []; []; []; []; []; []; []; []; []; []; []; []; []; []; []; []; []; []; []; []; []; []; []; []; []; [];
  []; []; []; []; []; []; []; []; []; []; []; []; []; []; []; []; []; []; []; []; []; []; []; []; []; []; []; []; [];
  []; []; []; []; []; []; []; []; []; []; []; []; []; []; []; []; []; []; []; []; []; []; []; []; []; []; []; []; [];
  []; []; []; []; []; []; []; []; []; []; []; []; []; []; []; []; []; []; []; []; []; []; []; []; []; []; []; []; [];
  []; []; []; []; []; []; []; []; []; []; []; []; []; []; []; []; []; []; []; []; []; []; []; []; []; [97]; []; [];
  []; []; []; []; []; []; []; []; []; []; []; []; []; []; []; []; []; []; []; []; []; []; []; []; []; []; []; []; [];
  []; []; []; []; []; []; []; []; []; []; []; []; []; []; []; []; []; []; []; []; []; []; []; []; []; []; []; [];
  [5; 7; 9; 10; 11; 12; 14; 16; 44; 94]; []; [5; 7; 9; 10; 11; 12; 14; 16; 44; 94]; []; []; []; []; []; []; []; [];
  []; []; []; []; []; []; []; []; []; []; []; []; []; []; []; []; []; []; []; []; []; []; []; []; []; []; []; []; [];
  []; []; []; []; []; []; []; []; []; []; []; []; []; []; []; []; []; []; []; []; []; []; []; []; []; []; []; []; [];
  []; []; []; []; []; []; []; []; []; []; []; []; []; []; []; []; []; []; []; []; []; []; []
].
Definition owes (s : Z) : list Z := nth (Z.to_nat s) owes_tab [].

Definition owes_check (s : Z) : bool :=
  match at_ yyDef s with
  | Some n =>
      match prod_of gram n with
      | Some (A, r) => let so := shifts s ++ owes s in
          downs s (length r) (fun x => match goto_ x A with Some g => forallb (fun b => mem b (owes g)) so | None => true end)
      | None => true
      end
  | None => true
  end.
Lemma owes_valid : forallb owes_check states = true.
Proof. vm_compute. reflexivity. Qed.

(* what a state does without a shift does not depend on the token, except that the end may be accepted *)
Definition act_check (s : Z) : bool :=
  forallb (fun a => match act_of s a with
    | AReduce n => match at_ yyDef s with Some m => (m =? n) && (1 <=? n) | None => false end
    | AError | AAccept => errs s
    | _ => true
    end) tokens &&
  (negb (errs s) || match at_ yyPact s, at_ yyDef s with Some p, Some n => negb ((p <=? yyFlag) && negb (n =? -2)) | _, _ => false end).
Lemma act_valid : forallb act_check states = true.
Proof. vm_compute. reflexivity. Qed.

Definition same (l m : list Z) : bool := if list_eq_dec Z.eq_dec l m then true else false.
Lemma same_eq : forall l m, same l m = true -> l = m.
Proof. intros l m. unfold same. destruct (list_eq_dec Z.eq_dec l m); congruence. Qed.
Definition list_ok (s : Z) (sh ow : list Z) (e : option search) : bool :=
  match e with
  | Some (Found l) => same l (cut4 sh)
  | Some GivesUp => same [] (cut4 sh)
  | None => false
  end
  && (match cut4 sh with [] => (s =? 1) || (5 <=? length sh)%nat | _ => true end)
  && (match cut4 sh with [] => true | l => same l [16; 95] || forallb (fun b => mem b l) ow end)
  && (negb (mem 16 (sh ++ ow) && mem 97 (sh ++ ow)) || same (cut4 sh) [16; 95]).
Definition list_check (s : Z) : bool := negb (errs s) || list_ok s (shifts s) (owes s) (expected_tokens s).
Lemma list_valid : forallb list_check states = true.
Proof. vm_compute. reflexivity. Qed.

Lemma terminals_in : forall b, In b terminals <-> 4 <= b <= 98.
Proof.
  intros b. unfold terminals. rewrite in_map_iff. split.
  - intros (n & <- & I). apply in_seq in I. lia.
  - intros H. exists (Z.to_nat b). split; [lia|]. apply in_seq. lia.
Qed.
Lemma terminals_tokens : forall b, In b terminals -> In b tokens.
Proof. intros b H. apply terminals_in in H. unfold tokens. apply in_map_iff. exists (Z.to_nat b). split; [lia|]. apply in_seq. lia. Qed.
Lemma shifts_in : forall s b, In b (shifts s) <-> In b terminals /\ exists s', act_of s b = AShift s'.
Proof.
  intros s b. unfold shifts. rewrite filter_In. split; intros [H1 H2]; (split; [exact H1|]).
  - destruct (act_of s b) as [s'| | | |]; try discriminate. now exists s'.
  - destruct H2 as (s' & ->). reflexivity.
Qed.
Lemma term_code_range : forall x, In (term_code x) terminals.
Proof. intros x. apply terminals_in. assert (C : (4 <=? term_code x) && (term_code x <=? 98) = true) by (destruct x; vm_compute; reflexivity).
  apply andb_prop in C. destruct C as [C1 C2]. apply Z.leb_le in C1, C2. lia. Qed.

Lemma pick : forall a b c : bool, negb (a && b) || c = true -> a = true -> b = true -> c = true.
Proof. intros [] [] []; auto. Qed.

Lemma list_ok_parts : forall s sh ow e, list_ok s sh ow e = true ->
  (match e with Some (Found l) => l = cut4 sh | Some GivesUp => [] = cut4 sh | None => False end) /\
  (cut4 sh = [] -> s = 1 \/ (5 <= length sh)%nat) /\
  (cut4 sh <> [] -> cut4 sh = [16; 95] \/ incl ow (cut4 sh)) /\
  (In 16 (sh ++ ow) -> In 97 (sh ++ ow) -> cut4 sh = [16; 95]).
Proof.
  intros s sh ow e K. unfold list_ok in K.
  apply andb_prop in K. destruct K as [K K4]. apply andb_prop in K. destruct K as [K K3]. apply andb_prop in K. destruct K as [K1 K2].
  split; [|split; [|split]].
  - destruct e as [[|l]|]; [now apply same_eq|now apply same_eq|discriminate].
  - intros L. rewrite L in K2. apply orb_prop in K2. destruct K2 as [K2|K2]; [left; now apply Z.eqb_eq|right; now apply Nat.leb_le].
  - intros L. destruct (cut4 sh) as [|b l]; [now elim L|]. apply orb_prop in K3. destruct K3 as [K3|K3]; [left; now apply same_eq|right].
    intros x I. rewrite forallb_forall in K3. apply mem_In. now apply K3.
  - intros I J. apply mem_In in I, J. apply same_eq. exact (pick _ _ _ K4 I J).
Qed.

Section Facts.
Variable s : Z.
Hypothesis Hs : In s states.

Lemma act_fact : forall a, In a tokens -> match act_of s a with
    | AReduce n => at_ yyDef s = Some n /\ 1 <= n
    | AError | AAccept => errs s = true
    | _ => True
    end.
Proof.
  intros a I. pose proof (proj1 (forallb_forall _ _) act_valid s Hs) as K. unfold act_check in K. apply andb_prop in K. destruct K as [K _].
  pose proof (proj1 (forallb_forall _ _) K a I) as Q. cbv beta in Q. destruct (act_of s a) as [s'|n| | |]; auto.
  destruct (at_ yyDef s) as [m|]; [|discriminate]. apply andb_prop in Q. destruct Q as [Q1 Q2]. apply Z.eqb_eq in Q1. apply Z.leb_le in Q2. subst. now split.
Qed.
(* with another token the state shifts or does the same *)
Lemma act_other : forall a b n, In a tokens -> In b terminals -> reachable s = true -> act_of s a = AReduce n -> act_of s b = AReduce n \/ exists s', act_of s b = AShift s'.
Proof.
  intros a b n I J R E. pose proof (act_fact a I) as F. rewrite E in F. destruct F as [F1 F2].
  pose proof (act_fact b (terminals_tokens _ J)) as G. destruct check_parts as (CS & _). pose proof (CS s Hs) as K. unfold check_state in K.
  rewrite R in K. cbn [negb orb] in K. rewrite forallb_forall in K. specialize (K b (terminals_tokens _ J)).
  destruct (act_of s b) as [s'|m| | |]; [right; eauto|left; destruct G as [G _]; congruence| | |discriminate].
  - exfalso. unfold errs in G. rewrite F1 in G. apply orb_prop in G. destruct G as [G|G]; apply Z.eqb_eq in G; lia.
  - exfalso. unfold errs in G. rewrite F1 in G. apply orb_prop in G. destruct G as [G|G]; apply Z.eqb_eq in G; lia.
Qed.
(* a state that reports an error for one token shifts the others or reports an error for them *)
Lemma act_error : forall a b, In a tokens -> In b terminals -> reachable s = true -> act_of s a = AError -> act_of s b = AError \/ In b (shifts s).
Proof.
  intros a b I J R E. pose proof (act_fact a I) as F. rewrite E in F.
  pose proof (act_fact b (terminals_tokens _ J)) as G. destruct check_parts as (CS & _). pose proof (CS s Hs) as K. unfold check_state in K.
  rewrite R in K. cbn [negb orb] in K. rewrite forallb_forall in K. specialize (K b (terminals_tokens _ J)).
  destruct (act_of s b) as [s'|m| | |] eqn:B0; [right; apply shifts_in; eauto| | |now left|discriminate].
  - exfalso. destruct G as [G1 G2]. unfold errs in F. rewrite G1 in F. apply orb_prop in F. destruct F as [F|F]; apply Z.eqb_eq in F; lia.
  - exfalso. apply andb_prop in K. destruct K as [_ K]. apply Z.eqb_eq in K. apply terminals_in in J. lia.
Qed.
Lemma err_looks : errs s = true -> exists p n, at_ yyPact s = Some p /\ at_ yyDef s = Some n /\ (p <=? yyFlag) && negb (n =? -2) = false.
Proof.
  intros E. pose proof (proj1 (forallb_forall _ _) act_valid s Hs) as K. unfold act_check in K. apply andb_prop in K. destruct K as [_ K].
  rewrite E in K. cbn [negb orb] in K. destruct (at_ yyPact s) as [p|]; [|discriminate]. destruct (at_ yyDef s) as [n|]; [|discriminate].
  exists p, n. apply negb_true_iff in K. now repeat split.
Qed.
Lemma list_parts : errs s = true -> list_ok s (shifts s) (owes s) (expected_tokens s) = true.
Proof.
  intros E. pose proof (proj1 (forallb_forall _ _) list_valid s Hs) as K. unfold list_check in K. rewrite E in K. exact K.
Qed.
Lemma list_message : errs s = true -> forall a,
  yyErrorMessage true s a = Some (B "syntax error: unexpected " ++ yyTokname a ++ listed_names true (listed s)).
Proof.
  intros E a. destruct (list_ok_parts _ _ _ _ (list_parts E)) as (K & _). unfold yyErrorMessage, listed. cbn [negb].
  destruct (expected_tokens s) as [[|l]|]; [| |contradiction]; rewrite <- K; cbn [listed_names];
      [now rewrite app_nil_r|now rewrite <- app_assoc].
Qed.
Lemma list_none : errs s = true -> listed s = [] -> s = 1 \/ (5 <= length (shifts s))%nat.
Proof. intros E. exact (proj1 (proj2 (list_ok_parts _ _ _ _ (list_parts E)))). Qed.
Lemma list_whole : errs s = true -> listed s <> [] -> listed s = [16; 95] \/ incl (owes s) (listed s).
Proof. intros E. exact (proj1 (proj2 (proj2 (list_ok_parts _ _ _ _ (list_parts E))))). Qed.
Lemma list_misses : errs s = true -> In 16 (shifts s ++ owes s) -> In 97 (shifts s ++ owes s) -> listed s = [16; 95].
Proof. intros E. exact (proj2 (proj2 (proj2 (list_ok_parts _ _ _ _ (list_parts E))))). Qed.
Lemma listed_shifts : listed s <> [] -> listed s = shifts s.
Proof. unfold listed, cut4. destruct (length (shifts s) <=? 4)%nat; [reflexivity|]. intros H. now elim H. Qed.
Lemma listed_incl : incl (listed s) (shifts s).
Proof. unfold listed, cut4. destruct (length (shifts s) <=? 4)%nat; [apply incl_refl|]. intros x []. Qed.
Lemma listed_four : (length (listed s) <= 4)%nat.
Proof. unfold listed, cut4. destruct (length (shifts s) <=? 4)%nat eqn:L; [now apply Nat.leb_le|cbn; lia]. Qed.
End Facts.

(* ---- the configuration in which the error is found ---- *)

Lemma inv_state : forall d0 ts c, inv d0 ts c -> In (state c) states /\ reachable (state c) = true.
Proof. intros d0 ts c (_ & w & HS & _). unfold full in HS. exact (stk_state _ _ _ _ _ HS). Qed.

Lemma step_error : forall d0 ts c d, inv d0 ts c -> step true c = Stop SyntaxError d -> act_of (state c) (peek c) = AError.
Proof.
  intros d0 ts c d I H. destruct (inv_state _ _ _ I) as [S1 S2]. pose proof I as (G & _).
  pose proof (step_spec c G) as SP. destruct (peek_range c G) as [PT _].
  destruct check_parts as (CS & _). pose proof (CS _ S1) as K. unfold check_state in K. rewrite S2 in K. cbn [negb orb] in K.
  rewrite forallb_forall in K. specialize (K _ PT). destruct (act_of (state c) (peek c)) as [s'|n| | |] eqn:ACT.
  - apply andb_prop in K. destruct K as [K _]. apply andb_prop in K. destruct K as [_ K]. apply Z.leb_le in K.
    destruct (pend c) as [|[a v] p] eqn:P; [unfold peek in K; rewrite P in K; lia|].
    destruct (SP a v p eq_refl) as (c' & ST & _). congruence.
  - exfalso. destruct SP as (c1 & ST & _). rewrite ST in H. unfold reduce in H.
    destruct (at_ yyR2 n) as [k|]; [|discriminate]. destruct (at_ yyR1 n) as [A|]; [|discriminate]. destruct (k <? 0); [discriminate|].
    destruct (skipn _ _) as [|e r]; [discriminate|]. destruct (goto_ (yys e) A); [|discriminate]. destruct (action _ _ _ _) as [[v d']|]; discriminate.
  - congruence.
  - reflexivity.
  - discriminate.
Qed.

Lemma yytoken_peek : forall d0 ts c closed d, inv d0 ts c -> step closed c = Stop SyntaxError d -> errs (state c) = true -> yytoken closed c = peek c.
Proof.
  intros d0 ts c closed d I H E. destruct (inv_state _ _ _ I) as [S1 _]. pose proof I as (G & _). unfold yytoken.
  destruct (look c) as [t|] eqn:L; [unfold peek, pend; now rewrite L|].
  destruct (err_looks _ S1 E) as (p & n & E1 & E2 & E3). rewrite E1, E2, E3.
  destruct (read_spec c G) as (c' & R & _). destruct closed; [now rewrite R|].
  destruct (read_false c) as [F|F]; [|now rewrite F, R]. exfalso.
  unfold step in H. cbv zeta in H. set (c0 := {| state := state c |}) in H. change (state c0) with (state c) in H. rewrite E1 in H.
  assert (F0 : read false c0 = None).
  { unfold read in *. change (look c0) with (look c). change (input c0) with (input c). destruct (look c); [discriminate|]. destruct (next_token (input c)) as [[? ?]|]; [discriminate|reflexivity]. }
  destruct (p <=? yyFlag).
  - cbn [andb] in E3. apply negb_false_iff in E3. unfold default_action in H. change (state c0) with (state c) in H. rewrite E2, E3, F0 in H. discriminate.
  - rewrite F0 in H. discriminate.
Qed.


Lemma pend_nil : forall c, pend c = [] -> look c = None /\ next_token (input c) = None.
Proof.
  intros c H. unfold pend in H. destruct (look c); [discriminate|]. split; [reflexivity|].
  pose proof (next_token_visible (input c)) as V. destruct (next_token (input c)) as [[t r]|]; [|reflexivity].
  destruct V as [V _]. rewrite V in H. discriminate.
Qed.
Lemma step_asks : forall c d, In (state c) states -> errs (state c) = true -> pend c = [] -> step false c <> Stop SyntaxError d.
Proof.
  intros c d S1 E P H. destruct (pend_nil c P) as [L N]. destruct (err_looks _ S1 E) as (p & n & E1 & E2 & E3).
  unfold step in H. cbv zeta in H. cbn [state] in H. rewrite E1 in H.
  unfold default_action, read in H. cbn [state look input] in H. rewrite L, N, E2 in H.
  destruct (p <=? yyFlag); [|discriminate]. cbn [andb] in E3. apply negb_false_iff in E3. rewrite E3 in H. discriminate.
Qed.

Lemma reported_at : forall f v closed d0 ts c d, inv d0 ts c -> run f closed c = Some (SyntaxError, d) ->
  exists ce d1, steps c ce /\ inv d0 ts ce /\ step true ce = Stop SyntaxError d1 /\ act_of (state ce) (peek ce) = AError /\ errs (state ce) = true /\
    reported v f closed c = yyErrorMessage v (state ce) (peek ce) /\ (closed = false -> pend ce <> []).
Proof.
  induction f as [|f IH]; intros v closed d0 ts c d I H; [discriminate|]. cbn [run reported] in *.
  assert (Q : step closed c = step true c \/ exists d', step closed c = Stop Waits d').
  { destruct closed; [now left|]. destruct (step_false c) as [Q|Q]; [right; eauto|now left]. }
  destruct (step closed c) as [c'|o d'] eqn:E.
  - destruct Q as [Q|(d' & Q)]; [|discriminate]. pose proof (step_inv _ _ _ I) as SI. rewrite <- Q in SI. destruct SI as [I' _].
    destruct (IH v closed d0 ts c' d I' H) as (ce & d1 & H1 & H2). exists ce, d1. split; [econstructor; eauto|exact H2].
  - injection H as -> ->. destruct Q as [Q|(d' & Q)]; [|discriminate].
    destruct (inv_state _ _ _ I) as [S1 S2]. pose proof (step_error _ _ _ _ I (eq_sym Q)) as A.
    assert (Er : errs (state c) = true).
    { pose proof (act_fact _ S1 (peek c) (proj1 (peek_range c (proj1 I)))) as F. now rewrite A in F. }
    exists c, d. split; [constructor|]. split; [exact I|]. split; [now symmetry|]. split; [exact A|]. split; [exact Er|].
    split; [f_equal; exact (yytoken_peek _ _ _ _ _ I E Er)|].
    intros -> P. exact (step_asks c d S1 Er P E).
Qed.

(* ---- the message does not depend on the texts of the tokens ---- *)

Lemma yytoken_alike : forall cl c c', alike c c' -> yytoken cl c = yytoken cl c'.
Proof.
  intros cl c c' A. pose proof (read_alike cl c c' A) as R. destruct A as (E1 & E2 & E3 & E4). unfold yytoken. rewrite <- E1, <- E3.
  destruct (look c); [reflexivity|]. destruct (at_ yyPact (state c)); [|reflexivity]. destruct (at_ yyDef (state c)); [|reflexivity].
  destruct (_ && _); [reflexivity|]. destruct (read cl c) as [[t ?]|], (read cl c') as [[t' ?]|]; try contradiction; [|reflexivity]. now destruct R.
Qed.
Lemma reported_alike : forall f v cl d0 ts c c' d, alike c c' -> inv d0 ts c' -> num_ok ts -> run f cl c = Some (SyntaxError, d) ->
  reported v f cl c = reported v f cl c'.
Proof.
  induction f as [|f IH]; intros v cl d0 ts c c' d E I N H; [discriminate|]. cbn [run reported] in *.
  assert (Q : step cl c' = step true c' \/ exists d', step cl c' = Stop Waits d').
  { destruct cl; [now left|]. destruct (step_false c') as [Q|Q]; [right; eauto|now left]. }
  pose proof (step_alike cl _ _ E) as SA. pose proof (step_inv _ _ _ I) as SI. pose proof (fun d => step_no_bad d0 ts c' d I N) as NB.
  destruct (step cl c) as [c1|o1 d1]; destruct (step cl c') as [c1'|o1' d1']; cbn [alike_result] in SA.
  - destruct Q as [Q|(d' & Q)]; [|discriminate]. rewrite <- Q in SI. exact (IH v cl d0 ts c1 c1' d SA (proj1 SI) N H).
  - exfalso. subst o1'. destruct Q as [Q|(d' & Q)]; [|discriminate]. exact (NB _ (eq_sym Q)).
  - exfalso. subst o1. discriminate H.
  - injection H as -> ->. destruct SA as [SA|<-]; [discriminate|]. rewrite (yytoken_alike _ _ _ E), (proj1 E). reflexivity.
Qed.

(* ---- what the parser could go on with ---- *)

Lemma means_definition : forall ts v d d' l, positive l -> ts = map coded (visible l) -> meansZ (-1) ts v d d' -> exists w, spells l w /\ locale_definition w.
Proof.
  intros ts v d d' l P -> M. destruct (proj1 means_derives _ _ _ _ _ M) as (X & w & EX & EW & D). exists w.
  split; [apply codes_spell; [now apply significant_positive|exact EW]|].
  change (-1) with (sym_code N_locale_definition) in EX. apply sym_code_inj in EX. now subst X.
Qed.

(* the configuration with other tokens to come *)
Definition instead (m : list token) (c : config) : config :=
  {| state := state c; yyval := yyval c; below := below c; above := above c; look := None; lval := lval c; input := m; defs := defs c |}.
Lemma instead_pend : forall m c, Forall plain m -> pend (instead m c) = map coded m.
Proof. intros m c M. unfold pend, instead. cbn [look input]. now rewrite (plain_visible m M). Qed.
Lemma plain_positive : forall m, Forall plain m -> positive m.
Proof. intros m M. apply Forall_forall. intros t I. rewrite Forall_forall in M. exact (proj2 (plain_coded t (M t I))). Qed.
Lemma plain_num : forall m, Forall plain m -> num_ok (map coded m).
Proof.
  intros m M v I. apply in_map_iff in I. destruct I as (t & E & I). injection E as _ <-. rewrite Forall_forall in M. now apply plain_number, M.
Qed.
Lemma num_ok_join : forall u w, num_ok u -> num_ok w -> num_ok (u ++ w).
Proof. intros u w H1 H2 v I. apply in_app_or in I. destruct I; auto. Qed.
Lemma instead_inv : forall d0 c w m, stk_ok d0 (full c) w (defs c) -> Forall plain m -> inv d0 (w ++ map coded m) (instead m c).
Proof.
  intros d0 c w m K M. split.
  - split; [exact (plain_positive m M)|]. rewrite (instead_pend m c M). apply Forall_forall. intros q I. apply in_map_iff in I.
    destruct I as (t & <- & I). cbn [coded fst]. apply translate_range. exact (proj1 (Forall_forall _ _) (plain_positive m M) t I).
  - exists w. split; [exact K|]. now rewrite (instead_pend m c M).
Qed.
Lemma steps_means : forall d0 ts c c' d, inv d0 ts c -> steps c c' -> step true c' = Stop (Returns 0) d -> exists v, meansZ (-1) ts v d0 d.
Proof.
  intros d0 ts c c' d I S1 S2. pose proof (step_inv _ _ _ (steps_inv _ _ _ _ S1 I)) as Q. rewrite S2 in Q.
  destruct Q as [[_ Q]|[Q|Q]]; [exact Q|discriminate|discriminate].
Qed.
(* some tokens complete what is on the stack *)
Lemma completes : forall d0 c w p, stk_ok d0 (full c) w (defs c) -> positive p -> map coded (visible p) = w -> num_ok w -> begins_definition p.
Proof.
  intros d0 c w p K P E N. pose proof (stk_path _ _ _ _ K) as PA.
  destruct (finish _ _ PA (Nat.lt_succ_diag_r _)) as (m & M1 & _ & M3).
  pose proof (instead_inv d0 c w m K M1) as I.
  destruct (M3 _ _ _ I (num_ok_join _ _ N (plain_num m M1)) eq_refl (instead_pend m c M1)) as (c2 & d2 & Q1 & Q2).
  destruct (steps_means _ _ _ _ _ I Q1 Q2) as (v & M).
  assert (EQ : w ++ map coded m = map coded (visible (p ++ m))) by (rewrite visible_app, map_app, E, (plain_visible m M1); reflexivity).
  assert (PP : positive (p ++ m)) by (apply Forall_app; split; [exact P|exact (plain_positive m M1)]).
  destruct (means_definition _ _ _ _ _ PP EQ M) as (u & U1 & U2).
  apply spells_app in U1. destruct U1 as (u1 & u2 & -> & U3 & _). now exists u1, u2.
Qed.
(* and so for a token that can be shifted, and more *)
Lemma shift_follows : forall d0 c w p x, stk_ok d0 (full c) w (defs c) -> positive p -> map coded (visible p) = w -> num_ok w ->
  In (term_code x) (shifts (state c)) -> may_follow p x.
Proof.
  intros d0 c w p x K P E N I. apply shifts_in in I. destruct I as [I (s' & A)].
  assert (PL : plain (of_term x)) by now exists x.
  assert (ST : forall m, Forall plain m -> exists c', step true (instead (of_term x :: m) c) = Continue c' /\
    full c' = {| yys := s'; val := B "1" |} :: full c /\ pend c' = map coded m /\ inv d0 (w ++ map coded (of_term x :: m)) c').
  { intros m M. assert (M' : Forall plain (of_term x :: m)) by now constructor.
    pose proof (instead_inv d0 c w _ K M') as I'. pose proof (step_spec _ (proj1 I')) as SP. pose proof (step_inv _ _ _ I') as SI.
    pose proof (instead_pend _ c M') as PE.
    assert (PK : peek (instead (of_term x :: m) c) = term_code x) by (unfold peek; rewrite PE; reflexivity).
    rewrite PK in SP. change (state (instead (of_term x :: m) c)) with (state c) in SP. rewrite A in SP.
    cbn [map] in PE. destruct (SP _ _ _ PE) as (c' & S1 & S2 & S3 & _). rewrite S1 in SI. exists c'.
    split; [exact S1|]. split; [exact S2|]. split; [exact S3|exact (proj1 SI)]. }
  destruct (ST [] (Forall_nil _)) as (c0 & _ & F0 & _ & (_ & w0 & K0 & _)). pose proof (stk_path _ _ _ _ K0) as PA. rewrite F0 in PA.
  destruct (finish _ _ PA (Nat.lt_succ_diag_r _)) as (m & M1 & _ & M3).
  destruct (ST m M1) as (c' & S1 & F & PE & I').
  assert (M' : Forall plain (of_term x :: m)) by now constructor.
  destruct (M3 _ _ _ I' (num_ok_join _ _ N (plain_num _ M'))) as (c2 & d2 & Q1 & Q2).
  { now rewrite F. }
  { exact PE. }
  destruct (steps_means _ _ _ _ _ I' Q1 Q2) as (v & M).
  assert (EQ : w ++ map coded (of_term x :: m) = map coded (visible (p ++ of_term x :: m))) by (rewrite visible_app, map_app, E, (plain_visible _ M'); reflexivity).
  assert (PP : positive (p ++ of_term x :: m)) by (apply Forall_app; split; [exact P|exact (plain_positive _ M')]).
  destruct (means_definition _ _ _ _ _ PP EQ M) as (u & U1 & U2).
  apply spells_app in U1. destruct U1 as (u1 & u2 & -> & U3 & U4). unfold spells in U4.
  change (significant (of_term x :: m)) with (visible (of_term x :: m)) in U4. rewrite (plain_visible _ M') in U4. inversion U4 as [|y t u3 ? Y1 Y2]; subst.
  assert (y = x).
  { unfold is in Y1. cbn [of_term t_type] in Y1. assert (TC : term_code x = term_code y) by (unfold term_code; now rewrite Y1).
    symmetry. apply (sym_code_inj (Tm x) (Tm y)) in TC. now injection TC. }
  subst y. now exists u1, u3.
Qed.

(* ---- rounds without a shift ---- *)

Lemma step_kind : forall d0 ts c c', inv d0 ts c -> num_ok ts -> step true c = Continue c' ->
  (exists s' a v p, act_of (state c) (peek c) = AShift s' /\ pend c = (a, v) :: p /\ pend c' = p /\ full c' = {| yys := s'; val := v |} :: full c) \/
  (exists n A r popped e' stk' g v, act_of (state c) (peek c) = AReduce n /\ prod_of gram n = Some (A, r) /\ full c = popped ++ e' :: stk' /\
     length popped = length r /\ goto_ (yys e') A = Some g /\ full c' = {| yys := g; val := v |} :: e' :: stk' /\ pend c' = pend c).
Proof.
  intros d0 ts c c' I N H. pose proof I as (G & _). destruct (inv_state _ _ _ I) as [S1 S2].
  pose proof (step_spec c G) as SP. destruct (peek_range c G) as [PT _].
  destruct check_parts as (CS & _). pose proof (CS _ S1) as K. unfold check_state in K. rewrite S2 in K. cbn [negb orb] in K.
  rewrite forallb_forall in K. specialize (K _ PT). destruct (act_of (state c) (peek c)) as [s'|n| | |] eqn:ACT.
  - left. apply andb_prop in K. destruct K as [K _]. apply andb_prop in K. destruct K as [_ K]. apply Z.leb_le in K.
    destruct (pend c) as [|[a v] p] eqn:P; [unfold peek in K; rewrite P in K; lia|].
    destruct (SP a v p eq_refl) as (c1 & ST & F & PE & _). rewrite H in ST. injection ST as <-. exists s', a, v, p. now repeat split.
  - right. unfold check_reduce in K. destruct (prod_of gram n) as [[A r]|] eqn:PR; [|discriminate].
    destruct (reduce_step d0 ts c n A r I N ACT PR) as (c1 & popped & e' & stk' & g & v & ST & F1 & L & GT & _ & _ & F2 & PE).
    rewrite H in ST. injection ST as <-. exists n, A, r, popped, e', stk', g, v. now repeat split.
  - congruence.
  - congruence.
  - discriminate.
Qed.
Lemma steps_pend : forall c ce, steps c ce -> forall d0 ts, inv d0 ts c -> num_ok ts -> (length (pend ce) <= length (pend c))%nat.
Proof.
  intros c ce H. induction H as [c|c c1 ce E _ IH]; intros d0 ts I N; [lia|].
  pose proof (step_inv _ _ _ I) as SI. rewrite E in SI. specialize (IH _ _ (proj1 SI) N).
  destruct (step_kind _ _ _ _ I N E) as [(s' & a & v & p & _ & P1 & P2 & _)|(n & A & r & po & e' & stk' & g & v & _ & _ & _ & _ & _ & _ & P2)].
  - rewrite P1. rewrite P2 in IH. cbn [length]. lia.
  - now rewrite P2 in IH.
Qed.
Lemma full_path : forall d0 ts c, inv d0 ts c -> path (state c :: map yys (below c)).
Proof. intros d0 ts c (_ & w & K & _). exact (stk_path _ _ _ _ K). Qed.

Lemma owed_on : forall c ce, steps c ce -> forall d0 ts b, inv d0 ts c -> num_ok ts -> length (pend c) = length (pend ce) ->
  In b (shifts (state c) ++ owes (state c)) -> In b (shifts (state ce) ++ owes (state ce)).
Proof.
  intros c ce H. induction H as [c|c c1 ce E S1 IH]; intros d0 ts b I N L B0; [exact B0|].
  pose proof (step_inv _ _ _ I) as SI. rewrite E in SI. destruct SI as [I1 _]. pose proof (steps_pend _ _ S1 _ _ I1 N) as LE.
  destruct (step_kind _ _ _ _ I N E) as [(s' & a & v & p & _ & P1 & P2 & _)|(n & A & r & po & e' & stk' & g & v & ACT & PR & F1 & Lp & GT & F2 & P2)].
  - exfalso. rewrite P1 in L. rewrite P2 in LE. cbn [length] in L. lia.
  - apply (IH d0 ts b I1 N); [now rewrite P2|]. apply in_or_app. right.
    destruct (inv_state _ _ _ I) as [Q1 _].
    pose proof (act_fact _ Q1 (peek c) (proj1 (peek_range c (proj1 I)))) as AF. rewrite ACT in AF. destruct AF as [AF _].
    pose proof (proj1 (forallb_forall _ _) owes_valid _ Q1) as OV. unfold owes_check in OV. rewrite AF, PR in OV. cbv zeta in OV.
    assert (FM : state c :: map yys (below c) = map yys po ++ yys e' :: map yys stk').
    { change (state c :: map yys (below c)) with (map yys (full c)). rewrite F1, map_app. reflexivity. }
    pose proof (downs_path _ _ _ _ _ _ _ (full_path _ _ _ I) OV FM) as FI. rewrite map_length in FI. specialize (FI Lp). cbv beta in FI. rewrite GT in FI.
    assert (SG : state c1 = g) by (unfold full in F2; now injection F2). rewrite SG.
    rewrite forallb_forall in FI. apply mem_In. now apply FI.
Qed.

(* with the token x to come the parser goes the same way, until it shifts x *)
Lemma chase : forall x c ce, steps c ce -> forall d0 ts, inv d0 ts c -> num_ok ts -> length (pend c) = length (pend ce) ->
  act_of (state ce) (peek ce) = AError ->
  forall b d1 ts1, inv d1 ts1 b -> num_ok ts1 -> map yys (full b) = map yys (full c) -> peek b = term_code x ->
  (forall b' d', steps b b' -> step true b' <> Stop SyntaxError d') ->
  In (term_code x) (shifts (state ce) ++ owes (state ce)).
Proof.
  intros x c ce H. induction H as [c|c c1 ce E S1 IH]; intros d0 ts I N L AE b d1 ts1 Ib Nb M PB NE.
  - assert (SE : state b = state c) by (unfold full in M; cbn [map yys] in M; now injection M).
    destruct (inv_state _ _ _ I) as [Q1 Q2].
    destruct (act_error _ Q1 (peek c) (term_code x) (proj1 (peek_range c (proj1 I))) (term_code_range x) Q2 AE) as [X|X]; [|apply in_or_app; now left].
    exfalso. pose proof (step_spec b (proj1 Ib)) as SP. rewrite SE, PB, X in SP. exact (NE b _ (st_refl b) SP).
  - pose proof (step_inv _ _ _ I) as SI. rewrite E in SI. destruct SI as [I1 _]. pose proof (steps_pend _ _ S1 _ _ I1 N) as LE.
    assert (SE : state b = state c) by (unfold full in M; cbn [map yys] in M; now injection M).
    destruct (inv_state _ _ _ I) as [Q1 Q2].
    destruct (step_kind _ _ _ _ I N E) as [(s' & a & v & p & _ & P1 & P2 & _)|(n & A & r & po & e' & stk' & g & v & ACT & PR & F1 & Lp & GT & F2 & P2)].
    + exfalso. rewrite P1 in L. rewrite P2 in LE. cbn [length] in L. lia.
    + destruct (act_other _ Q1 (peek c) (term_code x) n (proj1 (peek_range c (proj1 I))) (term_code_range x) Q2 ACT) as [X|(s' & X)].
      * destruct (reduce_step d1 ts1 b n A r Ib Nb) as (b1 & po' & f' & stk'' & g' & v' & ST & Fu & L' & GT' & _ & _ & Fu' & P').
        { now rewrite SE, PB. }
        { exact PR. }
        pose proof (step_inv _ _ _ Ib) as SB. rewrite ST in SB. destruct SB as [Ib1 _].
        rewrite Fu, F1, !map_app in M. cbn [map] in M. apply app_same in M; [|rewrite !map_length; congruence].
        destruct M as [_ M]. injection M as M1 M2. rewrite M1, GT in GT'. injection GT' as <-.
        apply (IH d0 ts I1 N) with (b := b1) (d1 := d1) (ts1 := ts1); auto.
        -- now rewrite P2.
        -- rewrite Fu', F2. cbn [map yys]. now rewrite M1, M2.
        -- unfold peek. rewrite P'. exact PB.
        -- intros b' d' Sb. apply NE. econstructor; eauto.
      * apply (owed_on c ce (st_step _ _ _ E S1) d0 ts); auto. apply in_or_app. left. apply shifts_in. split; [apply term_code_range|eauto].
Qed.

Lemma steps_meet : forall a b ce, steps a b -> steps a ce -> (exists o d, step true ce = Stop o d) -> steps b ce.
Proof.
  intros a b ce H. induction H as [a|a a1 b E _ IH]; intros H1 Hs; [exact H1|]. apply IH; [|exact Hs].
  inversion H1 as [|? a2 ? E2 H2]; subst; [destruct Hs as (o & d & Hs); congruence|]. congruence.
Qed.
Lemma steps_last : forall a ce, steps a ce -> a = ce \/ exists c, steps a c /\ step true c = Continue ce.
Proof.
  intros a ce H. induction H as [a|a a1 ce E H IH]; [now left|]. right. destruct IH as [->|(c & H1 & H2)].
  - exists a. split; [constructor|exact E].
  - exists c. split; [econstructor; eauto|exact H2].
Qed.

(* ---- the token at which the error is found ---- *)
Section At.
Variables (d : definition) (p r : list token) (ce : config) (d1 : definition) (w : list (Z * bytes)).
Hypothesis Pp : positive p.
Hypothesis Pr : positive r.
Hypothesis Np : num_ok (map coded (visible p)).
Hypothesis Nr : num_ok (map coded (visible r)).
Hypothesis Op : forall t, In t p -> atoi (t_value t) <> None.
Hypothesis St : steps (start d (p ++ r)) ce.
Hypothesis Se : step true ce = Stop SyntaxError d1.
Hypothesis Ae : act_of (state ce) (peek ce) = AError.
Hypothesis Pe : pend ce = map coded (visible r).

Lemma at_positive : positive (p ++ r).
Proof. apply Forall_app. now split. Qed.
Lemma at_start : inv d (map coded (visible (p ++ r))) (start d (p ++ r)).
Proof. apply start_inv, at_positive. Qed.
Lemma at_inv : inv d (map coded (visible (p ++ r))) ce.
Proof. exact (steps_inv _ _ _ _ St at_start). Qed.
Lemma at_num : num_ok (map coded (visible (p ++ r))).
Proof. rewrite visible_app, map_app. now apply num_ok_join. Qed.
Lemma at_stack : forall c, inv d (map coded (visible (p ++ r))) c -> pend c = map coded (visible r) -> stk_ok d (full c) (map coded (visible p)) (defs c).
Proof.
  intros c (_ & v & K & E) Q. rewrite visible_app, map_app, Q in E. apply app_inv_tail in E. now subst v.
Qed.
Lemma at_begins : begins_definition p.
Proof. exact (completes d ce _ p (at_stack ce at_inv Pe) Pp eq_refl Np). Qed.
Lemma at_sound : forall x, In (term_code x) (shifts (state ce)) -> may_follow p x.
Proof. intros x. exact (shift_follows d ce _ p x (at_stack ce at_inv Pe) Pp eq_refl Np). Qed.

Lemma at_waits : exists c1, inv d (map coded (visible p)) c1 /\ pend c1 = [] /\ forall m, steps (start d (p ++ m)) (longer m c1).
Proof.
  destruct (parse_open d p Pp) as (o & d' & E & C). destruct C as [[-> _]|[[-> C]|[-> (t & T1 & T2 & T3)]]].
  - destruct (run_waits _ _ _ _ _ (start_inv d p Pp) E) as (c1 & _ & H2 & H3 & H4). exists c1. split; [exact H2|]. split; [exact H3|]. exact H4.
  - now elim C; apply at_begins.
  - now elim (Op t T1).
Qed.
Lemma longer_pend : forall m c, pend c = [] -> pend (longer m c) = map coded (visible m).
Proof.
  intros m c E. unfold pend in *. cbn [longer look lval input]. rewrite visible_app, map_app, app_assoc, E. reflexivity.
Qed.

Lemma at_complete : forall x, may_follow p x -> In (term_code x) (shifts (state ce) ++ owes (state ce)).
Proof.
  intros x (u & more & U1 & U2). destruct at_waits as (c1 & I1 & E1 & L1).
  assert (S2 : steps (longer r c1) ce) by exact (steps_meet _ _ _ (L1 r) St (ex_intro _ _ (ex_intro _ _ Se))).
  pose proof (steps_inv _ _ _ _ (L1 r) at_start) as I2.
  set (m := map of_term (x :: more)).
  assert (PM : Forall plain m) by (apply Forall_forall; intros t I; apply in_map_iff in I; destruct I as (y & <- & _); now exists y).
  assert (PP : positive (p ++ m)) by (apply Forall_app; split; [exact Pp|exact (plain_positive m PM)]).
  assert (NO : forall t, In t (p ++ m) -> is T_NUMBER t -> atoi (t_value t) <> None).
  { intros t I _. apply in_app_or in I. destruct I as [I|I]; [now apply Op|]. rewrite Forall_forall in PM. now apply plain_number, PM. }
  destruct (spells_accepted d (p ++ m) (u ++ x :: more) PP) as (d' & Acc).
  { unfold spells, significant. rewrite filter_app. apply Forall2_app; [exact U1|apply spells_terms]. }
  { exact U2. }
  { exact NO. }
  pose proof (steps_inv _ _ _ _ (L1 m) (start_inv d (p ++ m) PP)) as I3.
  refine (chase x _ _ S2 _ _ I2 at_num _ Ae (longer m c1) _ _ I3 _ _ _ _).
  - now rewrite (longer_pend r c1 E1), Pe.
  - rewrite visible_app, map_app. apply num_ok_join; [exact Np|]. rewrite (plain_visible m PM). exact (plain_num m PM).
  - reflexivity.
  - unfold peek. rewrite (longer_pend m c1 E1), (plain_visible m PM). reflexivity.
  - intros b' d2 Sb X. destruct (steps_run _ _ _ _ (steps_trans _ _ _ (L1 m) Sb) X) as (f & Hf).
    unfold yyParse in Acc. pose proof (run_det _ _ _ _ _ _ Hf Acc). discriminate.
Qed.
End At.

(* ---- lists of codes as lists of terminals ---- *)

Lemma declared_codes : map term_code declared = terminals.
Proof. vm_compute. reflexivity. Qed.
Lemma filter_map : forall (A C : Type) (f : A -> C) g l, filter g (map f l) = map f (filter (fun x => g (f x)) l).
Proof. intros A C f g l. induction l as [|x l IH]; [reflexivity|]. cbn [map filter]. destruct (g (f x)); cbn [map]; now rewrite IH. Qed.
Lemma shifts_terms : forall s, shifts s = map term_code (filter (fun x => is_shift (act_of s (term_code x))) declared).
Proof. intros s. unfold shifts. rewrite <- declared_codes. apply filter_map. Qed.
Lemma listed_terms : forall s, exists keep, listed s = map term_code (filter keep declared).
Proof.
  intros s. unfold listed, cut4. destruct (_ <=? 4)%nat; [rewrite shifts_terms; eauto|]. exists (fun _ => false).
  assert (E : forall l : list term, filter (fun _ => false) l = []) by (induction l; auto). now rewrite E.
Qed.
Lemma code_inj : forall x y, term_code x = term_code y -> x = y.
Proof. intros x y E. assert (Q : Tm x = Tm y) by (apply sym_code_inj; exact E). now injection Q. Qed.
Lemma in_codes : forall x l, In (term_code x) (map term_code l) <-> In x l.
Proof.
  intros x l. split; intros I; [|now apply in_map]. apply in_map_iff in I. destruct I as (y & E & I). apply code_inj in E. now subst y.
Qed.
Lemma terminals_nodup : NoDup terminals.
Proof.
  apply (NoDup_map_inv Z.to_nat). assert (E : map Z.to_nat terminals = seq 4 95) by (vm_compute; reflexivity). rewrite E. apply seq_NoDup.
Qed.
Lemma name_code : forall x, yyTokname (term_code x) = term_name x.
Proof. intros x. destruct x; vm_compute; reflexivity. Qed.
Lemma names_after : forall es, listed_names false (map term_code es) = concat (map (fun y => B " or " ++ term_name y) es).
Proof.
  induction es as [|x es IH]; [reflexivity|]. cbn [map listed_names concat]. rewrite name_code, IH. now rewrite app_assoc.
Qed.
Lemma names_spec : forall es, listed_names true (map term_code es) = expecting es.
Proof. intros [|x es]; [reflexivity|]. cbn [map listed_names expecting]. now rewrite name_code, names_after. Qed.

Lemma translate_error : forall z, 0 < z -> translate z = 2 <-> z = 57344.
Proof.
  intros z H. split; [|now intros ->].
  assert (C : forallb (fun z => negb (translate z =? 2) || (z =? 57344)) (map Z.of_nat (seq 1 59) ++ map (fun n => 57344 + Z.of_nat n) (seq 0 92)) = true)
    by (vm_compute; reflexivity).
  rewrite forallb_forall in C. intros E.
  destruct (in_dec Z.eq_dec z (map Z.of_nat (seq 1 59) ++ map (fun n => 57344 + Z.of_nat n) (seq 0 92))) as [I|N].
  - specialize (C z I). rewrite E in C. cbn [Z.eqb Pos.eqb negb orb] in C. now apply Z.eqb_eq.
  - exfalso. unfold translate in E. change (Z.of_nat (length yyTok1)) with 60 in E. change (Z.of_nat (length yyTok2)) with 92 in E.
    destruct (z <=? 0) eqn:Z0; [apply Z.leb_le in Z0; lia|].
    destruct (z <? 60) eqn:Z1.
    { apply N, in_or_app. left. apply Z.ltb_lt in Z1. apply in_map_iff. exists (Z.to_nat z). split; [lia|]. apply in_seq. lia. }
    change yyPrivate with 57344 in E. destruct ((57344 <=? z) && (z <? 57344 + 92)) eqn:Z2.
    { apply andb_prop in Z2. destruct Z2 as [Z2 Z3]. apply Z.leb_le in Z2. apply Z.ltb_lt in Z3.
      apply N, in_or_app. right. apply in_map_iff. exists (Z.to_nat (z - 57344)). split; [lia|]. apply in_seq. lia. }
    cbv zeta in E. cbn in E. discriminate.
Qed.
Lemma named_spec : forall t, 0 < t_type t -> named t (yyTokname (translate (t_type t))).
Proof.
  intros t P. pose proof (translate_range _ P) as R. destruct (Z_lt_dec (translate (t_type t)) 4) as [L|L].
  - right. split.
    + intros x X. apply is_code in X. pose proof (term_code_range x) as Q. apply terminals_in in Q. lia.
    + pose proof (translate_error _ P) as TE. destruct (t_type t =? 57344) eqn:E.
      * apply Z.eqb_eq in E. now rewrite (proj2 TE E).
      * apply Z.eqb_neq in E. assert (Q : translate (t_type t) = 3) by (destruct (Z.eq_dec (translate (t_type t)) 2); [tauto|lia]). now rewrite Q.
  - left. destruct (decode_term_range (translate (t_type t))) as (x & X); [lia|]. exists x. rewrite <- X. split; [now apply code_is|apply name_code].
Qed.

(* ---- the statements ---- *)

Definition many (p : list token) : Prop := exists xs, NoDup xs /\ (5 <= length xs)%nat /\ forall x, In x xs -> may_follow p x.

Lemma begins_ones : forall p, begins_definition (ones p) <-> begins_definition p.
Proof. intros p. split; intros (w & m & H1 & H2); exists w, m; (split; [now apply spells_ones|exact H2]). Qed.
Lemma follow_ones : forall p x, may_follow (ones p) x <-> may_follow p x.
Proof. intros p x. split; intros (w & m & H1 & H2); exists w, m; (split; [now apply spells_ones|exact H2]). Qed.
Lemma ones_app : forall p q, ones (p ++ q) = ones p ++ ones q.
Proof. intros p q. unfold ones. apply map_app. Qed.

Lemma cut_token : forall l w a rest, map coded (visible (ones l)) = w ++ a :: rest ->
  exists p t q, l = p ++ t :: q /\ t_type t <> WHITESPACE /\ map coded (visible (ones p)) = w /\ a = (translate (t_type t), B "1") /\
    map coded (visible (ones q)) = rest.
Proof.
  induction l as [|t l IH]; intros w a rest E; [destruct w; discriminate|].
  unfold ones in E. cbn [map] in E. unfold visible in E. cbn [filter] in E. unfold is_ws at 1 in E. cbn [t_type] in E.
  destruct (t_type t =? WHITESPACE) eqn:W; cbn [negb] in E.
  - destruct (IH w a rest E) as (p & u & q & -> & H1 & H2 & H3). exists (t :: p), u, q. split; [reflexivity|]. split; [exact H1|]. split; [|exact H3].
    unfold ones, visible. cbn [map filter]. unfold is_ws at 1. cbn [t_type]. now rewrite W.
  - apply Z.eqb_neq in W. destruct w as [|b w].
    + cbn [map app] in E. injection E as E1 E2. exists [], t, l. split; [reflexivity|]. split; [exact W|]. split; [reflexivity|]. split; [now symmetry|exact E2].
    + cbn [map app] in E. injection E as E1 E2. destruct (IH w a rest E2) as (p & u & q & -> & H1 & H2 & H3).
      exists (t :: p), u, q. split; [reflexivity|]. split; [exact H1|]. split; [|exact H3].
      unfold ones, visible. cbn [map filter]. unfold is_ws at 1. cbn [t_type]. apply Z.eqb_neq in W. rewrite W. cbn [negb map]. rewrite <- H2, <- E1. reflexivity.
Qed.

Lemma waits_at : forall d p, positive p -> begins_definition p -> exists c1, inv d (map coded (visible (ones p))) c1 /\ pend c1 = [] /\
  forall m, steps (start d (ones p ++ m)) (longer m c1).
Proof.
  intros d p P Bg. pose proof (ones_positive p P) as P1.
  destruct (parse_open d (ones p) P1) as (o & d' & E & C). destruct C as [[-> _]|[[-> C]|[-> (t & T1 & T2 & T3)]]].
  - destruct (run_waits _ _ _ _ _ (start_inv d (ones p) P1) E) as (c1 & _ & H2 & H3 & H4). exists c1. split; [exact H2|]. split; [exact H3|]. exact H4.
  - elim C. now apply begins_ones.
  - now elim (ones_number p t T1).
Qed.

Lemma enters_1 : forallb (fun s => match at_ yyDef s with
    | Some n => match prod_of gram n with Some (A, r) => (5 <=? length (shifts s))%nat || match goto_ 0 A with Some g => negb (g =? 1) | None => true end | None => true end
    | None => true end) states &&
  forallb (fun a => match act_of 0 a with AShift g => negb (g =? 1) | _ => true end) tokens = true.
Proof. vm_compute. reflexivity. Qed.

Lemma many_shifts : forall d c p, stk_ok d (full c) (map coded (visible (ones p))) (defs c) -> positive p -> (5 <= length (shifts (state c)))%nat -> many p.
Proof.
  intros d c p K P L. exists (filter (fun x => is_shift (act_of (state c) (term_code x))) declared).
  split; [|split].
  - apply NoDup_filter. apply (NoDup_map_inv term_code). rewrite declared_codes. exact terminals_nodup.
  - rewrite shifts_terms, map_length in L. exact L.
  - intros x I. apply follow_ones. refine (shift_follows d c _ (ones p) x K (ones_positive p P) eq_refl (ones_num_ok p) _).
    rewrite shifts_terms. now apply in_codes.
Qed.

Lemma found : forall fuel closed d l d', positive l -> yyParse fuel closed d l = Some (SyntaxError, d') ->
  exists p who s, found_at closed l p who /\ In s states /\ errs s = true /\
    (forall v, yyParse_error v fuel closed d l = if v then Some (B "syntax error: unexpected " ++ who ++ listed_names true (listed s)) else Some (B "syntax error")) /\
    (forall x, In (term_code x) (shifts s) -> may_follow p x) /\
    (forall x, may_follow p x -> In (term_code x) (shifts s ++ owes s)) /\
    ((5 <= length (shifts s))%nat \/ s = 1 -> many p).
Proof.
  intros fuel closed d l d' P H. unfold yyParse in H.
  pose proof (ones_positive l P) as P1. pose proof (start_inv d (ones l) P1) as I0. pose proof (ones_num_ok l) as N0.
  assert (SA : alike (start d l) (start d (ones l))) by (apply start_alike; symmetry; apply ones_types).
  destruct (run_alike _ _ _ _ _ _ _ _ SA I0 N0 H) as [X|(d2 & H1)]; [discriminate|].
  destruct (reported_at _ true _ _ _ _ _ I0 H1) as (ce & d3 & St & Ie & Se & Ae & Ee & _ & Ne).
  assert (Re : forall v, yyParse_error v fuel closed d l = yyErrorMessage v (state ce) (peek ce)).
  { intros v. unfold yyParse_error. rewrite (reported_alike fuel v closed d _ _ _ _ SA I0 N0 H).
    destruct (reported_at _ v _ _ _ _ _ I0 H1) as (ce' & d3' & St' & _ & Se' & _ & _ & Q & _). rewrite Q.
    assert (Eq : steps ce' ce) by exact (steps_meet _ _ _ St' St (ex_intro _ _ (ex_intro _ _ Se))).
    inversion Eq as [|? ? ? X]; subst; [reflexivity|congruence]. }
  destruct (inv_state _ _ _ Ie) as [Q1 Q2].
  (* the tokens before the error and those from it on *)
  assert (Cut : exists p r, l = p ++ r /\ pend ce = map coded (visible (ones r)) /\
    (r = [] /\ closed = true \/ exists t q, r = t :: q /\ t_type t <> WHITESPACE)).
  { pose proof Ie as (_ & w & K & E). destruct (pend ce) as [|a rest] eqn:PE.
    - exists l, []. rewrite app_nil_r. split; [reflexivity|]. split; [reflexivity|]. left. split; [reflexivity|]. destruct closed; [reflexivity|now elim Ne].
    - destruct (cut_token l w a rest (eq_sym E)) as (p & t & q & -> & C1 & C2 & C3 & C4). exists p, (t :: q). split; [reflexivity|]. split; [|right; now exists t, q].
      unfold ones, visible. cbn [map filter]. unfold is_ws at 1. cbn [t_type]. apply Z.eqb_neq in C1. rewrite C1. cbn [negb map]. rewrite C3, <- C4. reflexivity. }
  destruct Cut as (p & r & -> & Pe & Last).
  assert (Pp : positive p) by (apply Forall_app in P; tauto). assert (Pr : positive r) by (apply Forall_app in P; tauto).
  rewrite ones_app in *.
  pose proof (ones_positive p Pp) as Pp1. pose proof (ones_positive r Pr) as Pr1.
  assert (Bg : begins_definition p).
  { apply begins_ones. exact (at_begins d (ones p) (ones r) ce Pp1 Pr1 (ones_num_ok p) St Pe). }
  exists p, (yyTokname (peek ce)), (state ce). split; [split; [exact Bg|]|].
  { destruct Last as [[-> ->]|(t & q & -> & T1)].
    - right. split; [reflexivity|]. rewrite app_nil_r. split; [reflexivity|]. unfold peek. rewrite Pe. split; [|reflexivity].
      intros w W1 W2. cbn [ones map] in *. rewrite app_nil_r in *.
      destruct (spells_accepted d (ones p) w Pp1) as (d4 & Acc); [now apply spells_ones|exact W2|intros t I _; exact (ones_number p t I)|].
      unfold yyParse in Acc. pose proof (run_det _ _ _ _ _ _ H1 Acc). discriminate.
    - left. exists t, q. split; [reflexivity|]. split; [exact T1|].
      assert (Pk : pend ce = (translate (t_type t), B "1") :: map coded (visible (ones q))).
      { rewrite Pe. unfold ones, visible. cbn [map filter]. unfold is_ws at 1. cbn [t_type]. apply Z.eqb_neq in T1. rewrite T1. reflexivity. }
      split.
      + intros Bt. assert (Pt : positive (p ++ [t])).
        { apply Forall_app. split; [exact Pp|]. inversion Pr; subst. constructor; [assumption|constructor]. }
        destruct (waits_at d _ Pt Bt) as (c1 & I1 & E1 & L1). specialize (L1 (ones q)). rewrite ones_app, <- app_assoc in L1.
        change (ones [t] ++ ones q) with (ones (t :: q)) in L1.
        pose proof (steps_meet _ _ _ L1 St (ex_intro _ _ (ex_intro _ _ Se))) as S2.
        pose proof (steps_pend _ _ S2 _ _ (steps_inv _ _ _ _ L1 I0) N0) as LE. rewrite (longer_pend _ c1 E1), Pk in LE. cbn [length] in LE. lia.
      + unfold peek. rewrite Pk. cbn [fst]. apply named_spec. now inversion Pr. }
  split; [exact Q1|]. split; [exact Ee|]. split.
  { intros v. rewrite Re. destruct v; [now apply list_message|reflexivity]. }
  split.
  { intros x X. apply follow_ones. exact (at_sound d (ones p) (ones r) ce Pp1 Pr1 (ones_num_ok p) St Pe x X). }
  split.
  { intros x X. apply follow_ones in X.
    exact (at_complete d (ones p) (ones r) ce d3 Pp1 Pr1 (ones_num_ok p) (ones_num_ok r) (ones_number p) St Se Ae Pe x X). }
  intros [L|L].
  - exact (many_shifts d ce p (at_stack d (ones p) (ones r) ce Ie Pe) Pp L).
  - destruct (steps_last _ _ St) as [E|(c & Sc & Ec)]; [rewrite <- E in L; discriminate L|].
    pose proof (steps_inv _ _ _ _ Sc I0) as Ic. destruct (inv_state _ _ _ Ic) as [R1 R2].
    pose proof enters_1 as EN. apply andb_prop in EN. destruct EN as [EN1 EN2].
    destruct (step_kind _ _ _ _ Ic N0 Ec) as [(s' & a & v & rest & ACT & P3 & P4 & P5)|(n & A & rr & po & e' & stk' & g & v & ACT & PR & F1 & Lp & GT & F2 & P2)].
    + exfalso. pose proof (full_path _ _ _ Ie) as PA. unfold full in P5. injection P5 as G1 _ G3. rewrite G3 in PA. cbn [map yys] in PA.
      destruct (path_tl _ _ _ PA) as [_ PI]. rewrite L, preds_1 in PI. destruct PI as [PI|[]].
      pose proof (proj1 (forallb_forall _ _) EN2 _ (proj1 (peek_range c (proj1 Ic)))) as W. cbv beta in W. rewrite PI, ACT, <- G1, L in W. discriminate.
    + pose proof (act_fact _ R1 (peek c) (proj1 (peek_range c (proj1 Ic)))) as AF. rewrite ACT in AF. destruct AF as [AF _].
      pose proof (proj1 (forallb_forall _ _) EN1 _ R1) as W. cbv beta in W. rewrite AF, PR in W.
      pose proof (full_path _ _ _ Ie) as PA. unfold full in F2. injection F2 as G1 _ G3. rewrite G3 in PA. cbn [map] in PA.
      destruct (path_tl _ _ _ PA) as [_ PI]. rewrite L, preds_1 in PI. destruct PI as [PI|[]]. rewrite <- PI, <- G1, L in GT. rewrite GT in W.
      cbn [Z.eqb Pos.eqb negb] in W. rewrite orb_false_r in W. apply Nat.leb_le in W.
      refine (many_shifts d c p (at_stack d (ones p) (ones r) c Ic _) Pp W). now rewrite <- P2.
Qed.
