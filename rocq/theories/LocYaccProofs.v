(* The generated parser as an abstract shift-reduce automaton, and the validation of its tables. *)
From Verif Require Import GoBase GoFacts LocYaccModel LocYaccCert.
Local Open Scope Z_scope.

(* ---- the automaton read off the tables ---- *)

Inductive act := AShift (s : Z) | AReduce (n : Z) | AAccept | AError | ACrash.

Definition default_act (s a : Z) : act :=
  match at_ yyDef s with
  | None => ACrash
  | Some n =>
      if n =? -2 then
        match exca_find s yyExca with
        | None => ACrash
        | Some l =>
            match exca_pick a l with
            | None => ACrash
            | Some n => if n <? 0 then AAccept else if n =? 0 then AError else AReduce n
            end
        end
      else if n =? 0 then AError
      else AReduce n
  end.

Definition act_of (s a : Z) : act :=
  match at_ yyPact s with
  | None => ACrash
  | Some p =>
      if p <=? yyFlag then default_act s a
      else if (p + a <? 0) || (yyLast <=? p + a) then default_act s a
      else
        match at_ yyAct (p + a) with
        | None => ACrash
        | Some s' =>
            match at_ yyChk s' with
            | None => ACrash
            | Some k => if k =? a then AShift s' else default_act s a
            end
        end
  end.

(* ---- what a configuration still has to read ---- *)

Definition is_ws (t : token) : bool := t_type t =? WHITESPACE.
Definition visible (l : list token) : list token := filter (fun t => negb (is_ws t)) l.
Definition coded (t : token) : Z * bytes := (translate (t_type t), t_value t).
Definition pend (c : config) : list (Z * bytes) :=
  match look c with Some t => [(t, lval c)] | None => [] end ++ map coded (visible (input c)).
Definition peek (c : config) : Z := match pend c with p :: _ => fst p | [] => 1 end.
Definition full (c : config) : list entry := {| yys := state c; val := yyval c |} :: below c.

Definition good (c : config) : Prop :=
  Forall (fun t => 0 < t_type t) (input c) /\ Forall (fun p => 2 <= fst p <= 98) (pend c).

Lemma next_token_visible : forall l,
  match next_token l with
  | None => visible l = []
  | Some (t, r) => visible l = t :: visible r /\ is_ws t = false /\
                   exists ws, l = ws ++ t :: r /\ forallb is_ws ws = true
  end.
Proof.
  induction l as [|t r IH]; [reflexivity|].
  cbn [next_token]. change (t_type t =? WHITESPACE) with (is_ws t).
  unfold visible. cbn [filter]. destruct (is_ws t) eqn:E; cbn [negb].
  - fold (visible r). destruct (next_token r) as [[t' r']|]; [|exact IH].
    destruct IH as (H1 & H2 & ws & H3 & H4).
    split; [exact H1|]. split; [exact H2|].
    exists (t :: ws). split; [now rewrite H3|]. cbn [forallb]. now rewrite E.
  - split; [reflexivity|]. split; [exact E|]. exists []. now split.
Qed.

Lemma read_spec : forall c, good c ->
  exists c', read true c = Some (peek c, c') /\
    state c' = state c /\ yyval c' = yyval c /\ below c' = below c /\ above c' = above c /\ defs c' = defs c /\
    pend c' = pend c /\ good c' /\
    (forall a v p, pend c = (a, v) :: p -> look c' = Some a /\ lval c' = v /\ map coded (visible (input c')) = p).
Proof.
  intros c [G1 G2]. unfold read. destruct (look c) as [t|] eqn:L.
  - exists c. unfold peek, pend. rewrite L. cbn [app fst].
    repeat (split; [reflexivity|]). split; [split; [exact G1|]|].
    { exact G2. }
    intros a v p E. injection E as <- <- <-. now repeat split.
  - pose proof (next_token_visible (input c)) as HV.
    destruct (next_token (input c)) as [[tok r]|] eqn:NT.
    + destruct HV as (H1 & H2 & ws & H3 & H4).
      assert (T : 0 < t_type tok).
      { rewrite H3 in G1. apply Forall_app in G1. destruct G1 as [_ G1]. now inversion G1. }
      assert (E0 : (t_type tok <? 0) = false) by (apply Z.ltb_ge; lia).
      rewrite E0.
      assert (P : pend c = coded tok :: map coded (visible r)).
      { unfold pend. rewrite L, H1. reflexivity. }
      eexists. split.
      { unfold peek. rewrite P. reflexivity. }
      cbn [state yyval below above defs look lval input].
      repeat (split; [reflexivity|]).
      split; [rewrite P; reflexivity|].
      split.
      { split.
        - cbn [input]. rewrite H3 in G1. apply Forall_app in G1. destruct G1 as [_ G1]. now inversion G1.
        - unfold pend. cbn [look lval input app]. rewrite P in G2. exact G2. }
      intros a v p E. rewrite P in E. injection E as <- <- <-. now repeat split.
    + assert (P : pend c = []) by (unfold pend; now rewrite L, HV).
      eexists. split.
      { unfold peek. rewrite P. reflexivity. }
      cbn [state yyval below above defs look lval input].
      repeat (split; [reflexivity|]).
      split; [rewrite P; reflexivity|].
      split.
      { split; [constructor|]. unfold pend. cbn. constructor. }
      intros a v p E. rewrite P in E. discriminate.
Qed.

(* the reading state of the parser does not matter: only what is pending *)
Definition same_stack (c c' : config) : Prop :=
  state c' = state c /\ below c' = below c /\ above c' = above c /\ defs c' = defs c /\ pend c' = pend c.

Lemma peek_pend : forall c c', pend c' = pend c -> peek c' = peek c.
Proof. intros c c' H. unfold peek. now rewrite H. Qed.

Lemma default_spec : forall c, good c ->
  match default_act (state c) (peek c) with
  | AShift _ => False
  | AReduce n => exists c1, default_action true c = reduce n c1 /\ same_stack c c1 /\ good c1
  | AAccept => default_action true c = Stop (Returns 0) (defs c)
  | AError => default_action true c = Stop SyntaxError (defs c)
  | ACrash => True
  end.
Proof.
  intros c G. unfold default_act, default_action.
  destruct (at_ yyDef (state c)) as [n|] eqn:D; [|exact I].
  destruct (n =? -2) eqn:E2.
  - destruct (read_spec c G) as (c' & R & S1 & S2 & S3 & S4 & S5 & S6 & G' & _).
    rewrite R, S1. destruct (exca_find (state c) yyExca) as [l|]; [|exact I].
    destruct (exca_pick (peek c) l) as [m|]; [|exact I].
    destruct (m <? 0); [now rewrite S5|]. destruct (m =? 0); [now rewrite S5|].
    exists c'. split; [reflexivity|]. split; [|exact G']. unfold same_stack. now rewrite S1, S3, S4, S5, S6.
  - destruct (n =? 0); [reflexivity|].
    exists c. split; [reflexivity|]. split; [|exact G]. unfold same_stack. now repeat split.
Qed.

Definition pushed (c : config) : config :=
  {| state := state c; yyval := yyval c; below := full c; above := tl (above c);
     look := look c; lval := lval c; input := input c; defs := defs c |}.

Lemma step_spec : forall c, good c ->
  match act_of (state c) (peek c) with
  | AShift s' => forall a v p, pend c = (a, v) :: p ->
      exists c', step true c = Continue c' /\ full c' = {| yys := s'; val := v |} :: full c /\
                 pend c' = p /\ defs c' = defs c /\ good c' /\ above c' = tl (above c)
  | AReduce n => exists c1, step true c = reduce n c1 /\ below c1 = full c /\ above c1 = tl (above c) /\
                            pend c1 = pend c /\ defs c1 = defs c /\ good c1
  | AAccept => step true c = Stop (Returns 0) (defs c)
  | AError => step true c = Stop SyntaxError (defs c)
  | ACrash => True
  end.
Proof.
  intros c G.
  assert (GP : good (pushed c)) by exact G.
  assert (PP : peek (pushed c) = peek c) by reflexivity.
  assert (DS : forall c0, good c0 -> same_stack (pushed c) c0 ->
    match default_act (state c) (peek c) with
    | AShift _ => False
    | AReduce n => exists c1, default_action true c0 = reduce n c1 /\ below c1 = full c /\ above c1 = tl (above c) /\
                              pend c1 = pend c /\ defs c1 = defs c /\ good c1
    | AAccept => default_action true c0 = Stop (Returns 0) (defs c)
    | AError => default_action true c0 = Stop SyntaxError (defs c)
    | ACrash => True
    end).
  { intros c0 G0 (E1 & E2 & E3 & E4 & E5). pose proof (default_spec c0 G0) as D.
    rewrite (peek_pend _ _ E5), PP in D. cbn [pushed state] in E1. rewrite E1 in D.
    destruct (default_act (state c) (peek c)); auto.
    - destruct D as (c1 & D1 & (F1 & F2 & F3 & F4 & F5) & D3).
      exists c1. split; [exact D1|]. rewrite F2, F3, F4, F5, E2, E3, E4, E5.
      repeat (split; [reflexivity|]). exact D3.
    - now rewrite D, E4.
    - now rewrite D, E4. }
  unfold act_of, step. cbv zeta. fold (full c). fold (pushed c).
  change (state (pushed c)) with (state c).
  destruct (at_ yyPact (state c)) as [p|] eqn:EP; [|exact I].
  assert (DP := DS (pushed c) GP ltac:(unfold same_stack; now repeat split)).
  destruct (p <=? yyFlag).
  { destruct (default_act (state c) (peek c)); auto; contradiction. }
  destruct (read_spec _ GP) as (c' & R & S1 & S2 & S3 & S4 & S5 & S6 & G' & SH).
  rewrite R, PP.
  assert (DC := DS c' G' ltac:(unfold same_stack; rewrite S1, S3, S4, S5, S6; now repeat split)).
  destruct ((p + peek c <? 0) || (yyLast <=? p + peek c)).
  { destruct (default_act (state c) (peek c)); auto; contradiction. }
  destruct (at_ yyAct (p + peek c)) as [s'|]; [|exact I].
  destruct (at_ yyChk s') as [k|]; [|exact I].
  destruct (k =? peek c).
  - intros a v q Q. destruct (SH a v q Q) as (T1 & T2 & T3).
    eexists. split; [reflexivity|]. unfold full at 1. cbn [state yyval below].
    rewrite T2, S3. split; [reflexivity|].
    split; [unfold pend; cbn [look input]; exact T3|].
    split; [cbn [defs]; rewrite S5; reflexivity|].
    split; [|exact S4].
    destruct G' as [G1 G2]. split; [exact G1|].
    unfold pend in *. cbn [look input app]. rewrite T1 in G2. cbn [app] in G2. now inversion G2.
  - destruct (default_act (state c) (peek c)); auto; contradiction.
Qed.

(* a parser whose lexer never closes its channel does the same or waits *)
Lemma read_false : forall c, read false c = None \/ read false c = read true c.
Proof.
  intros c. unfold read. destruct (look c); [now right|].
  destruct (next_token (input c)) as [[t r]|]; [now right|now left].
Qed.

Lemma read_defs : forall b c t c', read b c = Some (t, c') -> defs c' = defs c.
Proof.
  intros b c t c'. unfold read. destruct (look c); [now intros [= <- <-]|].
  destruct (next_token (input c)) as [[tk r]|]; [now intros [= <- <-]|].
  destruct b; [now intros [= <- <-]|discriminate].
Qed.

Lemma default_false : forall c, default_action false c = Stop Waits (defs c) \/ default_action false c = default_action true c.
Proof.
  intros c. unfold default_action. destruct (at_ yyDef (state c)) as [n|]; [|now right].
  destruct (n =? -2); [|now right].
  destruct (read_false c) as [E|E]; rewrite E; [now left|now right].
Qed.

Lemma step_false : forall c, step false c = Stop Waits (defs c) \/ step false c = step true c.
Proof.
  intros c. unfold step. cbv zeta. set (c0 := {| state := _ |}).
  destruct (at_ yyPact (state c0)) as [p|]; [|now right].
  destruct (p <=? yyFlag).
  { destruct (default_false c0) as [E|E]; rewrite E; [now left|now right]. }
  destruct (read_false c0) as [E|E]; rewrite E; [now left|].
  destruct (read true c0) as [[t c1]|] eqn:R; [|now right].
  assert (D : defs c1 = defs c) by (rewrite (read_defs _ _ _ _ R); reflexivity).
  destruct ((p + t <? 0) || (yyLast <=? p + t)).
  { rewrite <- D. apply default_false. }
  destruct (at_ yyAct (p + t)) as [s'|]; [|now right].
  destruct (at_ yyChk s') as [k|]; [|now right].
  destruct (k =? t); [now right|]. rewrite <- D. apply default_false.
Qed.

(* ---- the validated facts ---- *)

Definition states : list Z := map Z.of_nat (seq 0 316).
Definition tokens : list Z := map Z.of_nat (seq 1 98).
Definition preds (s : Z) : list Z := nth (Z.to_nat s) preds_tab [].
Definition chk (s : Z) : Z := match at_ yyChk s with Some k => k | None => 0 end.
Definition rank (s : Z) : Z := nth (Z.to_nat s) rank_tab 0.
Definition mem (x : Z) (l : list Z) : bool := existsb (Z.eqb x) l.

Lemma mem_In : forall x l, mem x l = true <-> In x l.
Proof.
  intros x l. unfold mem. rewrite existsb_exists. split.
  - intros (y & H & E). apply Z.eqb_eq in E. now subst.
  - intros H. exists x. split; [exact H|apply Z.eqb_refl].
Qed.

(* production n as the tables see it, symbols coded *)
Section WithGrammar.
Variable gram : list (Z * list Z).
Definition prod_of (n : Z) : option (Z * list Z) := if n <=? 0 then None else nth_error gram (Z.to_nat (n - 1)).

(* follow the stack down from state s along the reversed right-hand side r *)
Fixpoint walk (s : Z) (r : list Z) (fin : Z -> bool) : bool :=
  match r with
  | [] => fin s
  | x :: r' => negb (s =? 0) && (chk s =? x) && forallb (fun q => walk q r' fin) (preds s)
  end.

Definition reachable (s : Z) : bool := (s =? 0) || negb (Nat.eqb (length (preds s)) 0).

Definition check_reduce (s n : Z) : bool :=
  match prod_of n, at_ yyR1 n, at_ yyR2 n with
  | Some (A, r), Some A', Some k =>
      (A =? A') && (k =? Z.of_nat (length r)) &&
      walk s (rev r) (fun q =>
        match goto_ q A with
        | Some g => mem q (preds g) && (chk g =? - A) && mem g states &&
                    (rank g <? rank s + rank_c * (k - 1))
        | None => false
        end)
  | _, _, _ => false
  end.

Definition check_state (s : Z) : bool :=
  negb (reachable s) ||
  forallb (fun a =>
    match act_of s a with
    | AShift s' => mem s (preds s') && (chk s' =? a) && (4 <=? a) && mem s' states
    | AReduce n => check_reduce s n
    | AAccept => (s =? 1) && (a =? 1)
    | AError => true
    | ACrash => false
    end) tokens.
End WithGrammar.
