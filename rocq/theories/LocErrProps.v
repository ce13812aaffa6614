(* Property theorems C151: what the message of a syntax error says (pkg/locale/y.go:547-627,765). *)
From Verif Require Import GoBase GoFacts LocGramSpec LocYaccModel LocYaccProofs LocYaccGram LocParseSpec LocYaccSound LocYaccFinal LocYaccProps LocViaSpec LocViaProofs
  LocErrModel LocErrSpec LocErrProofs.
Local Open Scope Z_scope.

(* C151, what holds: with yyErrorVerbose set the message names the first token with which no definition can go on (or "$end"),
   and lists at most four terminals in the order of their declaration; every one of them may stand there; no list means that
   there are five or more; and a list is complete unless it is "EOL or ';'".  Missing: that last case, refuted below. *)
Theorem C151_message_partial : forall fuel closed d l d', positive l -> yyParse fuel closed d l = Some (SyntaxError, d') ->
  exists p who es, found_at closed l p who /\
    yyParse_error true fuel closed d l = Some (B "syntax error: unexpected " ++ who ++ expecting es) /\
    (length es <= 4)%nat /\ (exists keep, es = filter keep declared) /\
    (forall x, In x es -> may_follow p x) /\
    (es = [] -> exists xs, NoDup xs /\ (5 <= length xs)%nat /\ forall x, In x xs -> may_follow p x) /\
    (es <> [] -> es <> [T_EOL; T_semicolon] -> forall x, may_follow p x -> In x es).
Proof.
  intros fuel closed d l d' P H. destruct (found fuel closed d l d' P H) as (p & who & s & F & Q1 & Q2 & M & So & Co & Ma).
  destruct (listed_terms s) as (keep & L). set (es := filter keep declared) in *.
  exists p, who, es. split; [exact F|]. split; [rewrite (M true), L, names_spec; reflexivity|].
  assert (Le : length es = length (listed s)) by (rewrite L; now rewrite map_length).
  split; [rewrite Le; exact (listed_four s)|]. split; [now exists keep|]. clearbody es.
  assert (In_es : forall x, In x es <-> In (term_code x) (listed s)) by (intros x; rewrite L; symmetry; apply in_codes).
  split; [exact (fun x X => So x (listed_incl s _ (proj1 (In_es x) X)))|]. split.
  - intros E. apply Ma. assert (E0 : listed s = []) by (rewrite L, E; reflexivity).
    destruct (list_none s Q1 Q2 E0) as [X|X]; [right; exact X|left; exact X].
  - intros E1 E2 x X. assert (NL : listed s <> []) by (rewrite L; intros Y; apply map_eq_nil in Y; contradiction).
    apply (proj2 (In_es x)). pose proof (in_app_or _ _ _ (Co x X)) as X'. destruct X' as [X'|X']; [rewrite (listed_shifts s NL); exact X'|].
    destruct (list_whole s Q1 Q2 NL) as [Y|Y]; [|exact (Y _ X')]. exfalso. apply E2.
    assert (Z0 : map term_code es = map term_code [T_EOL; T_semicolon]) by (rewrite <- L, Y; reflexivity).
    clear - Z0. generalize dependent es. intros es Z0.
    destruct es as [|x [|y [|z es]]]; cbn [map] in Z0; try discriminate. injection Z0 as Z1 Z2. apply code_inj in Z1, Z2. now subst.
Qed.
Print Assumptions C151_message_partial.

(* As delivered yyErrorVerbose is false (y.go:518; only a test sets it): every syntax error has the same message. *)
Theorem C151_brief : forall fuel closed d l d', positive l -> yyParse fuel closed d l = Some (SyntaxError, d') ->
  yyParse_error false fuel closed d l = Some (B "syntax error").
Proof. intros fuel closed d l d' P H. destruct (found fuel closed d l d' P H) as (p & who & s & _ & _ & _ & M & _). exact (M false). Qed.
Print Assumptions C151_brief.

Lemma begins_app : forall p q, begins_definition (p ++ q) -> begins_definition p.
Proof.
  intros p q (w & m & H1 & H2). apply spells_app in H1. destruct H1 as (u & v & -> & U1 & _). exists u, (v ++ m). split; [exact U1|]. now rewrite app_assoc.
Qed.
Lemma split_apart : forall (p p' : list token) r r', p ++ r = p' ++ r' ->
  (exists q, p' = p ++ q /\ r = q ++ r') \/ (exists q, p = p' ++ q /\ r' = q ++ r).
Proof.
  induction p as [|x p IH]; intros p' r r' E; [left; exists p'; now split|].
  destruct p' as [|y p']; [right; exists (x :: p); now split|]. cbn [app] in E. injection E as <- E.
  destruct (IH _ _ _ E) as [(q & -> & Q)|(q & -> & Q)]; [left|right]; exists q; now split.
Qed.
Lemma same_place : forall closed p t q p' who, t_type t <> WHITESPACE -> begins_definition p -> ~ begins_definition (p ++ [t]) ->
  found_at closed (p ++ t :: q) p' who -> p' = p /\ named t who.
Proof.
  intros closed p t q p' who Ws Bp Nb (Bp' & [(t' & q' & E & Ws' & Nb' & Nm)|(_ & E & _)]).
  - destruct (split_apart _ _ _ _ E) as [([|u v] & E1 & E2)|([|u v] & E1 & E2)]; cbn [app] in E2.
    + rewrite app_nil_r in E1. injection E2 as -> _. now split.
    + exfalso. injection E2 as -> _. apply Nb. subst p'. apply (begins_app _ v). now rewrite <- app_assoc.
    + rewrite app_nil_r in E1. injection E2 as <- _. split; [now symmetry|exact Nm].
    + exfalso. injection E2 as <- _. apply Nb'. subst p. apply (begins_app _ v). now rewrite <- app_assoc.
  - exfalso. subst p'. apply Nb. apply (begins_app _ q). now rewrite <- app_assoc.
Qed.

(* C151 fails wherever both the end of the line and a comma may stand (between the options of order_start): the message leaves
   out the comma. *)
Theorem C151_missing_refuted : forall fuel closed d p t q d', positive (p ++ t :: q) -> t_type t <> WHITESPACE ->
  ~ begins_definition (p ++ [t]) -> may_follow p T_EOL -> may_follow p T_comma ->
  yyParse fuel closed d (p ++ t :: q) = Some (SyntaxError, d') ->
  exists who, named t who /\
    yyParse_error true fuel closed d (p ++ t :: q) = Some (B "syntax error: unexpected " ++ who ++ expecting [T_EOL; T_semicolon]).
Proof.
  intros fuel closed d p t q d' P Ws Nb F1 F2 H. destruct (found fuel closed d _ d' P H) as (p' & who & s & F & Q1 & Q2 & M & _ & Co & _).
  assert (Bp : begins_definition p) by (destruct F1 as (w & m & H1 & H2); now exists w, (T_EOL :: m)).
  destruct (same_place _ _ _ _ _ _ Ws Bp Nb F) as [-> Nm]. exists who. split; [exact Nm|].
  rewrite (M true), (list_misses s Q1 Q2 (Co _ F1) (Co _ F2)). rewrite <- names_spec. reflexivity.
Qed.
Print Assumptions C151_missing_refuted.

Lemma prefix_by : forall f d l d', positive l -> yyParse f false d l = Some (Waits, d') -> begins_definition l.
Proof.
  intros f d l d' P H. destruct (parse_open d l P) as (o & d1 & E & C). pose proof (run_det _ _ _ _ _ _ E H) as Q. injection Q as -> _.
  destruct C as [[_ C]|[[C _]|[C _]]]; [exact C|discriminate|discriminate].
Qed.
Lemma no_prefix_by : forall f d l d', positive l -> yyParse f false d l = Some (SyntaxError, d') -> ~ begins_definition l.
Proof.
  intros f d l d' P H. destruct (parse_open d l P) as (o & d1 & E & C). pose proof (run_det _ _ _ _ _ _ E H) as Q. injection Q as -> _.
  destruct C as [[C _]|[[_ C]|[C _]]]; [discriminate|exact C|discriminate].
Qed.
Lemma follow_by : forall f d l x d', positive l -> yyParse f false d (l ++ [of_term x]) = Some (Waits, d') -> may_follow l x.
Proof.
  intros f d l x d' P H.
  assert (P' : positive (l ++ [of_term x])) by (apply Forall_app; split; [exact P|apply plain_positive; constructor; [now exists x|constructor]]).
  destruct (prefix_by _ _ _ _ P' H) as (w & m & H1 & H2).
  apply spells_app in H1. destruct H1 as (u & v & -> & U1 & U2). exists u, m. split; [exact U1|].
  assert (V : v = [x]).
  { assert (Fx : Forall2 is v [of_term x]) by (revert U2; unfold spells; destruct x; exact (fun z => z)).
    inversion Fx as [|y ? v' ? Y1 Y2]; subst. inversion Y2; subst. f_equal. apply code_inj. unfold term_code. unfold is in Y1. cbn [of_term t_type] in Y1. now rewrite Y1. }
  subst v. now rewrite <- app_assoc in H2.
Qed.

(* order_start forward LC_TIME: a comma could stand there, and the message does not say so *)
Definition order_line : list token := map of_term [T_LC_COLLATE_STR; T_EOL; T_ORDER_START_STR; T_FORWARD_STR].
Example C151_missing_nonvacuous : let t := of_term T_LC_TIME_STR in
  positive (order_line ++ [t]) /\ ~ begins_definition (order_line ++ [t]) /\ may_follow order_line T_EOL /\ may_follow order_line T_comma /\
  (exists d', yyParse 50 true nothing (order_line ++ [t]) = Some (SyntaxError, d')) /\
  yyParse_error true 50 true nothing (order_line ++ [t]) = Some (B "syntax error: unexpected LC_TIME_STR, expecting EOL or ';'").
Proof.
  cbv zeta. split; [repeat constructor|]. split; [|split; [|split; [|split]]].
  - apply (no_prefix_by 50 nothing _ nothing); [repeat constructor|vm_compute; reflexivity].
  - apply (follow_by 50 nothing _ _ nothing); [repeat constructor|vm_compute; reflexivity].
  - apply (follow_by 50 nothing _ _ nothing); [repeat constructor|vm_compute; reflexivity].
  - eexists. vm_compute. reflexivity.
  - vm_compute. reflexivity.
Qed.
(* a complete list, no list, the end of the tokens, and a token that is no terminal *)
Example C151_nonvacuous :
  yyParse_error true 50 true nothing (map of_term [T_LC_TIME_STR; T_LC_TIME_STR]) = Some (B "syntax error: unexpected LC_TIME_STR, expecting EOL") /\
  yyParse_error true 50 true nothing (map of_term [T_LC_MESSAGES_STR; T_EOL; T_EOL]) = Some (B "syntax error: unexpected EOL, expecting COPY_STR or NOEXPR_STR or YESEXPR_STR") /\
  yyParse_error true 50 true nothing (map of_term [T_LC_TIME_STR; T_EOL; T_EOL]) = Some (B "syntax error: unexpected EOL") /\
  yyParse_error true 50 true nothing (map of_term [T_LC_TIME_STR]) = Some (B "syntax error: unexpected $end, expecting EOL") /\
  yyParse_error true 50 true nothing [of_term T_LC_TIME_STR; {| t_type := 7; t_value := B "x" |}] = Some (B "syntax error: unexpected $unk, expecting EOL") /\
  yyParse_error false 50 true nothing (map of_term [T_LC_TIME_STR; T_LC_TIME_STR]) = Some (B "syntax error") /\
  (exists d', yyParse 50 true nothing (map of_term [T_LC_TIME_STR; T_LC_TIME_STR]) = Some (SyntaxError, d')).
Proof. repeat split; try (vm_compute; reflexivity). eexists. vm_compute. reflexivity. Qed.
