(* Property theorems C89-C97 (pkg/locale/y.go, the parser generated from localedef.y, with its semantic actions).
   [yyParse fuel closed d l] is a run on the tokens l with the package variable def holding d; [closed] says whether the
   lexer closes its channel after the last token; fuel counts visits of the label yystack. *)
From Verif Require Import GoBase GoFacts LocGramSpec LocYaccModel LocYaccCert LocYaccProofs LocYaccGram LocYaccSound LocYaccComplete
  LocYaccValues LocParseSpec LocYaccFinal LocYaccRest.
Local Open Scope Z_scope.

Definition tok (x : term) (v : bytes) : token := {| t_type := token_number x; t_value := v |}.
Definition space : token := {| t_type := WHITESPACE; t_value := B " " |}.
Definition eol : token := tok T_EOL [nl].
Definition quote : token := tok T_dquote (B """").
Definition nothing : definition := {| int_curr_symbol := []; int_frac_digits := 0; mon_grouping := [] |}.

Definition header : list token := [tok T_LC_MONETARY_STR (B "LC_MONETARY"); eol].
Definition trailer : list token := [tok T_END_STR (B "END"); space; tok T_LC_MONETARY_STR (B "LC_MONETARY"); eol].
Definition symbol_line (k : term) (t s : bytes) : list token :=
  [tok k t; space; quote] ++ map (fun c => tok T_CHAR [c]) s ++ [quote; eol].
Definition sample : list token :=
  header ++ symbol_line T_INT_CURR_SYMBOL_STR (B "int_curr_symbol") (B "USD") ++
  [tok T_MON_GROUPING_STR (B "mon_grouping"); space; tok T_NUMBER (B "3"); tok T_semicolon (B ";"); tok T_NUMBER (B "02"); eol] ++
  [tok T_INT_FRAC_DIGITS_STR (B "int_frac_digits"); space; tok T_NUMBER (B "2"); eol] ++
  symbol_line T_INT_CURR_SYMBOL_STR (B "int_curr_symbol") (B "EUR") ++ 
  symbol_line T_CURRENCY_SYMBOL_STR (B "currency_symbol") (B "e") ++ trailer.

Ltac positively := repeat (constructor; [reflexivity|]); constructor.

(* C89: what is accepted is, blanks apart, a locale definition according to the grammar. *)
Theorem C89_accepted_is_definition : forall fuel d l n d', positive l ->
  yyParse fuel true d l = Some (Returns n, d') ->
  n = 0 /\ exists w, spells l w /\ locale_definition w.
Proof. exact accepted_spells. Qed.
Print Assumptions C89_accepted_is_definition.
Example C89_nonvacuous : positive sample /\ exists d', yyParse 600 true nothing sample = Some (Returns 0, d').
Proof. split; [unfold sample; positively|]. eexists. vm_compute. reflexivity. Qed.

(* C90: every locale definition whose numbers fit an int is accepted. *)
Theorem C90_definitions_accepted : forall d l w, positive l -> spells l w -> locale_definition w ->
  (forall t, In t l -> is T_NUMBER t -> atoi (t_value t) <> None) ->
  exists d', yyParse (100 * S (length l)) true d l = Some (Returns 0, d').
Proof. exact spells_accepted. Qed.
Print Assumptions C90_definitions_accepted.
Example C90_nonvacuous : exists w, spells sample w /\ locale_definition w /\
  (forall t, In t sample -> is T_NUMBER t -> atoi (t_value t) <> None).
Proof.
  destruct (C89_accepted_is_definition 600 nothing sample 0
              {| int_curr_symbol := B "EUR"; int_frac_digits := 0; mon_grouping := [3; 2] |}) as (_ & w & H1 & H2).
  - unfold sample; positively.
  - vm_compute. reflexivity.
  - exists w. split; [exact H1|]. split; [exact H2|]. intros t I E.
    assert (F : forallb (fun t => negb (t_type t =? token_number T_NUMBER) || match atoi (t_value t) with Some _ => true | None => false end) sample = true)
      by (vm_compute; reflexivity).
    pose proof (proj1 (forallb_forall _ _) F t I) as K. cbv beta in K. unfold is in E. rewrite E, Z.eqb_refl in K.
    cbn [negb orb] in K. destruct (atoi (t_value t)); [discriminate|discriminate K].
Qed.

(* C91: whatever the tokens, the parser ends after at most 100 steps per token, without an index out of range; it waits for
   ever only if the lexer never closes its channel. *)
Theorem C91_always_ends : forall closed d l, positive l ->
  exists o d', yyParse (100 * S (length l)) closed d l = Some (o, d') /\
    (o = Returns 0 \/ o = SyntaxError \/ o = BadNumber \/ o = Waits /\ closed = false).
Proof.
  intros closed d l P. destruct (parse_spec d l P) as (o & d' & E & C).
  assert (C' : o = Returns 0 \/ o = SyntaxError \/ o = BadNumber) by tauto. clear C.
  destruct closed.
  - exists o, d'. split; [exact E|]. tauto.
  - destruct (run_false _ _ _ E) as [F|(d1 & F)].
    + exists o, d'. split; [exact F|]. tauto.
    + exists Waits, d1. split; [exact F|]. tauto.
Qed.
Print Assumptions C91_always_ends.
Example C91_nonvacuous :
  (exists d', yyParse 600 true nothing [quote; quote] = Some (SyntaxError, d')) /\
  (exists d', yyParse 600 false nothing header = Some (Waits, d')) /\
  (exists d', yyParse 600 true nothing (header ++ [tok T_MON_GROUPING_STR (B "mon_grouping"); tok T_NUMBER (B "3-"); eol] ++ trailer) = Some (BadNumber, d')).
Proof. repeat split; eexists; vm_compute; reflexivity. Qed.

(* C92: tokens that are no locale definition are never accepted ... *)
Theorem C92_others_rejected_partial : forall fuel d l o d', positive l -> (forall w, spells l w -> ~ locale_definition w) ->
  yyParse fuel true d l = Some (o, d') -> o = SyntaxError \/ o = BadNumber.
Proof.
  intros fuel d l o d' P N H. destruct (parse_spec d l P) as (o1 & d1 & E & C).
  pose proof (run_det _ _ _ _ _ _ H E) as Q. injection Q as <- <-.
  destruct C as [(-> & _)|C]; [|exact C].
  destruct (accepted_spells _ _ _ _ _ P E) as (_ & w & S1 & D). destruct (N _ S1 D).
Qed.
Print Assumptions C92_others_rejected_partial.
(* ... but Parse never returns its result 1: a syntax error ends the program (Lexer.Error panics). *)
Theorem C92_error_result_refuted : forall fuel closed d l d', positive l -> yyParse fuel closed d l <> Some (Returns 1, d').
Proof.
  intros fuel closed d l d' P H. destruct (C91_always_ends closed d l P) as (o & d1 & E & C).
  pose proof (run_det _ _ _ _ _ _ H E) as Q. injection Q as <- <-.
  destruct C as [C|[C|[C|[C _]]]]; discriminate C.
Qed.
Print Assumptions C92_error_result_refuted.
Example C92_nonvacuous : positive header /\ (exists d', yyParse 600 true nothing header = Some (SyntaxError, d')).
Proof. split; [unfold header; positively|]. eexists. vm_compute. reflexivity. Qed.
(* [header] meets the hypotheses of C92_others_rejected_partial: else it would be accepted *)
Example C92_nonvacuous_2 : forall w, spells header w -> ~ locale_definition w.
Proof.
  intros w S1 D. destruct (C90_definitions_accepted nothing header w) as (d' & E); [unfold header; positively|exact S1|exact D| |].
  - intros t I. unfold header in I. cbn [In] in I. destruct I as [<-|[<-|[]]]; discriminate.
  - assert (E' : exists d1, yyParse (100 * S (length header)) true nothing header = Some (SyntaxError, d1)) by (eexists; vm_compute; reflexivity).
    destruct E' as (d1 & E'). rewrite E in E'. discriminate E'.
Qed.

(* C93: after a successful parse the international currency symbol is the string of the last int_curr_symbol line, or
   unchanged if there is none. *)
Theorem C93_currency_symbol : forall fuel d l n d', positive l -> keyword_texts l ->
  yyParse fuel true d l = Some (Returns n, d') ->
  ((forall t, In t l -> ~ is T_INT_CURR_SYMBOL_STR t) -> int_curr_symbol d' = int_curr_symbol d) /\
  (forall pre k body, significant l = pre ++ k :: body -> is T_INT_CURR_SYMBOL_STR k ->
     (forall t, In t body -> ~ is T_INT_CURR_SYMBOL_STR t) ->
     exists seg post, body = seg ++ post /\ quoted seg (int_curr_symbol d')).
Proof. exact curr_symbol. Qed.
Print Assumptions C93_currency_symbol.
Example C93_nonvacuous : keyword_texts sample /\
  exists d' pre k body, yyParse 600 true nothing sample = Some (Returns 0, d') /\ int_curr_symbol d' = B "EUR" /\
    significant sample = pre ++ k :: body /\ is T_INT_CURR_SYMBOL_STR k /\
    (forall t, In t body -> ~ is T_INT_CURR_SYMBOL_STR t).
Proof.
  split.
  - assert (F : forallb (fun t => if t_type t =? token_number T_INT_CURR_SYMBOL_STR then beqb (t_value t) (B "int_curr_symbol")
                                  else negb (beqb (t_value t) (B "int_curr_symbol"))) sample = true) by (vm_compute; reflexivity).
    split; apply Forall_forall; intros t I; pose proof (proj1 (forallb_forall _ _) F t I) as K; cbv beta in K; unfold is.
    + intros E. rewrite E, Z.eqb_refl in K. now apply beqb_eq.
    + intros E V. rewrite V in K. assert (E' : (t_type t =? token_number T_INT_CURR_SYMBOL_STR) = false).
      { apply Z.eqb_neq. intros E'. rewrite E' in E. repeat destruct E as [E|E]; discriminate E. }
      rewrite E' in K. discriminate K.
  - exists {| int_curr_symbol := B "EUR"; int_frac_digits := 0; mon_grouping := [3; 2] |}, (firstn 17 (significant sample)),
      (tok T_INT_CURR_SYMBOL_STR (B "int_curr_symbol")), (skipn 18 (significant sample)).
    split; [vm_compute; reflexivity|]. split; [reflexivity|]. split; [vm_compute; reflexivity|]. split; [reflexivity|].
    intros t I E. 
    assert (F : forallb (fun t => negb (t_type t =? token_number T_INT_CURR_SYMBOL_STR)) (skipn 18 (significant sample)) = true) by (vm_compute; reflexivity).
    pose proof (proj1 (forallb_forall _ _) F t I) as K. cbv beta in K. unfold is in E. rewrite E, Z.eqb_refl in K. discriminate K.
Qed.

(* C94: after a successful parse the monetary grouping is the list of numbers of the last mon_grouping line, or unchanged if
   there is none. *)
Theorem C94_grouping : forall fuel d l n d', positive l ->
  (forall t, In t l -> is T_NUMBER t -> ~ In ";"%char (t_value t)) ->
  yyParse fuel true d l = Some (Returns n, d') ->
  ((forall t, In t l -> ~ is T_MON_GROUPING_STR t) -> mon_grouping d' = mon_grouping d) /\
  (forall pre k body, significant l = pre ++ k :: body -> is T_MON_GROUPING_STR k ->
     (forall t, In t body -> ~ is T_MON_GROUPING_STR t) ->
     exists seg post ns, body = seg ++ post /\ grouped seg ns /\ map atoi ns = map Some (mon_grouping d')).
Proof. exact grouping. Qed.
Print Assumptions C94_grouping.
Example C94_nonvacuous : (forall t, In t sample -> is T_NUMBER t -> ~ In ";"%char (t_value t)) /\
  exists d' pre k body, yyParse 600 true nothing sample = Some (Returns 0, d') /\ mon_grouping d' = [3; 2] /\
    significant sample = pre ++ k :: body /\ is T_MON_GROUPING_STR k /\ (forall t, In t body -> ~ is T_MON_GROUPING_STR t).
Proof.
  split.
  - intros t I E H.
    assert (F : forallb (fun t => negb (t_type t =? token_number T_NUMBER) || forallb (fun c => negb (Ascii.eqb c ";")) (t_value t)) sample = true)
      by (vm_compute; reflexivity).
    pose proof (proj1 (forallb_forall _ _) F t I) as K. cbv beta in K. unfold is in E. rewrite E, Z.eqb_refl in K.
    cbn [negb orb] in K. pose proof (proj1 (forallb_forall _ _) K _ H) as Q. discriminate Q.
  - exists {| int_curr_symbol := B "EUR"; int_frac_digits := 0; mon_grouping := [3; 2] |}, (firstn 9 (significant sample)),
      (tok T_MON_GROUPING_STR (B "mon_grouping")), (skipn 10 (significant sample)).
    split; [vm_compute; reflexivity|]. split; [reflexivity|]. split; [vm_compute; reflexivity|]. split; [reflexivity|].
    intros t I E. 
    assert (F : forallb (fun t => negb (t_type t =? token_number T_MON_GROUPING_STR)) (skipn 10 (significant sample)) = true) by (vm_compute; reflexivity).
    pose proof (proj1 (forallb_forall _ _) F t I) as K. cbv beta in K. unfold is in E. rewrite E, Z.eqb_refl in K. discriminate K.
Qed.

(* C95: int_frac_digits n stores n.  It never does: the action passes the keyword's parser state where the keyword's
   token type is expected, so no successful parse changes the field. *)
Theorem C95_frac_digits_refuted : forall fuel d l n d', positive l -> yyParse fuel true d l = Some (Returns n, d') ->
  int_frac_digits d' = int_frac_digits d.
Proof.
  intros fuel d l n d' P H. destruct (accepted_means _ _ _ _ _ P H) as (_ & v & M). exact (proj1 (parse_values _ _ _ _ M)).
Qed.
Print Assumptions C95_frac_digits_refuted.
Example C95_nonvacuous : In (tok T_INT_FRAC_DIGITS_STR (B "int_frac_digits")) sample /\
  exists d', yyParse 600 true nothing sample = Some (Returns 0, d').
Proof. split; [cbn; tauto|]. eexists. vm_compute. reflexivity. Qed.

(* C96: a rejected definition changes nothing.  It may change everything: whatever definition is accepted, the same
   definition with the first word of one more category after it is rejected (in no more steps), and yet stores exactly what
   the accepted one stores. *)
Theorem C96_rejected_refuted : forall fuel d l n d' t, positive l -> opens_category t ->
  yyParse fuel true d l = Some (Returns n, d') ->
  yyParse fuel true d (l ++ [t]) = Some (SyntaxError, d').
Proof. exact rejected_after. Qed.
Print Assumptions C96_rejected_refuted.
Example C96_refuted_nonvacuous : positive sample /\ opens_category (tok T_LC_TIME_STR (B "LC_TIME")) /\
  exists d', yyParse 600 true nothing sample = Some (Returns 0, d') /\
    int_curr_symbol d' <> int_curr_symbol nothing /\ mon_grouping d' <> mon_grouping nothing.
Proof.
  split; [unfold sample; positively|]. split; [unfold opens_category, is; tauto|].
  eexists. split; [vm_compute; reflexivity|]. split; discriminate.
Qed.

(* What is true of it: a definition with neither an int_curr_symbol nor a mon_grouping line changes nothing, however the
   parse ends. *)
Theorem C96_unchanged_partial : forall fuel d l o d', positive l -> keyword_texts l ->
  (forall t, In t l -> ~ is T_INT_CURR_SYMBOL_STR t /\ ~ is T_MON_GROUPING_STR t) ->
  yyParse fuel true d l = Some (o, d') -> d' = d.
Proof. exact unchanged_without. Qed.
Print Assumptions C96_unchanged_partial.
Definition fragment : list token :=
  header ++ symbol_line T_CURRENCY_SYMBOL_STR (B "currency_symbol") (B "e") ++ [tok T_END_STR (B "END"); eol].
Example C96_unchanged_nonvacuous : positive fragment /\ keyword_texts fragment /\
  (forall t, In t fragment -> ~ is T_INT_CURR_SYMBOL_STR t /\ ~ is T_MON_GROUPING_STR t) /\
  exists d', yyParse 600 true nothing fragment = Some (SyntaxError, d').
Proof.
  split; [unfold fragment; positively|]. split; [|split].
  - split; apply Forall_forall; intros t I; unfold fragment in I; cbn in I;
      repeat (destruct I as [<-|I]; [unfold is; cbn; first [discriminate|intros _; discriminate|intros [H|[H|[H|[H|H]]]]; discriminate]|]); contradiction.
  - intros t I; unfold fragment in I; cbn in I;
      repeat (destruct I as [<-|I]; [unfold is; cbn; split; discriminate|]); contradiction.
  - eexists. vm_compute. reflexivity.
Qed.

(* C97: blanks between tokens do not matter: not for the outcome, not for what is stored, not even for the number of steps. *)
Theorem C97_blanks_ignored : forall fuel closed d l l', significant l = significant l' ->
  yyParse fuel closed d l = yyParse fuel closed d l'.
Proof. exact whitespace_ignored. Qed.
Print Assumptions C97_blanks_ignored.
Example C97_nonvacuous : significant sample = significant (space :: sample ++ [space; space]) /\ sample <> significant sample.
Proof. split; [vm_compute; reflexivity|]. vm_compute. discriminate. Qed.
