(* Property theorems C140, and C103 in full (pkg/locale/localedef.y, y.go, localelex.go). *)
From Verif Require Import GoBase GoFacts LocGramSpec LocYaccModel LocYaccProofs LocParseSpec LocYaccSound LocYaccFinal LocaleModel LocLexModel LocLexProofs LocLexMore LocHang
  LocSchedProofs LocViaSpec LocViaProofs LocYaccProps LocDocSpec LocLexBad LocDocLex LocDocProofs LocDocProps.
Local Open Scope Z_scope.

(* a number whose text is no integer, or one too large for Go's type int *)
Definition unreadable (t : token) : Prop := is T_NUMBER t /\ atoi (t_value t) = None.

(* C140: what the parser does on tokens l after which none has come yet, and the channel is still open: if a locale definition
   begins with l it waits, and if none does it reports a syntax error; unless it has come upon a number that is no integer. *)
Theorem C140_prefix : forall d l, positive l ->
  exists o d', yyParse (100 * S (length l)) false d l = Some (o, d') /\
    (o = Waits /\ begins_definition l \/
     o = SyntaxError /\ ~ begins_definition l \/
     o = BadNumber /\ exists t, In t l /\ unreadable t).
Proof.
  intros d l P. destruct (parse_open d l P) as (o & d' & E & C). exists o, d'. split; [exact E|].
  destruct C as [C|[C|(C & t & C1 & C2 & C3)]]; [now left|now right; left|]. right. right. split; [exact C|]. exists t. split; [exact C1|now split].
Qed.
Print Assumptions C140_prefix.

(* C140, consequence: the error is reported at the first token with which no definition can go on, whatever follows. *)
Theorem C140_first_error : forall d p t q closed, positive (p ++ t :: q) -> begins_definition p -> ~ begins_definition (p ++ [t]) ->
  (forall u, In u (p ++ [t]) -> ~ unreadable u) ->
  exists d' d1 fuel, yyParse fuel closed d (p ++ t :: q) = Some (SyntaxError, d') /\ yyParse fuel false d p = Some (Waits, d1).
Proof.
  intros d p t q closed P Bp Bt U. change (t :: q) with ([t] ++ q) in *. rewrite app_assoc in *.
  pose proof P as P'. apply Forall_app in P'. destruct P' as [P1 _]. pose proof P1 as P2. apply Forall_app in P2. destruct P2 as [P2 _].
  destruct (C140_prefix d _ P1) as (o & d' & E & C). destruct C as [(_ & C)|[(-> & _)|(_ & u & C1 & C2)]]; [now elim Bt| |now elim (U u)].
  destruct (C140_prefix d _ P2) as (o1 & d1 & E1 & C). destruct C as [(-> & _)|[(_ & C)|(_ & u & C1 & C2)]]; [|now elim C|elim (U u); [apply in_or_app; now left|exact C2]].
  exists d', d1, (100 * S (length (p ++ [t])) + 100 * S (length p))%nat. split.
  - destruct (run_longer_any q closed _ _ _ _ E) as [X|X]; [discriminate|]. apply run_more. exact X.
  - rewrite Nat.add_comm. apply run_more. exact E1.
Qed.
Print Assumptions C140_first_error.

(* the first two lines of LC_MONETARY begin a definition; with a second header behind them they do not, and the parser says so at once *)
Example C140_nonvacuous : let p := header ++ symbol_line T_INT_CURR_SYMBOL_STR (B "int_curr_symbol") (B "EUR ") in let t := tok T_LC_MONETARY_STR (B "LC_MONETARY") in
  positive (p ++ t :: trailer) /\ begins_definition p /\ ~ begins_definition (p ++ [t]) /\ (forall u, In u (p ++ [t]) -> ~ unreadable u).
Proof.
  cbv zeta. split; [repeat constructor|]. split; [|split].
  - edestruct (C140_prefix nothing) as (o & d' & E & C); [|destruct C as [[_ C]|[[-> _]|[-> _]]]; [exact C| |]].
    { repeat constructor. }
    { vm_compute in E. discriminate E. }
    { vm_compute in E. discriminate E. }
  - edestruct (C140_prefix nothing) as (o & d' & E & C); [|destruct C as [[-> _]|[[_ C]|[-> _]]]; [|exact C|]].
    { repeat constructor. }
    { vm_compute in E. discriminate E. }
    { vm_compute in E. discriminate E. }
  - intros u I (X & _). vm_compute in I. repeat (destruct I as [<-|I]; [discriminate X|]). destruct I.
Qed.

(* C103: reading a text ends as soon as the lexer ends on it, or the tokens it has sent at some time begin no definition. *)
Theorem C103_parser_stops_partial : forall d text src esc, removeComments text = Ok (src, esc) ->
  (exists fuel, (forall s, lex fuel esc src <> Unfinished s) \/ ~ begins_definition (tokens_of (lex fuel esc src))) ->
  exists fuel, parse_text fuel d text <> StillRunning.
Proof.
  intros d text src esc R (f & H).
  pose proof (lexer_positive f esc src) as P.
  assert (K : exists o d', yyParse (100 * S (length (tokens_of (lex f esc src)))) (match lex f esc src with Unfinished _ => false | _ => true end) d
      (tokens_of (lex f esc src)) = Some (o, d') /\ o <> Waits).
  { destruct (lex f esc src) as [u s|s|s] eqn:L.
    1, 2: destruct (parse_spec d _ P) as (o & d' & E & C); exists o, d'; split; [exact E|]; destruct C as [(-> & _)|[->| ->]]; discriminate.
    destruct H as [H|H]; [now elim (H s)|]. destruct (C140_prefix d _ P) as (o & d' & E & C). exists o, d'. split; [exact E|].
    destruct C as [(_ & C)|[(-> & _)|(-> & _)]]; [now elim H|discriminate..]. }
  destruct K as (o & d' & E & N).
  set (n := (100 * S (length (tokens_of (lex f esc src))))%nat) in *. set (F := (f + n)%nat).
  exists F. intros X. unfold parse_text in X. rewrite R in X. cbv zeta in X.
  pose proof (lex_grows f F esc src ltac:(unfold F; lia)) as G. destruct (tokens_grow f F esc src ltac:(unfold F; lia)) as (more & T).
  assert (Fin : forall cl l, positive l -> run F cl (start d l) = Some (o, d') -> o = SyntaxError \/ o = BadNumber \/ exists z, o = Returns z) by
    (intros cl l Pl Y; destruct (parse_spec d l Pl) as (o1 & d1 & E1 & C1); destruct (run_false _ _ _ E1) as [Z1|(d2 & Z1)];
     destruct cl; try (pose proof (run_det _ _ _ _ _ _ Y E1) as W; injection W as <- _); try (pose proof (run_det _ _ _ _ _ _ Y Z1) as W; injection W as -> _);
     destruct C1 as [(-> & _)|[->| ->]]; try congruence; eauto).
  destruct (lex f esc src) as [u s|s|s] eqn:L; cbn [grows] in G.
  - rewrite G in X. cbn [tokens_of] in X, E, P. unfold yyParse in X, E. apply (run_more _ f) in E. rewrite Nat.add_comm in E. fold F in E. rewrite E in X.
    destruct (Fin _ _ P E) as [->|[->|(z & ->)]]; try discriminate. destruct (z =? 0); discriminate.
  - rewrite G in X. discriminate.
  - assert (E' : forall cl, run F cl (start d (tokens_of (lex F esc src))) = Some (o, d')).
    { intros cl. rewrite T. destruct (run_longer_any more cl _ _ _ _ E) as [Y|Y]; [congruence|]. apply (run_more _ f) in Y. rewrite Nat.add_comm in Y. exact Y. }
    pose proof (lexer_positive F esc src) as PF. pose proof (Fin _ _ PF (E' true)) as O. unfold yyParse in X. rewrite !E' in X.
    destruct (lex F esc src) as [u' s'|s'|s']; [| discriminate|];
      (destruct O as [->|[->|(z & ->)]]; [discriminate..|]; destruct (z =? 0); discriminate).
Qed.
Print Assumptions C103_parser_stops_partial.

(* Every other text is one on which reading never ends (if its numbers are integers): the lexer never ends, and the tokens it has sent
   always begin a definition. *)
Theorem C103_runs_on_refuted : forall d text src esc, removeComments text = Ok (src, esc) ->
  (forall fuel t, In t (tokens_of (lex fuel esc src)) -> ~ unreadable t) ->
  (forall fuel, exists s, lex fuel esc src = Unfinished s /\ begins_definition (tokens_of (lex fuel esc src))) ->
  forall fuel, parse_text fuel d text = StillRunning.
Proof.
  intros d text src esc R N H f. destruct (H f) as (s & L & D). unfold parse_text. rewrite R. cbv zeta. rewrite L. rewrite L in D.
  pose proof (lexer_positive f esc src) as P. rewrite L in P. cbn [tokens_of] in *.
  destruct (C140_prefix d _ P) as (o & d' & E & C). destruct (yyParse f false d (rev (sent s))) as [[o' d1]|] eqn:Y; [|reflexivity].
  pose proof (run_det _ _ _ _ _ _ Y E) as Q. injection Q as -> ->. destruct C as [(-> & _)|[(_ & C)|(_ & t & C1 & C2)]]; [reflexivity|now elim C|].
  exfalso. apply (N f t); [|exact C2]. rewrite L. exact C1.
Qed.
Print Assumptions C103_runs_on_refuted.

(* ... and on no other text does it run on, numbers or not. *)
Theorem C103_runs_on_only_refuted : forall d text, (forall fuel, parse_text fuel d text = StillRunning) ->
  exists src esc, removeComments text = Ok (src, esc) /\
    forall fuel, exists s, lex fuel esc src = Unfinished s /\ begins_definition (tokens_of (lex fuel esc src)).
Proof.
  intros d text H. destruct (removeComments text) as [[src esc]| |] eqn:R.
  2, 3: specialize (H O); unfold parse_text in H; rewrite R in H; discriminate.
  exists src, esc. split; [reflexivity|]. intros f.
  destruct (lex f esc src) as [u s|s|s] eqn:L.
  1, 2: exfalso; destruct (C103_parser_stops_partial d text src esc R) as (g & G); [exists f; left; intros s'; congruence|]; now apply G.
  exists s. split; [reflexivity|]. rewrite <- L. pose proof (lexer_positive f esc src) as P. destruct (C140_prefix d _ P) as (o & d' & E & C).
  destruct C as [(_ & C)|[(_ & C)|(-> & t & C)]]; [exact C| |].
  - exfalso. destruct (C103_parser_stops_partial d text src esc R) as (g & G); [exists f; now right|]. now apply G.
  - exfalso. set (n := (100 * S (length (tokens_of (lex f esc src))))%nat) in *.
    destruct (tokens_grow f (f + n) esc src ltac:(lia)) as (more & T). specialize (H (f + n)%nat). unfold parse_text in H. rewrite R in H. cbv zeta in H.
    assert (E' : forall cl, run (f + n) cl (start d (tokens_of (lex (f + n) esc src))) = Some (BadNumber, d')).
    { intros cl. rewrite T. destruct (run_longer_any more cl _ _ _ _ E) as [Y|Y]; [discriminate|]. apply (run_more _ f) in Y. rewrite Nat.add_comm in Y. exact Y. }
    unfold yyParse in H. rewrite !E' in H. destruct (lex (f + n) esc src); discriminate.
Qed.
Print Assumptions C103_runs_on_only_refuted.

(* An empty LC_COLLATE is refused at END, while the lexer would go on for ever in the second one; with LC_COLLATE alone it does. *)
Definition empty_collation : bytes := lines [B "LC_COLLATE"; B "END LC_COLLATE"; B "LC_COLLATE"; B "copy"].
Example C103_exact_nonvacuous :
  (exists src, removeComments empty_collation = Ok (src, 92%N) /\ ~ begins_definition (tokens_of (lex 200 92 src)) /\
     (exists s, lex 200 92 src = Unfinished s)) /\
  (let src := B "LC_COLLATE" ++ [nl; nl] in removeComments (B "LC_COLLATE" ++ [nl]) = Ok (src, 92%N) /\
     forall fuel, (forall t, In t (tokens_of (lex fuel 92 src)) -> ~ unreadable t) /\
       exists s, lex fuel 92 src = Unfinished s /\ begins_definition (tokens_of (lex fuel 92 src))).
Proof.
  split.
  - eexists. split; [vm_compute; reflexivity|]. split; [|vm_compute; eexists; reflexivity].
    edestruct (C140_prefix nothing) as (o & d' & E & C); [apply lexer_positive|]. destruct C as [[-> _]|[[_ C]|[-> _]]]; [|exact C|].
    + vm_compute in E. discriminate E.
    + vm_compute in E. discriminate E.
  - cbv zeta. split; [vm_compute; reflexivity|]. intros f. unfold lex. fold (initial (B "LC_COLLATE" ++ [nl; nl])).
    assert (D : forall l, In l [[]; [tk LC_COLLATE_STR (B "LC_COLLATE"); tk EOL [nl; nl]]] -> begins_definition l).
    { intros l I. destruct (C140_prefix nothing l) as (o & d' & E & C).
      - repeat (destruct I as [<-|I]; [repeat constructor|]). destruct I.
      - destruct C as [[_ C]|[[-> _]|[-> _]]]; [exact C| |]; exfalso; (repeat (destruct I as [<-|I]; [vm_compute in E; discriminate E|])); destruct I. }
    assert (K : exists s, lex_run f f 92 SInit (initial (B "LC_COLLATE" ++ [nl; nl])) = Unfinished s /\
      In (rev (sent s)) [[]; [tk LC_COLLATE_STR (B "LC_COLLATE"); tk EOL [nl; nl]]]).
    { destruct f as [|[|k]]; [eexists; split; [reflexivity|now left]..|]. set (f := S (S k)).
      change (lex_run f f 92 SInit (initial (B "LC_COLLATE" ++ [nl; nl]))) with
        (lex_run k f 92 SCollate (fresh [] [tk EOL [nl; nl]; tk LC_COLLATE_STR (B "LC_COLLATE")])).
      rewrite hang_collate. eexists. split; [reflexivity|]. right. now left. }
    destruct K as (s & E & I). rewrite E. cbn [tokens_of]. split; [|exists s; split; [reflexivity|now apply D]].
    intros t J (X & _). repeat (destruct I as [I|I]; [rewrite <- I in J; repeat (destruct J as [<-|J]; [discriminate X|]); destruct J|]). destruct I.
Qed.
