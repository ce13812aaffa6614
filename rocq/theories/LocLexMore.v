(* More about the lexer of locale definitions together with the parser. *)
From Verif Require Import GoBase GoFacts RuneFacts LocGramSpec LocYaccModel LocYaccProofs LocYaccGram LocYaccSound LocParseSpec LocYaccFinal
  LocaleModel LocaleProofs LocLexModel LocLexProofs LocDocSpec LocDocLex LocDocProofs LocDocFinal LocLexEnds.
Local Open Scope Z_scope.

(* ---- the tokens are fit for the parser ---- *)
Lemma lexer_positive : forall fuel esc src, positive (tokens_of (lex fuel esc src)).
Proof.
  intros fuel esc src. eapply Forall_impl; [|apply types_ends]. intros t H. cbv beta in *.
  assert (A : forallb (fun z => 0 <? z) lexer_types = true) by (vm_compute; reflexivity).
  apply Z.ltb_lt. exact (proj1 (forallb_forall _ _) A _ H).
Qed.

(* ---- the parser accepts only at the end of the tokens ---- *)
Lemma accept_code : forall st tok l n, exca_find st yyExca = Some l -> exca_pick tok l = Some n -> n < 0 -> tok = 1.
Proof.
  intros st tok l n F P N. unfold yyExca in F. cbn [exca_find] in F. change (-1 =? -1) with true in F. cbn [andb] in F.
  destruct (1 =? st); [injection F as <-|discriminate F]. cbn [exca_pick] in P. change (1 <? 0) with false in P. cbn [orb] in P.
  destruct (1 =? tok) eqn:Q; [apply Z.eqb_eq in Q; now symmetry|]. change (-2 <? 0) with true in P. cbn [orb] in P. injection P as <-. lia.
Qed.
Definition open_look (c : config) : Prop := look c <> Some 1 /\ positive (input c).
Lemma next_positive : forall l t r, positive l -> next_token l = Some (t, r) -> 0 < t_type t /\ positive r.
Proof.
  induction l as [|x l IH]; intros t r P H; cbn [next_token] in H; [discriminate|]. inversion P as [|? ? P1 P2]; subst.
  destruct (t_type x =? WHITESPACE); [now apply IH|]. injection H as <- <-. now split.
Qed.
Lemma read_open : forall c t c', open_look c -> LocYaccModel.read false c = Some (t, c') -> t <> 1 /\ open_look c' /\ state c' = state c.
Proof.
  intros c t c' [L P] H. unfold LocYaccModel.read in H. destruct (look c) as [x|] eqn:E.
  - injection H as <- <-. split; [congruence|]. split; [|reflexivity]. split; [now rewrite E|exact P].
  - destruct (next_token (input c)) as [[tok r]|] eqn:N; [|discriminate H]. injection H as <- <-.
    destruct (next_positive _ _ _ P N) as [P1 P2]. pose proof (translate_range _ P1) as R. split; [lia|]. split; [|reflexivity].
    split; cbn [look input]; [|exact P2]. destruct (t_type tok <? 0); [discriminate|]. intros X. injection X as X. lia.
Qed.
Lemma reduce_open : forall n c, open_look c ->
  match reduce n c with Continue c' => open_look c' | Stop o _ => forall m, o <> Returns m end.
Proof.
  intros n c H. unfold reduce. destruct (at_ yyR2 n) as [k|]; [|discriminate]. destruct (at_ yyR1 n) as [A|]; [|discriminate].
  destruct (k <? 0); [discriminate|]. cbv zeta. destruct (skipn _ (below c)) as [|top rs]; [discriminate|].
  destruct (goto_ _ _); [|discriminate]. destruct (action _ _ _ _) as [[v d]|]; [exact H|discriminate].
Qed.
Lemma default_open : forall c, open_look c ->
  match default_action false c with Continue c' => open_look c' | Stop o _ => forall m, o <> Returns m end.
Proof.
  intros c H. unfold default_action. destruct (at_ yyDef (state c)) as [n|]; [|discriminate]. destruct (n =? -2).
  - destruct (LocYaccModel.read false c) as [[t c']|] eqn:R; [|discriminate]. destruct (read_open _ _ _ H R) as (N1 & O & _).
    destruct (exca_find (state c') yyExca) as [l|] eqn:F; [|discriminate]. destruct (exca_pick t l) as [m|] eqn:P; [|discriminate].
    destruct (m <? 0) eqn:M; [apply Z.ltb_lt in M; exfalso; apply N1; exact (accept_code _ _ _ _ F P M)|].
    destruct (m =? 0); [discriminate|now apply reduce_open].
  - destruct (n =? 0); [discriminate|now apply reduce_open].
Qed.
Lemma step_open : forall c, open_look c ->
  match step false c with Continue c' => open_look c' | Stop o _ => forall m, o <> Returns m end.
Proof.
  intros c H. unfold step. set (c0 := {| state := state c; yyval := _; below := _; above := _; look := _; lval := _; input := _; defs := _ |}).
  assert (H0 : open_look c0) by exact H. clearbody c0. cbv zeta. destruct (at_ yyPact (state c0)) as [p|]; [|discriminate].
  destruct (p <=? yyFlag); [now apply default_open|]. destruct (LocYaccModel.read false c0) as [[t c1]|] eqn:R; [|discriminate].
  destruct (read_open _ _ _ H0 R) as (N1 & O & _). destruct ((p + t <? 0) || (yyLast <=? p + t)); [now apply default_open|].
  destruct (at_ yyAct (p + t)) as [s|]; [|discriminate]. destruct (at_ yyChk s) as [k|]; [|discriminate].
  destruct (k =? t); [|now apply default_open]. split; [discriminate|exact (proj2 O)].
Qed.
Lemma run_open : forall fuel c n d, open_look c -> run fuel false c <> Some (Returns n, d).
Proof.
  induction fuel as [|f IH]; intros c n d H; [discriminate|]. cbn [run]. pose proof (step_open c H) as S1.
  destruct (step false c) as [c'|o d']; [now apply IH|]. intros X. injection X as -> _. now apply (S1 n).
Qed.
Lemma open_never : forall fuel d l n d', positive l -> yyParse fuel false d l <> Some (Returns n, d').
Proof. intros fuel d l n d' P. apply run_open. split; [discriminate|exact P]. Qed.

(* ---- what acceptance means ---- *)
Lemma accepted_inv : forall fuel d text d', parse_text fuel d text = Accepted d' ->
  exists src esc s, removeComments text = Ok (src, esc) /\ lex fuel esc src = Done tt s /\
    yyParse fuel true d (rev (sent s)) = Some (Returns 0, d').
Proof.
  intros fuel d text d' H. unfold parse_text in H. destruct (removeComments text) as [[src esc]| |]; try discriminate H.
  cbv zeta in H. pose proof (lexer_positive fuel esc src) as P. destruct (lex fuel esc src) as [u s|s|s] eqn:L; [|discriminate H|]; cbn [tokens_of] in *.
  - destruct u. exists src, esc, s. split; [reflexivity|]. split; [exact L|].
    destruct (yyParse fuel true d (rev (sent s))) as [[[n| | | |] e]|]; try discriminate H.
    destruct (n =? 0) eqn:Q; [|discriminate H]. injection H as ->. apply Z.eqb_eq in Q. now subst.
  - exfalso. destruct (yyParse fuel false d (rev (sent s))) as [[[n| | | |] e]|] eqn:Y; try discriminate H.
    exact (open_never _ _ _ _ _ P Y).
Qed.

(* ---- where the lexer stops ---- *)
Definition headers : list bytes :=
  [B "LC_CTYPE"; B "LC_COLLATE"; B "LC_MONETARY"; B "LC_NUMERIC"; B "LC_TIME"; B "LC_MESSAGES"].
Definition at_header (r : bytes) : Prop :=
  exists h t, In h headers /\ r = h ++ t /\ (t = [] \/ exists c t', t = c :: t' /\ ender c).

Lemma bind_done : forall A C (m : lres A) (f : A -> lx -> lres C) c s', bind m f = Done c s' -> exists a s, m = Done a s /\ f a s = Done c s'.
Proof. intros A C m f c s' H. destruct m as [a s|s|s]; cbn [bind] in H; try discriminate H. now exists a, s. Qed.
Lemma must_newline_cur : forall s u s', must (grabNewline s) = Done u s' -> cur s' = [].
Proof.
  intros s u s' H. unfold must in H. apply bind_done in H. destruct H as (b & s1 & H1 & H2). destruct b; [|discriminate H2].
  injection H2 as _ <-. unfold grabNewline in H1. cbv zeta in H1. destruct (beqb _ []) eqn:Q; [discriminate H1|]. injection H1 as <-. reflexivity.
Qed.
Lemma newline_cur : forall s b s', grabNewline s = Done b s' -> cur s' = [].
Proof.
  intros s b s' H1. unfold grabNewline in H1. cbv zeta in H1. destruct (beqb _ []) eqn:Q; injection H1 as _ <-; [|reflexivity].
  apply beqb_eq in Q. unfold current in Q. apply (f_equal (@rev _)) in Q. now rewrite rev_involutive in Q.
Qed.
Definition inner (st : lstate) : Prop := match st with SInit | SCategory => False | _ => True end.
Lemma yields : forall fuel esc st s o s', call fuel esc st s = Done o s' ->
  match st with
  | SInit => o = Some SCategory /\ s' = s
  | SCategory => o = None \/ exists x, o = Some x /\ inner x
  | _ => (o = Some SCategory /\ cur s' = []) \/ exists x, o = Some x /\ inner x
  end.
Proof.
  intros fuel esc st s o s' H. destruct st as [| |c| | |]; cbn [call] in H.
  - injection H as <- <-. now split.
  - unfold sCategory in H. cbv zeta in H. match type of H with (match ?x with _ => _ end) = _ => destruct x as [[typ st]|] eqn:E end.
    + apply bind_done in H. destruct H as (u & s1 & _ & H). injection H as <- _. right. exists st. split; [reflexivity|].
      destruct (beqb _ _); [injection E as _ <-; exact I|]. destruct (find _ _); [|discriminate E]. injection E as _ <-. exact I.
    + injection H as <- _. now left.
  - unfold sGeneric in H. apply bind_done in H. destruct H as (b & s1 & _ & H). cbv zeta in H. destruct (beqb _ _).
    + apply bind_done in H. destruct H as (u & s2 & _ & H). destruct (negb _); [discriminate H|].
      apply bind_done in H. destruct H as (b3 & s3 & _ & H). apply bind_done in H. destruct H as (u4 & s4 & H4 & H). injection H as <- <-.
      left. split; [reflexivity|]. exact (must_newline_cur _ _ _ H4).
    + destruct (look_up _ _) as [[typ g]|]; [|discriminate H]. repeat (apply bind_done in H; destruct H as (? & ? & _ & H)).
      injection H as <- _. right. eexists. split; [reflexivity|exact I].
  - unfold sCollate in H. apply bind_done in H. destruct H as (b & s1 & _ & H). cbv zeta in H. destruct (beqb _ _).
    + apply bind_done in H. destruct H as (u & s2 & _ & H). destruct (negb _); [discriminate H|].
      apply bind_done in H. destruct H as (b3 & s3 & H3 & H). injection H as <- <-. left. split; [reflexivity|]. exact (newline_cur _ _ _ H3).
    + right. destruct (beqb _ _); [injection H as <- _; eexists; split; [reflexivity|exact I]|]. destruct (beqb _ _).
      * repeat (apply bind_done in H; destruct H as (? & ? & _ & H); cbv zeta in H; try (destruct (negb _); [discriminate H|])).
        injection H as <- _. eexists. split; [reflexivity|exact I].
      * destruct (beqb _ _); [repeat (apply bind_done in H; destruct H as (? & ? & _ & H))|];
          injection H as <- _; eexists; (split; [reflexivity|exact I]).
  - right. unfold sOrderStart in H. apply bind_done in H. destruct H as (b & s1 & _ & H). cbv zeta in H.
    destruct (beqb _ _); [apply bind_done in H; destruct H as (? & ? & _ & H)|repeat (destruct (beqb _ _); [injection H as <- _; eexists; split; [reflexivity|exact I]|])];
      injection H as <- _; eexists; (split; [reflexivity|exact I]).
  - right. unfold sOrder in H. apply bind_done in H. destruct H as (b & s1 & _ & H). cbv zeta in H.
    destruct (negb b); [destruct (negb _); [discriminate H|]|]; apply bind_done in H; destruct H as (? & ? & _ & H);
      injection H as <- _; eexists; (split; [reflexivity|exact I]).
Qed.
Lemma done_category : forall k fuel esc st s s', (inner st \/ cur s = []) -> lex_run k fuel esc st s = Done tt s' ->
  exists s0, cur s0 = [] /\ sCategory s0 = Done None s'.
Proof.
  induction k as [|k IH]; intros fuel esc st s s' C H; [discriminate H|]. cbn [lex_run] in H. apply bind_done in H.
  destruct H as (o & s1 & E & H). pose proof (yields _ _ _ _ _ _ E) as Y. destruct o as [st1|].
  - apply (IH fuel esc st1 s1 s'); [|exact H]. destruct st as [| |c| | |]; cbv beta iota in Y.
    + destruct Y as [Y ->]. injection Y as ->. destruct C as [[]|C]. now right.
    + destruct Y as [Y|(x & Y & Ix)]; [discriminate Y|]. injection Y as ->. now left.
    + destruct Y as [[_ Y]|(x & Y & Ix)]; [now right|]. injection Y as ->. now left.
    + destruct Y as [[_ Y]|(x & Y & Ix)]; [now right|]. injection Y as ->. now left.
    + destruct Y as [[_ Y]|(x & Y & Ix)]; [now right|]. injection Y as ->. now left.
    + destruct Y as [[_ Y]|(x & Y & Ix)]; [now right|]. injection Y as ->. now left.
  - injection H as <-. destruct st as [| |c| | |]; cbv beta iota in Y; try (destruct Y as [[Y _]|(x & Y & _)]; discriminate Y).
    + destruct Y as [Y _]. discriminate Y.
    + destruct C as [[]|C]. exists s. now split.
Qed.

Lemma header_taken : forall h t s, In h headers -> (t = [] \/ exists c t', t = c :: t' /\ ender c) -> cur s = [] -> rest s = h ++ t ->
  current (take (upperChars ++ B "_") s) = h.
Proof.
  intros h t [c r w l] I T Ec Er. cbn [cur rest] in *. subst c r. unfold take. cbn [rest]. rewrite take_from_all.
  - unfold current. cbn [cur]. now rewrite app_nil_r, rev_involutive.
  - now apply lows.
  - assert (A : forallb (fun h => forallb (fun c => existsb (Ascii.eqb c) (upperChars ++ B "_")) h) headers = true) by (vm_compute; reflexivity).
    pose proof (proj1 (forallb_forall _ _) A h I) as K. cbv beta in K. apply Forall_forall. intros x Hx.
    pose proof (proj1 (forallb_forall _ _) K x Hx) as M. cbv beta in M. apply existsb_exists in M. destruct M as (y & Iy & Ey).
    apply Ascii.eqb_eq in Ey. now subst.
  - destruct T as [->|(c & t' & -> & He)]; [exact Logic.I|]. apply stops_sep; [reflexivity..|]. right. exists c, t'. auto.
  - rewrite app_length. lia.
Qed.
Lemma stops_at_header : forall fuel esc src s, lex fuel esc src = Done tt s -> ~ at_header (pend s).
Proof.
  intros fuel esc src s H (h & t & Ih & Ep & T). unfold lex in H. apply done_category in H; [|now right].
  destruct H as (s0 & C & H).
  assert (P : pend s = rest s0).
  { unfold sCategory in H. cbv zeta in H. match type of H with (match ?x with _ => _ end) = _ => destruct x as [[typ st]|] eqn:E end.
    - apply bind_done in H. destruct H as (u & s1 & _ & H). discriminate H.
    - injection H as <-. rewrite pend_take. unfold pend, current. now rewrite C. }
  unfold sCategory in H. cbv zeta in H. rewrite (header_taken h t s0 Ih T C) in H by (now rewrite <- P).
  unfold headers in Ih. cbn [In] in Ih. destruct Ih as [<-|[<-|[<-|[<-|[<-|[<-|[]]]]]]];
    match type of H with (match ?x with _ => _ end) = _ => let y := eval vm_compute in x in change x with y in H end;
    cbv beta iota in H; apply bind_done in H; destruct H as (u & s1 & _ & H); discriminate H.
Qed.
