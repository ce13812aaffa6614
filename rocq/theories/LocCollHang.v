(* Texts with LC_COLLATE on which the lexer does not end. *)
From Verif Require Import GoBase GoFacts Utf8Facts RuneFacts RuneMore LocaleSpec LocGramSpec LocYaccModel LocYaccProofs LocYaccGram LocYaccSound LocParseSpec LocYaccFinal
  LocaleModel LocaleProofs LocLexModel LocLexProofs LocDocSpec LocDocLex LocDocProofs LocDocFinal LocTokSpec LocHangSpec LocNumProofs LocLexEnds LocLexMore LocLexBad LocHang
  LocMidSpec LocMidProofs LocCollSpec LocCollProofs.
Local Open Scope Z_scope.

(* the lexer goes on for ever, sending only white space after the tokens l *)
Definition for_ever (l : list token) (r : lres unit) : Prop :=
  exists s m, r = Unfinished s /\ rev (sent s) = rev l ++ m /\ Forall (fun t => t_type t = WHITESPACE) m.
Definition only_white (l l' : list token) : Prop := l' = l \/ exists v, l' = tk WHITESPACE v :: l.
Lemma for_ever_white : forall l l' r, only_white l l' -> for_ever l' r -> for_ever l r.
Proof.
  intros l l' r [->|(v & ->)] H; [exact H|]. destruct H as (s & m & E & R & F). exists s, (tk WHITESPACE v :: m). split; [exact E|]. split; [|now constructor].
  rewrite R. cbn [rev]. now rewrite <- app_assoc.
Qed.
Lemma loop_for_ever : forall fuel esc (P : list token -> lstate * lx -> Prop),
  (forall l st s, P l (st, s) -> sent s = l) ->
  (forall l st s, P l (st, s) -> exists st' s' l', call fuel esc st s = Done (Some st') s' /\ only_white l l' /\ P l' (st', s')) ->
  forall k l st s, P l (st, s) -> for_ever l (lex_run k fuel esc st s).
Proof.
  intros fuel esc P Hs Hc. induction k as [|k IH]; intros l st s H.
  - exists s, []. split; [reflexivity|]. rewrite (Hs _ _ _ H), app_nil_r. now split.
  - destruct (Hc _ _ _ H) as (st' & s' & l' & E & W & H'). rewrite (lex_call _ _ _ _ _ _ _ E). apply (for_ever_white _ _ _ W). now apply IH.
Qed.

(* ---- words that lead nowhere ---- *)
Definition white (c : ascii) : Prop := In c whiteSpace.
Lemma nowhere_white : forall u, leads_nowhere u -> stops whiteSpace u.
Proof.
  intros u [c r L N|v g b Ne F _ _ _ _ _].
  - split; [exact L|]. intros [<-|[<-|[]]]; apply N; [now left|right; now left].
  - destruct v as [|c v]; [congruence|]. apply Forall_inv in F. destruct (letters_facts c F) as (L & W & _). now split.
Qed.
Definition nowhere (l : list token) (x : lstate * lx) : Prop :=
  exists v g u w, x = (SCollate, {| cur := rev v; rest := g ++ u; rew := w; sent := l |}) /\ Forall white g /\ leads_nowhere u.
Lemma nowhere_call : forall fuel esc l st s, nowhere l (st, s) ->
  exists st' s' l', call fuel esc st s = Done (Some st') s' /\ only_white l l' /\ nowhere l' (st', s').
Proof.
  intros fuel esc l st s (v & g & u & w & E & Fg & Lu). injection E as -> ->. cbn [call]. unfold sCollate.
  assert (W : exists b w1 l1, grabWhitespace {| cur := rev v; rest := g ++ u; rew := w; sent := l |} = Done b {| cur := []; rest := u; rew := w1; sent := l1 |} /\ only_white l l1).
  { unfold grabWhitespace. cbv zeta. rewrite (take_all whiteSpace g u) by (first [exact low_white|exact Fg|now apply nowhere_white]).
    unfold current, emit. cbn [cur rest sent]. unfold current. cbn [cur]. rewrite rev_app_distr, !rev_involutive. destruct (beqb (v ++ g) []) eqn:Z.
    - apply beqb_eq in Z. apply app_eq_nil in Z. destruct Z as [-> ->]. do 3 eexists. split; [reflexivity|now left].
    - do 3 eexists. split; [reflexivity|]. right. eexists. reflexivity. }
  destruct W as (b & w1 & l1 & -> & Ow). cbn [bind]. fold word_chars. destruct Lu as [c r L N|v2 g2 u2 Ne F N1 N2 Fg2 Ew Lu].
  - assert (St : stops word_chars (c :: r)).
    { split; [exact L|]. intros J. apply N. right; right. now apply letters_words. }
    unfold take. rewrite take_stop by exact St. exists SCollate. do 2 eexists. split; [reflexivity|]. split; [exact Ow|].
    exists [], [], (c :: r), w1. split; [reflexivity|]. split; [constructor|]. now apply nowhere_now.
  - assert (St : stops word_chars (g2 ++ u2)) by now apply stops_words.
    rewrite (take_all word_chars v2 (g2 ++ u2)) by (first [exact low_word|now apply letters_word|exact St]). unfold current. cbn [cur]. rewrite app_nil_r, rev_involutive.
    apply beqb_neq in N1, N2. rewrite N1, N2.
    assert (Nm : ~ In "-"%char v2) by (intros J; apply (proj1 (Forall_forall _ _) F) in J; apply letters_facts in J; now apply J).
    destruct (beqb v2 (B "collating-element")) eqn:Q3; [exfalso; apply Nm; apply beqb_eq in Q3; rewrite Q3; now apply in_b|].
    destruct (beqb v2 (B "collating-symbol")) eqn:Q4; [exfalso; apply Nm; apply beqb_eq in Q4; rewrite Q4; now apply in_b|].
    exists SCollate. do 2 eexists. split; [reflexivity|]. split; [exact Ow|]. exists v2, g2, u2. eexists. split; [reflexivity|]. now split.
Qed.
Lemma nowhere_hangs : forall k fuel esc l g u, Forall white g -> leads_nowhere u -> for_ever l (lex_run k fuel esc SCollate (fresh (g ++ u) l)).
Proof.
  intros k fuel esc l g u Fg Lu. apply (loop_for_ever fuel esc nowhere).
  - intros l' st s (v & g' & u' & w & E & _). injection E as _ ->. reflexivity.
  - intros l' st s H. now apply nowhere_call.
  - exists [], g, u, []. split; [reflexivity|]. now split.
Qed.

(* ---- a word torn apart in order_start ---- *)
Lemma invalid_next : forall t u w l, invalid t -> exists b t', t = b :: t' /\
  next {| cur := u; rest := t; rew := w; sent := l |} = (Some rune_error, {| cur := b :: u; rest := t'; rew := Some rune_error :: w; sent := l |}).
Proof.
  intros [|b t'] u w l [Ne D]; [congruence|]. exists b, t'. split; [reflexivity|]. unfold next. cbn [rest]. rewrite D. reflexivity.
Qed.
Lemma torn_take : forall v c t u w l, In c whiteSpace -> invalid t ->
  exists w', take whiteSpace {| cur := v :: u; rest := c :: t; rew := w; sent := l |} = {| cur := u; rest := v :: c :: t; rew := w'; sent := l |}.
Proof.
  intros v c t u w l Ic Iv. unfold take. cbn [rest List.length]. cbn [take_from].
  assert (Lc : low c) by exact (proj1 (Forall_forall _ _) low_white c Ic). rewrite next_low by exact Lc.
  rewrite (proj2 (LocDocLex.has_in whiteSpace c) Ic). destruct (invalid_next t (c :: v :: u) (Some (byte_val c) :: w) l Iv) as (b & t' & Et & N).
  rewrite N. change (has whiteSpace (Some rune_error)) with false. cbv iota. eexists. unfold rewind. cbn [rew cur rest].
  change (List.length (encode_rune rune_error)) with 3%nat. cbn [skipn firstn rev app]. rewrite Et. reflexivity.
Qed.
Definition one_word (x : ascii) (c : ascii) (t : bytes) (l : list token) (y : lstate * lx) : Prop :=
  exists w, y = (SOrderStart, {| cur := [x]; rest := c :: t; rew := w; sent := l |}).
Lemma single_word : forall x c t w l, In x lowerChars -> In c whiteSpace ->
  exists w', take lowerChars {| cur := []; rest := x :: c :: t; rew := w; sent := l |} = {| cur := [x]; rest := c :: t; rew := w'; sent := l |}.
Proof.
  intros x c t w l Ix Ic. eexists. apply (take_all lowerChars [x] (c :: t)); [exact low_lower|now constructor|].
  destruct Ic as [<-|[<-|[]]]; now apply stops_b.
Qed.
Lemma torn_call : forall fuel esc x c t, In x lowerChars -> In c whiteSpace -> invalid t -> forall l st s, one_word x c t l (st, s) ->
  exists st' s' l', call fuel esc st s = Done (Some st') s' /\ only_white l l' /\ one_word x c t l' (st', s').
Proof.
  intros fuel esc x c t Ix Ic Iv l st s (w & E). injection E as -> ->. cbn [call]. unfold sOrderStart, grabWhitespace. cbv zeta.
  destruct (torn_take x c t [] w l Ic Iv) as (w1 & ->). cbn [current cur rev]. change (beqb [] []) with true. cbv iota. cbn [bind].
  destruct (single_word x c t w1 l Ix Ic) as (w2 & ->). change (current {| cur := [x]; rest := c :: t; rew := w2; sent := l |}) with [x].
  change (beqb [x] []) with false. cbv iota.
  assert (N : forall y z r, beqb [x] (y :: z :: r) = false) by (intros; apply beqb_neq; discriminate).
  change (B "forward") with ("f"%char :: "o"%char :: B "rward"). change (B "backward") with ("b"%char :: "a"%char :: B "ckward").
  change (B "position") with ("p"%char :: "o"%char :: B "sition"). rewrite !N. exists SOrderStart. do 2 eexists.
  split; [reflexivity|]. split; [now left|]. exists w2. reflexivity.
Qed.
(* once the word has been read *)
Lemma torn_word_hangs : forall k fuel esc l w v c t, v <> [] -> Forall (fun x => In x lowerChars) v -> In c whiteSpace -> invalid t ->
  for_ever l (lex_run k fuel esc SOrderStart {| cur := rev v; rest := c :: t; rew := w; sent := l |}).
Proof.
  intros k fuel esc l w v c t Ne F Ic Iv. destruct (exists_last Ne) as (v' & x & Ev). rewrite Ev in F. apply Forall_app in F. destruct F as [_ F]. apply Forall_inv in F.
  assert (Loop : forall k l w, for_ever l (lex_run k fuel esc SOrderStart {| cur := [x]; rest := c :: t; rew := w; sent := l |})).
  { intros k' l' w'. apply (loop_for_ever fuel esc (one_word x c t)).
    - intros l1 st s (w1 & E). injection E as _ ->. reflexivity.
    - intros. now apply torn_call.
    - now exists w'. }
  destruct v' as [|y v'']; [rewrite Ev; apply Loop|]. set (v' := y :: v'') in *.
  destruct k as [|k]; [eexists; exists []; split; [reflexivity|]; cbn [sent]; rewrite app_nil_r; now split|].
  rewrite Ev, rev_app_distr. cbn [rev app].
  assert (C : exists w', call fuel esc SOrderStart {| cur := x :: rev v'; rest := c :: t; rew := w; sent := l |} =
    Done (Some SOrderStart) {| cur := [x]; rest := c :: t; rew := w'; sent := tk WHITESPACE v' :: l |}).
  { cbn [call]. unfold sOrderStart, grabWhitespace. cbv zeta. destruct (torn_take x c t (rev v') w l Ic Iv) as (w1 & ->).
    unfold current at 1. cbn [cur]. rewrite rev_involutive. change (beqb v' []) with false. cbv iota. cbn [bind]. unfold emit, current. cbn [rest sent cur].
    rewrite rev_involutive. destruct (single_word x c t [] (tk WHITESPACE v' :: l) F Ic) as (w2 & E2). unfold tk in E2. rewrite E2. cbn [cur rev app].
    change (beqb [x] []) with false. cbv iota.
    assert (N : forall y z r, beqb [x] (y :: z :: r) = false) by (intros; apply beqb_neq; discriminate).
    change (B "forward") with ("f"%char :: "o"%char :: B "rward"). change (B "backward") with ("b"%char :: "a"%char :: B "ckward").
    change (B "position") with ("p"%char :: "o"%char :: B "sition"). rewrite !N. eexists. reflexivity. }
  destruct C as (w' & C). rewrite (lex_call _ _ _ _ _ _ _ C). apply (for_ever_white _ (tk WHITESPACE v' :: l)); [right; now exists v'|]. apply Loop.
Qed.
Lemma order_start_head : forall fuel esc g r l, blanks g ->
  call fuel esc SCollate (fresh (B "order_start" ++ g ++ r) l) = Done (Some SOrderStart) (fresh (g ++ r) (tk ORDER_START_STR (B "order_start") :: l)).
Proof.
  intros fuel esc g r l Bg. cbn [call]. unfold sCollate. rewrite white_none by now apply stops_b. cbn [bind]. fold word_chars. unfold fresh.
  rewrite (take_all word_chars (B "order_start") (g ++ r)) by (first [exact low_word|now apply withins|now apply (blanks_stop word_chars g r)]).
  rewrite app_nil_r. unfold current, emit, fresh, tk, current. cbn [cur rest sent]. rewrite !rev_involutive. reflexivity.
Qed.
Lemma unknown_order : forall fuel esc g v c t l, blanks g -> v <> [] -> Forall (fun x => In x lowerChars) v ->
  ~ In v [B "forward"; B "backward"; B "position"] -> In c whiteSpace ->
  exists w, call fuel esc SOrderStart (fresh (g ++ v ++ c :: t) l) = Done (Some SOrderStart) {| cur := rev v; rest := c :: t; rew := w; sent := tk WHITESPACE g :: l |}.
Proof.
  intros fuel esc g v c t l Bg Ne F N Ic. cbn [call]. unfold sOrderStart.
  assert (A : forallb (fun c => lowb c && negb (existsb (Ascii.eqb c) whiteSpace)) lowerChars = true) by (vm_compute; reflexivity).
  rewrite white_some; [|exact Bg|destruct v as [|x v]; [congruence|]; apply Forall_inv in F; apply stops_b; exact (proj1 (forallb_forall _ _) A x F)].
  cbn [bind]. cbv zeta. unfold fresh.
  rewrite (take_all lowerChars v (c :: t)) by (first [exact low_lower|exact F|destruct Ic as [<-|[<-|[]]]; now apply stops_b]).
  rewrite app_nil_r. unfold current. cbn [cur]. rewrite rev_involutive.
  assert (Q : forall w, (w = [] \/ In w [B "forward"; B "backward"; B "position"]) -> beqb v w = false).
  { intros w' Hw. apply beqb_neq. intros ->. destruct Hw as [Hw|Hw]; [congruence|now apply N]. }
  rewrite (Q []) by now left. rewrite (Q (B "forward")) by (right; now left). rewrite (Q (B "backward")) by (right; right; now left).
  rewrite (Q (B "position")) by (right; right; right; now left). eexists. reflexivity.
Qed.

(* ---- the whole program ---- *)
Definition rest_lines : list (dline * (bool * list bool)) :=
  [(DStart None, newlines 0); (DSym (B "a"), newlines 0); (DOEnd, newlines 0); (DCEnd, newlines 0)].
Lemma sample_collation : forall esc doc, Forall (part_ok esc) doc -> Forall (part_ok esc) (doc ++ [Collation None [B "a"]]).
Proof.
  intros esc doc Od. apply Forall_app. split; [exact Od|]. constructor; [|constructor]. cbn [part_ok]. split; [exact I|]. split; [discriminate|].
  constructor; [|constructor]. unfold symbol_name. constructor; [apply in_b; reflexivity|constructor].
Qed.
Lemma white_insignificant : forall m, Forall (fun t => t_type t = WHITESPACE) m -> significant m = [].
Proof. intros m Fm. induction Fm as [|t m Ht _ IH]; [reflexivity|]. cbn [significant filter]. rewrite Ht. exact IH. Qed.
Lemma mid_words : forall esc doc g u pre text d, begun_collation esc doc pre -> Forall white g -> leads_nowhere u -> stops newLine (g ++ u) ->
  removeComments text = Ok (pre ++ g ++ u, esc) -> exists n, forall fuel, (n <= fuel)%nat -> parse_text fuel d text = StillRunning.
Proof.
  intros esc doc g u pre text d Bg Fg Lu S0 R. destruct (begun_collation_lines _ _ _ Bg) as (ll & E & -> & O & Lk).
  destruct (lines_lex _ _ _ ll (g ++ u) Lk E O S0) as (n & H). exists n. intros fuel Le. destruct (H fuel Le) as (j & _ & Lex).
  destruct (nowhere_hangs j fuel esc (rev (all_toks ll)) g u Fg Lu) as (s & m & Ec & Em & Fm). rewrite rev_involutive in Em.
  refine (mid_still fuel d text _ esc s esc (doc ++ [Collation None [B "a"]]) ll rest_lines m (all_toks rest_lines) R _ Em _ _ _ _ _ _).
  - now rewrite Lex.
  - intros X. apply app_eq_nil in X. destruct X as [_ X]. discriminate X.
  - destruct Bg as (Od & _). now apply sample_collation.
  - rewrite E. exact O.
  - rewrite map_app, E, flat_map_app, <- app_assoc. reflexivity.
  - rewrite significant_app, (white_insignificant m Fm). reflexivity.
  - apply Forall_app. split; [|repeat (constructor; [discriminate|]); constructor]. eapply Forall_impl; [|exact Fm]. intros t Ht X. cbv beta in Ht. unfold is in X. assert (Y : token_number T_NUMBER = WHITESPACE) by congruence. discriminate Y.
Qed.
Lemma mid_torn : forall esc doc g v c t pre text d, begun_collation esc doc pre -> blanks g -> v <> [] -> Forall (fun x => In x lowerChars) v ->
  ~ In v [B "forward"; B "backward"; B "position"] -> In c whiteSpace -> invalid t ->
  removeComments text = Ok (pre ++ B "order_start" ++ g ++ v ++ c :: t, esc) -> exists n, forall fuel, (n <= fuel)%nat -> parse_text fuel d text = StillRunning.
Proof.
  intros esc doc g v c t pre text d Bg Bl Nv Fv Nk Ic Iv R. destruct (begun_collation_lines _ _ _ Bg) as (ll & E & -> & O & Lk).
  destruct (lines_lex _ _ _ ll (B "order_start" ++ g ++ v ++ c :: t) Lk E O ltac:(now apply stops_b)) as (n & H). exists (n + 2)%nat. intros fuel Le.
  destruct (H fuel ltac:(lia)) as (j & Lj & Lex). set (l := rev (all_toks ll)) in *.
  assert (K : exists s m, lex fuel esc (source ll ++ B "order_start" ++ g ++ v ++ c :: t) = Unfinished s /\
    rev (sent s) = all_toks ll ++ tk ORDER_START_STR (B "order_start") :: m /\ Forall (fun t => t_type t = WHITESPACE) m).
  { rewrite Lex. destruct j as [|[|j]]; [lia..|]. rewrite (lex_call _ _ _ _ _ _ _ (order_start_head fuel esc g (v ++ c :: t) l Bl)).
    destruct (unknown_order fuel esc g v c t (tk ORDER_START_STR (B "order_start") :: l) Bl Nv Fv Nk Ic) as (w & C).
    rewrite (lex_call _ _ _ _ _ _ _ C).
    destruct (torn_word_hangs j fuel esc (tk WHITESPACE g :: tk ORDER_START_STR (B "order_start") :: l) w v c t Nv Fv Ic Iv) as (s & m & Ec & Em & Fm).
    exists s, (tk WHITESPACE g :: m). split; [exact Ec|]. split; [|now constructor]. rewrite Em. cbn [rev]. unfold l. rewrite rev_involutive, <- !app_assoc. reflexivity. }
  destruct K as (s & m & Ec & Em & Fm).
  refine (mid_still fuel d text _ esc s esc (doc ++ [Collation None [B "a"]]) ll rest_lines (tk ORDER_START_STR (B "order_start") :: m) (tl (all_toks rest_lines)) R Ec Em _ _ _ _ _ _).
  - intros X. apply app_eq_nil in X. destruct X as [_ X]. discriminate X.
  - destruct Bg as (Od & _). now apply sample_collation.
  - rewrite E. exact O.
  - rewrite map_app, E, flat_map_app, <- app_assoc. reflexivity.
  - change (tk ORDER_START_STR (B "order_start") :: m) with ([tk ORDER_START_STR (B "order_start")] ++ m).
    rewrite !significant_app, (white_insignificant m Fm). reflexivity.
  - apply Forall_app. split; [|repeat (constructor; [discriminate|]); constructor]. constructor; [discriminate|].
    eapply Forall_impl; [|exact Fm]. intros a Ht X. cbv beta in Ht. unfold is in X. assert (Y : token_number T_NUMBER = WHITESPACE) by congruence. discriminate Y.
Qed.
