(* How the goroutines of the lexer and the parser of locale definitions take turns does not matter. *)
From Verif Require Import GoBase GoFacts LocYaccModel LocYaccProofs LocYaccGram LocYaccSound LocYaccFinal
  LocaleModel LocLexModel LocLexProofs LocLexEnds LocLexMore LocHang LocSchedModel.
Local Open Scope nat_scope.

(* ---- with more fuel the lexer sends the same tokens, and more ---- *)
Definition ext (l : list token) (s : lx) : Prop := exists k, sent s = k ++ l.
Lemma ext_refl : forall s, ext (sent s) s. Proof. intros s. now exists []. Qed.
Lemma ext_next : forall l s, ext l s -> ext l (snd (next s)).
Proof. intros l s H. unfold next. destruct (rest s); [exact H|]. destruct (decode_rune _). exact H. Qed.
Lemma ext_rewind : forall l s, ext l s -> ext l (rewind s).
Proof. intros l s H. unfold rewind. destruct (rew s) as [|[r|] w]; exact H. Qed.
Lemma ext_emit : forall l t s, True -> ext l s -> ext l (emit t s).
Proof. intros l t s _ [k H]. eexists (_ :: k). cbn [emit sent]. rewrite H. reflexivity. Qed.
Lemma true_all : forall (l : list Z), Forall (fun _ => True) l. Proof. intros l. apply Forall_forall. auto. Qed.
Lemma ext_int : forall l s, ext l s -> ends (ext l) (grabInt s).
Proof. intros l s. apply int_ends; auto using ext_next, ext_rewind, ext_emit. Qed.
Lemma true_cats : forall c, In c categories -> True /\ Forall (fun d : bytes * (Z * grabber) => True) (c_defs c).
Proof. intros c _. split; auto. apply Forall_forall. auto. Qed.
Local Notation T := (fun _ : Z => True).
Lemma ext_ws : forall l s, ext l s -> ends (ext l) (grabWhitespace s).
Proof. intros l. exact (ws_ends (ext l) T (ext_next l) (ext_rewind l) (ext_emit l) (true_all _)). Qed.
Lemma ext_nl : forall l s, ext l s -> ends (ext l) (grabNewline s).
Proof. intros l. exact (nl_ends (ext l) T (ext_next l) (ext_rewind l) (ext_emit l) (true_all _)). Qed.
Lemma ext_loop : forall l f esc e s, ext l s -> ends (ext l) (string_loop f esc e s).
Proof. intros l. exact (loop_ends (ext l) T (ext_next l) (ext_rewind l) (ext_emit l) (true_all _)). Qed.
Lemma ext_string : forall l f esc s, ext l s -> ends (ext l) (grabString f esc s).
Proof. intros l. exact (string_ends (ext l) T (ext_next l) (ext_rewind l) (ext_emit l) (true_all _)). Qed.
Lemma ext_quote : forall l f s, ext l s -> ends (ext l) (to_quote f s).
Proof. intros l. exact (to_quote_ends (ext l) (ext_next l)). Qed.
Lemma ext_run : forall l k f esc st s, sound_state st -> ext l s -> ends (ext l) (lex_run k f esc st s).
Proof. intros l. exact (run_ends (ext l) T (ext_next l) (ext_rewind l) (ext_emit l) (true_all _) (fun s _ => ext_int l s) (true_all _) true_cats). Qed.
Lemma call_sound : forall f esc st s o s', sound_state st -> call f esc st s = Done (Some o) s' -> sound_state o.
Proof.
  intros f esc st s o s' C E.
  pose proof (call_goes (ext (sent s)) T (ext_next _) (ext_rewind _) (ext_emit _) (true_all _) (fun s _ => ext_int _ s) (true_all _) true_cats f esc st s C (ext_refl s)) as [_ G].
  now rewrite E in G.
Qed.
Lemma ext_list : forall l g, (forall s, ext l s -> ends (ext l) (g s)) -> forall f ok s, ext l s -> ends (ext l) (grabList f g ok s).
Proof.
  intros l g G. induction f as [|f IH]; intros ok s H; cbn [grabList]; [exact H|].
  apply bind_ends; [now apply G|]. intros b s1 H1. destruct b; [|exact H1].
  destruct (next s1) as [r s2] eqn:E. pose proof (next_ends (ext l) (ext_next l) _ _ _ E H1) as H2.
  destruct (at_char ";" r); [apply IH; now apply ext_emit|now apply ext_rewind].
Qed.
Lemma ext_must : forall l m, ends (ext l) m -> ends (ext l) (must m).
Proof. intros l. exact (must_ends (ext l)). Qed.

Definition grows {A} (r r' : lres A) : Prop := match r with Unfinished s => ends (ext (sent s)) r' | _ => r' = r end.
Lemma grows_refl : forall A (r : lres A), grows r r. Proof. intros A [a s|s|s]; cbn [grows ends]; auto using ext_refl. Qed.
Lemma grows_bind : forall A C (m m' : lres A) (f f' : A -> lx -> lres C), grows m m' -> (forall a s, m = Done a s -> grows (f a s) (f' a s)) ->
  (forall a s l, m' = Done a s -> ext l s -> ends (ext l) (f' a s)) -> grows (bind m f) (bind m' f').
Proof.
  intros A C m m' f f' H K X. destruct m as [a s|s|s]; cbn [grows bind] in *; [subst m'; now apply K|subst m'; reflexivity|].
  destruct m' as [a s'|s'|s']; cbn [bind ends] in *; auto.
Qed.
Lemma grows_same : forall A C (m : lres A) (f f' : A -> lx -> lres C), (forall a s, m = Done a s -> grows (f a s) (f' a s)) -> grows (bind m f) (bind m f').
Proof. intros A C m f f' K. destruct m as [a s|s|s]; cbn [bind]; [now apply K|reflexivity|apply ext_refl]. Qed.
Lemma grows_must : forall m m', grows m m' -> grows (must m) (must m').
Proof.
  intros m m' H. apply grows_bind; [exact H|intros; apply grows_refl|]. intros a s l _ E. destruct a; exact E.
Qed.
Lemma loop_grows : forall f f' esc e s, f <= f' -> grows (string_loop f esc e s) (string_loop f' esc e s).
Proof.
  induction f as [|f IH]; intros f' esc e s Le; [apply ext_loop, ext_refl|]. destruct f' as [|f']; [lia|]. cbn [string_loop].
  destruct (next s) as [r s1]. destruct e; [apply grows_same; intros; apply IH; lia|].
  destruct (at_char """" r); [apply grows_refl|]. destruct (at_char nl r); [apply grows_refl|]. destruct (at_char "\" r); apply IH; lia.
Qed.
Lemma string_grows : forall f f' esc s, f <= f' -> grows (grabString f esc s) (grabString f' esc s).
Proof.
  intros f f' esc s Le. unfold grabString. destruct (peek s) as [r s1]. destruct (negb _); [apply grows_refl|]. cbv zeta.
  destruct (peek _) as [r2 s2]. destruct (at_char """" r2); [apply grows_refl|]. now apply loop_grows.
Qed.
Lemma quote_grows : forall f f' s, f <= f' -> grows (to_quote f s) (to_quote f' s).
Proof.
  induction f as [|f IH]; intros f' s Le; [apply ext_quote, ext_refl|]. destruct f' as [|f']; [lia|]. cbn [to_quote].
  destruct (next s) as [r s1]. destruct (at_char """" r); [apply grows_refl|]. apply IH. lia.
Qed.
Lemma list_grows : forall g g', (forall s, grows (g s) (g' s)) -> (forall l s, ext l s -> ends (ext l) (g' s)) ->
  forall f f' ok s, f <= f' -> grows (grabList f g ok s) (grabList f' g' ok s).
Proof.
  intros g g' H X. induction f as [|f IH]; intros f' ok s Le; [apply ext_list; auto using ext_refl|]. destruct f' as [|f']; [lia|]. cbn [grabList].
  apply grows_bind; [apply H| |].
  - intros b s1 _. destruct b; [|apply grows_refl]. destruct (next s1) as [r s2].
    destruct (at_char ";" r); [apply IH; lia|apply grows_refl].
  - intros b s1 l _ E1. destruct b; [|exact E1]. destruct (next s1) as [r s2] eqn:E. pose proof (next_ends (ext l) (ext_next l) _ _ _ E E1) as H2.
    destruct (at_char ";" r); [apply ext_list; [apply X|now apply ext_emit]|now apply ext_rewind].
Qed.
Lemma list_same : forall g f f' ok s, (forall l s, ext l s -> ends (ext l) (g s)) -> f <= f' -> grows (grabList f g ok s) (grabList f' g ok s).
Proof. intros. apply list_grows; auto. intros. apply grows_refl. Qed.
Lemma ext_char : forall l s, ext l s -> ends (ext l) (grabChar s).
Proof. intros l. exact (char_ends (ext l) T (ext_next l) (ext_rewind l) (ext_emit l) (true_all _)). Qed.
Lemma ext_pair : forall l s, ext l s -> ends (ext l) (grabCharPair s).
Proof. intros l. exact (pair_ends (ext l) T (ext_next l) (ext_rewind l) (ext_emit l) (true_all _)). Qed.
Lemma grab_grows : forall f f' esc g s, f <= f' -> grows (grab f esc g s) (grab f' esc g s).
Proof.
  intros f f' esc g s Le. destruct g; cbn [grab]; try apply grows_refl.
  - apply list_same; auto using ext_char.
  - apply list_same; auto using ext_pair.
  - apply list_same; auto using ext_int.
  - now apply string_grows.
  - apply list_grows; [intros; now apply string_grows|intros; now apply ext_string|exact Le].
  - unfold grabMsg. destruct (next s) as [r s1]. destruct (negb _); [apply grows_refl|]. apply grows_bind; [now apply quote_grows|intros; apply grows_refl|].
    intros a s2 l _ E. cbn [ends]. apply ext_emit; auto. apply ext_next. apply ext_emit; auto. now apply ext_rewind.
Qed.
Ltac same := apply grows_same; intros ? ? _; cbv zeta.
Lemma call_grows : forall f f' esc st s, f <= f' -> grows (call f esc st s) (call f' esc st s).
Proof.
  intros f f' esc st s Le. destruct st as [| |c| | |]; cbn [call]; try apply grows_refl.
  - unfold sGeneric. same. destruct (beqb _ _); [apply grows_refl|]. destruct (look_up _ _) as [[typ g]|]; [|apply grows_refl].
    same. apply grows_bind; [apply grows_must; now apply grab_grows|intros; apply grows_refl|].
    intros ? ? l _ E. apply bind_ends; [now apply ext_must, ext_nl|]. intros; assumption.
  - unfold sCollate. same. destruct (beqb _ _); [apply grows_refl|]. destruct (beqb _ _); [apply grows_refl|]. destruct (beqb _ _).
    + same. same. same. destruct (negb _); [apply grows_refl|]. same.
      apply grows_bind; [apply grows_must; now apply string_grows|intros; apply grows_refl|].
      intros ? ? l _ E. apply bind_ends; [now apply ext_ws|]. intros. apply bind_ends; [now apply ext_must, ext_nl|]. intros; assumption.
    + destruct (beqb _ _); [|apply grows_refl]. same.
      apply grows_bind; [apply grows_must; now apply string_grows|intros; apply grows_refl|].
      intros ? ? l _ E. apply bind_ends; [now apply ext_ws|]. intros. apply bind_ends; [now apply ext_must, ext_nl|]. intros; assumption.
Qed.
Lemma run_grows : forall k k' f f' esc st s, sound_state st -> k <= k' -> f <= f' -> grows (lex_run k f esc st s) (lex_run k' f' esc st s).
Proof.
  induction k as [|k IH]; intros k' f f' esc st s C L1 L2; [apply ext_run; auto using ext_refl|]. destruct k' as [|k']; [lia|]. cbn [lex_run].
  apply grows_bind; [now apply call_grows| |].
  - intros o s1 E. destruct o as [st'|]; [apply IH; [exact (call_sound _ _ _ _ _ _ C E)|lia|exact L2]|apply grows_refl].
  - intros o s1 l E X. destruct o as [st'|]; [apply ext_run; [exact (call_sound _ _ _ _ _ _ C E)|exact X]|exact X].
Qed.
Lemma lex_grows : forall f f' esc src, f <= f' -> grows (lex f esc src) (lex f' esc src).
Proof. intros. apply run_grows; auto. exact I. Qed.
(* the tokens sent with less fuel are the first of those sent with more *)
Lemma tokens_grow : forall f f' esc src, f <= f' -> exists more, tokens_of (lex f' esc src) = tokens_of (lex f esc src) ++ more.
Proof.
  intros f f' esc src Le. pose proof (lex_grows f f' esc src Le) as G. destruct (lex f esc src) as [u s|s|s]; cbn [grows] in G.
  - rewrite G. exists []. now rewrite app_nil_r.
  - rewrite G. exists []. now rewrite app_nil_r.
  - cbn [tokens_of]. destruct (lex f' esc src) as [u s'|s'|s']; destruct G as [k G]; cbn [tokens_of]; exists (rev k); rewrite G; apply rev_app_distr.
Qed.

(* ---- the parser and more input ---- *)
Section Longer.
Variable r : list token.
Variable cl : bool.
Lemma read_longer_any : forall c, read false c = None \/
  exists t c', read false c = Some (t, c') /\ read cl (longer r c) = Some (t, longer r c').
Proof.
  intros c. unfold read. cbn [look longer input]. destruct (look c) as [t|]; [right; exists t, c; now split|].
  destruct (next_token (input c)) as [[t u]|] eqn:N; [|now left]. rewrite (next_token_app _ _ _ _ N). right. do 2 eexists. split; reflexivity.
Qed.
Lemma default_longer_any : forall c, default_action false c = Stop Waits (defs c) \/ default_action cl (longer r c) = longer_result r (default_action false c).
Proof.
  intros c. unfold default_action. cbn [longer state defs]. destruct (at_ yyDef (state c)) as [n|]; [|now right].
  destruct (n =? -2)%Z.
  - destruct (read_longer_any c) as [E|(t & c' & E1 & E2)]; [left; now rewrite E|]. rewrite E1, E2. right. cbn [longer state defs].
    destruct (exca_find _ _) as [l|]; [|reflexivity]. destruct (exca_pick t l) as [m|]; [|reflexivity]. destruct (m <? 0)%Z; [reflexivity|].
    destruct (m =? 0)%Z; [reflexivity|]. apply reduce_longer.
  - right. destruct (n =? 0)%Z; [reflexivity|]. apply reduce_longer.
Qed.
Lemma step_longer_any : forall c, step false c = Stop Waits (defs c) \/ step cl (longer r c) = longer_result r (step false c).
Proof.
  intros c. unfold step. cbv zeta. cbn [longer state yyval below above look lval input defs].
  set (c0 := {| state := state c; yyval := yyval c; below := _ :: below c; above := tl (above c); look := look c; lval := lval c; input := input c; defs := defs c |}).
  change {| state := state c; yyval := yyval c; below := _ :: below c; above := tl (above c); look := look c; lval := lval c; input := input c ++ r; defs := defs c |} with (longer r c0).
  change (state c) with (state c0). change (defs c) with (defs c0). clearbody c0. clear c.
  destruct (at_ yyPact (state c0)) as [p|]; [|now right]. destruct (p <=? yyFlag)%Z; [apply default_longer_any|].
  destruct (read_longer_any c0) as [E|(t & c' & E1 & E2)]; [left; now rewrite E|]. rewrite E1, E2.
  assert (D : defs c' = defs c0) by exact (read_defs _ _ _ _ E1). rewrite <- D.
  destruct ((p + t <? 0)%Z || (yyLast <=? p + t)%Z); [apply default_longer_any|].
  destruct (at_ yyAct (p + t)) as [s|]; [|now right]. destruct (at_ yyChk s) as [k|]; [|now right].
  destruct (k =? t)%Z; [now right|apply default_longer_any].
Qed.
Lemma run_longer_any : forall f c o d, run f false c = Some (o, d) -> o = Waits \/ run f cl (longer r c) = Some (o, d).
Proof.
  induction f as [|f IH]; intros c o d H; [discriminate H|]. cbn [run] in *. destruct (step_longer_any c) as [E|E]; rewrite E in *.
  - injection H as <- _. now left.
  - destruct (step false c) as [c'|o' d']; cbn [longer_result]; [now apply IH|right; exact H].
Qed.
End Longer.
Lemma longer_nil : forall c, longer [] c = c.
Proof. intros []. unfold longer. cbn. now rewrite app_nil_r. Qed.
Lemma longer_received : forall t r c, longer r (received t c) = longer (t :: r) c.
Proof. intros t r c. unfold longer, received. cbn. now rewrite <- app_assoc. Qed.
Lemma start_longer : forall d a b, longer b (start d a) = start d (a ++ b). Proof. reflexivity. Qed.
(* a closed channel makes nobody wait *)
Lemma default_true : forall c d, default_action true c <> Stop Waits d.
Proof.
  intros c d. unfold default_action. destruct (at_ yyDef (state c)) as [n|]; [|discriminate].
  assert (R : forall m c, reduce m c <> Stop Waits d).
  { clear. intros m c. unfold reduce. destruct (at_ yyR2 m) as [k|]; [|discriminate]. destruct (at_ yyR1 m); [|discriminate]. destruct (k <? 0)%Z; [discriminate|].
    destruct (skipn _ _); [discriminate|]. destruct (goto_ _ _); [|discriminate]. destruct (action _ _ _ _) as [[]|]; discriminate. }
  destruct (n =? -2)%Z.
  - destruct (read true c) as [[t c']|] eqn:E.
    + destruct (exca_find _ _); [|discriminate]. destruct (exca_pick _ _) as [m|]; [|discriminate]. destruct (m <? 0)%Z; [discriminate|]. destruct (m =? 0)%Z; [discriminate|]. apply R.
    + unfold read in E. destruct (look c); [discriminate|]. destruct (next_token _) as [[]|]; discriminate.
  - destruct (n =? 0)%Z; [discriminate|]. apply R.
Qed.
Lemma step_true : forall c d, step true c <> Stop Waits d.
Proof.
  intros c d. unfold step. cbv zeta. set (c0 := {| state := _ |}). clearbody c0. destruct (at_ yyPact (state c0)) as [p|]; [|discriminate].
  destruct (p <=? yyFlag)%Z; [apply default_true|]. destruct (read true c0) as [[t c']|] eqn:E.
  - destruct (_ || _); [apply default_true|]. destruct (at_ yyAct _) as [s|]; [|discriminate]. destruct (at_ yyChk s) as [k|]; [|discriminate].
    destruct (k =? t)%Z; [discriminate|apply default_true].
  - unfold read in E. destruct (look c0); [discriminate|]. destruct (next_token _) as [[]|]; discriminate.
Qed.
Lemma step_waits : forall c d, step false c = Stop Waits d -> d = defs c.
Proof.
  intros c d E. destruct (step_false c) as [H|H]; rewrite E in H; [now injection H|]. exfalso. now apply (step_true c d).
Qed.

(* ---- what holds after every move ---- *)
Section Machine.
Variables (cap : nat) (esc : N) (src : bytes) (d : definition).
Local Notation sendable n := (tokens_of (lex n esc src)).
Local Notation move := (move cap esc src).
Local Notation moves := (moves cap esc src).
Local Notation exts x := (if x : bool then 1 else 0).

(* R: the tokens received; k: the steps of the parser *)
Record inv (m : nat) (w : world) (R : list token) (k : nat) : Prop := {
  i_sent : exists n more, sendable n = R ++ w_chan w ++ more;
  i_len : w_sent w = List.length (R ++ w_chan w);
  i_over : w_over w = true -> exists n s, lex n esc src = Done tt s /\ rev (sent s) = R ++ w_chan w;
  i_cap : List.length (w_chan w) <= cap;
  i_run : forall r cl fuel, (exhausted w = true -> r = [] /\ cl = true) ->
    run (k + fuel) cl (start d (R ++ r)) = run fuel cl (longer r (w_parser w));
  i_count : m = w_sent w + List.length R + k + exts (w_over w) + exts (match w_end w with Some _ => true | None => false end);
  i_end : forall v text, w_end w = Some v -> removeComments text = Ok (src, esc) ->
    exists n, forall fuel, n <= fuel -> parse_text fuel d text = v
}.
Lemma begin_inv : inv 0 (begin d) [] 0.
Proof.
  constructor; cbn [begin w_sent w_over w_chan w_parser w_end]; auto; try discriminate; try lia.
  - exists 0, (sendable 0). reflexivity.
  - cbn [List.length]. lia.
Qed.
Lemma prefix_of : forall n n' a b, sendable n = a ++ b -> n <= n' -> exists b', sendable n' = a ++ b'.
Proof. intros n n' a b E Le. destruct (tokens_grow n n' esc src Le) as [m M]. exists (b ++ m). now rewrite M, E, app_assoc. Qed.
Lemma positive_part : forall n a b, sendable n = a ++ b -> well_typed a.
Proof. intros n a b E. pose proof (lexer_positive n esc src) as P. rewrite E in P. unfold well_typed. apply Forall_app in P. exact (proj1 P). Qed.
Lemma nth_prefix : forall n n' a b t, sendable n = a ++ b -> nth_error (sendable n') (List.length a) = Some t ->
  exists b', sendable (Nat.max n n') = a ++ t :: b'.
Proof.
  intros n n' a b t E N. destruct (prefix_of n (Nat.max n n') a b E) as [b' E']; [lia|].
  destruct (tokens_grow n' (Nat.max n n') esc src) as [m M]; [lia|].
  assert (Q : nth_error (sendable (Nat.max n n')) (List.length a) = Some t).
  { rewrite M. rewrite nth_error_app1; [exact N|]. apply nth_error_Some. congruence. }
  rewrite E' in Q. rewrite nth_error_app2, Nat.sub_diag in Q by lia. destruct b' as [|x b']; [discriminate|]. injection Q as ->. exists b'. exact E'.
Qed.
(* the lexer has ended having sent just these *)
Lemma all_sent : forall n n' a b u s, sendable n = a ++ b -> (lex n' esc src = Done u s \/ lex n' esc src = Panicked s) ->
  List.length a = List.length (sent s) -> rev (sent s) = a.
Proof.
  intros n n' a b u s E L N. destruct (prefix_of n (Nat.max n n') a b E) as [b' E']; [lia|].
  pose proof (lex_grows n' (Nat.max n n') esc src ltac:(lia)) as G.
  assert (Q : tokens_of (lex (Nat.max n n') esc src) = rev (sent s)) by (destruct L as [L|L]; rewrite L in G; cbn [grows] in G; now rewrite G).
  rewrite E' in Q. assert (b' = []) as ->.
  { apply (f_equal (@List.length token)) in Q. rewrite app_length, rev_length in Q. destruct b'; [reflexivity|cbn [List.length] in Q; lia]. }
  now rewrite app_nil_r in Q.
Qed.
Lemma stop_outcome : forall R n b k o d' text, sendable n = R ++ b -> o <> Waits ->
  (forall r cl, run k cl (start d (R ++ r)) = Some (o, d')) -> removeComments text = Ok (src, esc) ->
  exists n, forall fuel, n <= fuel -> parse_text fuel d text = parser_end o d'.
Proof.
  intros R n b k o d' text E No H Rc.
  assert (Po : parser_end o d' = Crashed).
  { destruct o as [x| | | |]; try reflexivity. exfalso. pose proof (positive_part _ _ _ E) as P.
    specialize (H [] false). rewrite app_nil_r in H. exact (open_never k d R x d' P H). }
  rewrite Po. exists (Nat.max n k). intros fuel Le. unfold parse_text. rewrite Rc. cbv zeta.
  destruct (prefix_of n fuel R b E) as [b' E']; [lia|].
  assert (Y : forall cl, yyParse fuel cl d (sendable fuel) = Some (o, d')).
  { intros cl. unfold yyParse. rewrite E'. replace fuel with (k + (fuel - k)) at 1 by lia. apply run_more. apply H. }
  destruct (lex fuel esc src) as [u s|s|s] eqn:L; [| reflexivity |]; rewrite Y; destruct o as [x| | | |]; try reflexivity; try congruence;
    cbn [parser_end] in Po; destruct (x =? 0)%Z; discriminate Po.
Qed.
Lemma move_inv : forall m w w' R k, inv m w R k -> move w w' -> exists R' k', inv (S m) w' R' k' /\
  (R' = R \/ exists t, R' = R ++ [t] /\ exhausted w = false /\ exists e, step false (w_parser w) = Stop Waits e).
Proof.
  intros m w w' R k I M. destruct I as [(n0&mo&Is) Il Io Ic Ir It Ie].
  inversion M as [w0 n t E O N C|w0 n s E O L N|w0 n s E L N|w0 t r E St Ch|w0 c E St|w0 o d' E St No]; subst w0; subst w'; rewrite E in It.
  - (* send *) exists R, k. split; [|now left]. constructor; cbn [w_sent w_over w_chan w_parser w_end]; try discriminate.
    + rewrite Il in N. rewrite app_assoc in Is. destruct (nth_prefix _ _ _ _ _ Is N) as [b' Q]. exists (Nat.max n0 n), b'. rewrite Q. now rewrite <- !app_assoc.
    + rewrite !app_length in *. cbn [List.length]. lia.
    + rewrite app_length. cbn [List.length]. lia.
    + intros r cl fuel _. apply Ir. unfold exhausted. rewrite O. discriminate.
    + rewrite O in It. cbn [negb] in *. lia.
  - (* close *) exists R, k. split; [|now left]. constructor; cbn [w_sent w_over w_chan w_parser w_end]; try discriminate; auto.
    + now exists n0, mo.
    + intros _. exists n, s. split; [exact L|]. rewrite app_assoc in Is. apply (all_sent _ n _ _ tt s Is); auto. now rewrite <- Il.
    + intros r cl fuel _. apply Ir. unfold exhausted. rewrite O. discriminate.
    + rewrite O in It. lia.
  - (* the lexer panics *) exists R, k. split; [|now left]. constructor; cbn [w_sent w_over w_chan w_parser w_end]; auto.
    + now exists n0, mo.
    + lia.
    + intros v text Q Rc. injection Q as <-. exists n. intros fuel Le. unfold parse_text. rewrite Rc. cbv zeta.
      pose proof (lex_grows n fuel esc src Le) as G. rewrite L in G. cbn [grows] in G. now rewrite G.
  - (* receive *) exists (R ++ [t]), k. rewrite Ch in *. split; [constructor|right; exists t; split; [reflexivity|]; split; [unfold exhausted; rewrite Ch; apply andb_false_r|now exists (defs (w_parser w))]]; cbn [w_sent w_over w_chan w_parser w_end]; try discriminate.
    + exists n0, mo. rewrite Is. now rewrite <- app_assoc.
    + rewrite Il. now rewrite <- app_assoc.
    + intros O. destruct (Io O) as (n&s&L&Q). exists n, s. split; auto. rewrite Q. now rewrite <- app_assoc.
    + cbn [List.length] in Ic. lia.
    + intros q cl fuel _. rewrite longer_received, <- app_assoc. cbn [app]. apply Ir. unfold exhausted. rewrite Ch. rewrite andb_false_r. discriminate.
    + rewrite !app_length in *. cbn [List.length]. lia.
  - (* a step *) exists R, (S k). split; [|now left]. constructor; cbn [w_sent w_over w_chan w_parser w_end]; try discriminate; auto.
    + now exists n0, mo.
    + intros r cl fuel X. change (exhausted _) with (exhausted w) in X.
      specialize (Ir r cl (S fuel) X). replace (S k + fuel) with (k + S fuel) by lia. rewrite Ir. cbn [run].
      destruct (exhausted w) eqn:Ex.
      * destruct (X eq_refl) as [-> ->]. now rewrite !longer_nil, St.
      * destruct (step_longer_any r cl (w_parser w)) as [Q|Q]; [rewrite Q in St; discriminate|]. rewrite Q, St. reflexivity.
    + lia.
  - (* the parser ends *) exists R, k. split; [|now left]. constructor; cbn [w_sent w_over w_chan w_parser w_end]; auto.
    + now exists n0, mo.
    + lia.
    + intros v text Q Rc. injection Q as <-. destruct (exhausted w) eqn:Ex.
      * unfold exhausted in Ex. apply andb_true_iff in Ex as [O Ch]. destruct (w_chan w) eqn:Cw; [clear Ch|discriminate].
        destruct (Io O) as (n&s&L&Q). rewrite app_nil_r in Q.
        specialize (Ir [] true 1 (fun _ => conj eq_refl eq_refl)). rewrite longer_nil, app_nil_r in Ir. cbn [run] in Ir. rewrite St in Ir.
        exists (Nat.max n (k + 1)). intros fuel Le. unfold parse_text. rewrite Rc. cbv zeta.
        pose proof (lex_grows n fuel esc src ltac:(lia)) as G. rewrite L in G. cbn [grows] in G. rewrite G. cbn [tokens_of]. rewrite Q.
        unfold yyParse. apply (run_more _ (fuel - (k + 1))) in Ir. replace (k + 1 + (fuel - (k + 1))) with fuel in Ir by lia. rewrite Ir.
        destruct o; try reflexivity. congruence.
      * apply (stop_outcome R n0 (w_chan w ++ mo) (k + 1) o d' text Is No); auto. intros r cl.
        rewrite Ir by discriminate. cbn [run]. destruct (step_longer_any r cl (w_parser w)) as [Q|Q]; [rewrite Q in St; injection St as <- _; congruence|].
        now rewrite Q, St.
Qed.
Lemma moves_inv : forall m w, moves m (begin d) w -> exists R k, inv m w R k.
Proof.
  intros m w M. remember (begin d) as b eqn:Eb. induction M as [w|m w1 w2 w3 M IH M1]; [subst; exists [], 0; apply begin_inv|].
  destruct (IH Eb) as (R&k&I). destruct (move_inv _ _ _ _ _ I M1) as (R'&k'&I'&_). eauto.
Qed.
Lemma same_end : forall m w v text, moves m (begin d) w -> w_end w = Some v -> removeComments text = Ok (src, esc) ->
  exists n, forall fuel, n <= fuel -> parse_text fuel d text = v.
Proof. intros m w v text M E Rc. destruct (moves_inv _ _ M) as (R&k&I). exact (i_end _ _ _ _ I v text E Rc). Qed.

(* ---- nothing gets stuck before a verdict that is due ---- *)
Lemma due : forall fuel text v, removeComments text = Ok (src, esc) -> parse_text fuel d text = v -> v <> StillRunning ->
  (exists s, lex fuel esc src = Done tt s \/ lex fuel esc src = Panicked s) \/
  (exists o d', run fuel false (start d (sendable fuel)) = Some (o, d') /\ o <> Waits).
Proof.
  intros fuel text v Rc P N. unfold parse_text in P. rewrite Rc in P. cbv zeta in P. destruct (lex fuel esc src) as [[] s|s|s] eqn:L; eauto.
  right. unfold yyParse in P. destruct (run fuel false _) as [[o d']|]; [|congruence]. exists o, d'. split; auto. intros ->. congruence.
Qed.
Lemma firstn_prefix : forall A (a b a' b' : list A), a ++ b = a' ++ b' -> List.length a <= List.length a' -> exists c, a' = a ++ c.
Proof.
  intros A a b a' b' E L. exists (skipn (List.length a) a'). rewrite <- (firstn_skipn (List.length a) a') at 1. f_equal.
  apply (f_equal (firstn (List.length a))) in E. rewrite !firstn_app, Nat.sub_diag, firstn_all in E. cbn [firstn] in E. rewrite app_nil_r in E.
  replace (List.length a - List.length a') with 0 in E by lia. cbn [firstn] in E. now rewrite app_nil_r in E.
Qed.
Lemma not_stuck : forall m w text fuel v, 0 < cap -> moves m (begin d) w -> w_end w = None -> removeComments text = Ok (src, esc) ->
  parse_text fuel d text = v -> v <> StillRunning -> exists w', move w w'.
Proof.
  intros m w text fuel v Cp M E Rc P Nv. destruct (moves_inv _ _ M) as (R&k&[(n0&mo&Is) Il Io Ic Ir It Ie]).
  destruct (step (exhausted w) (w_parser w)) as [c|o d'] eqn:St; [eexists; eapply parse; eauto|].
  assert (Dec : o = Waits \/ o <> Waits) by (destruct o; auto; right; discriminate). destruct Dec as [->|No]; [|eexists; eapply parser_stops; eauto].
  destruct (exhausted w) eqn:Ex; [exfalso; now apply step_true in St|]. pose proof (step_waits _ _ St) as ->.
  destruct (w_chan w) as [|t r] eqn:Ch; [|eexists; eapply receive; eauto].
  assert (O : w_over w = false) by (unfold exhausted in Ex; rewrite Ch, andb_true_r in Ex; exact Ex).
  cbn [app] in *. rewrite app_nil_r in *.
  destruct (nth_error (sendable fuel) (w_sent w)) as [t|] eqn:Nt.
  { eexists. eapply (send _ _ _ w fuel t); auto. rewrite Ch. exact Cp. }
  apply nth_error_None in Nt.
  destruct (prefix_of n0 (Nat.max n0 fuel) R mo Is) as [b1 E1]; [lia|]. destruct (tokens_grow fuel (Nat.max n0 fuel) esc src) as [b2 E2]; [lia|].
  rewrite E1 in E2. assert (L : List.length (sendable fuel) <= List.length R) by lia.
  destruct (firstn_prefix _ _ _ _ _ (eq_sym E2) L) as [c Rq].
  destruct (due _ _ _ Rc P Nv) as [(s&D)|(o&d'&Y&No)].
  - assert (G : sendable (Nat.max n0 fuel) = rev (sent s)).
    { pose proof (lex_grows fuel (Nat.max n0 fuel) esc src ltac:(lia)) as G. destruct D as [D|D]; rewrite D in G; cbn [grows] in G; now rewrite G. }
    rewrite G in E1. apply (f_equal (@List.length token)) in E1. rewrite rev_length, app_length in E1.
    assert (Q : List.length (sendable fuel) = List.length (sent s)) by (destruct D as [D|D]; rewrite D; cbn [tokens_of]; apply rev_length).
    destruct D as [D|D]; [eexists; eapply (close _ _ _ w fuel s); eauto; lia|eexists; eapply (lexer_panics _ _ _ w fuel s); eauto; lia].
  - exfalso. destruct (run_longer_any c false _ _ _ _ Y) as [->|Y2]; [congruence|]. rewrite start_longer, <- Rq in Y2.
    specialize (Ir [] false 1). rewrite app_nil_r, longer_nil in Ir. cbn [run] in Ir. rewrite St in Ir.
    pose proof (run_det _ _ _ _ _ _ (Ir ltac:(discriminate)) Y2) as Q. injection Q as <- _. congruence.
Qed.

(* ---- and every schedule gets there ---- *)
Lemma steps_bounded : forall m w R k, inv m w R k -> k < 100 * S (List.length R).
Proof.
  intros m w R k I. destruct I as [(n0&mo&Is) _ _ _ Ir _ _]. pose proof (positive_part _ _ _ Is) as P.
  destruct (parse_spec d R P) as (o&d'&Y&_). specialize (Ir [] true 0 (fun _ => conj eq_refl eq_refl)). cbn [run] in Ir. rewrite app_nil_r, Nat.add_0_r in Ir.
  destruct (le_lt_dec (100 * S (List.length R)) k) as [Le|Lt]; [|exact Lt]. unfold yyParse in Y. apply (run_more _ (k - 100 * S (List.length R))) in Y.
  replace (100 * S (List.length R) + (k - 100 * S (List.length R))) with k in Y by lia. congruence.
Qed.
Lemma received_bounded : forall f o d', run f false (start d (sendable f)) = Some (o, d') -> o <> Waits ->
  forall m w, moves m (begin d) w -> exists R k, inv m w R k /\ List.length R <= List.length (sendable f).
Proof.
  intros f o d' Y No m w M. remember (begin d) as b eqn:Eb. induction M as [w|m w1 w2 w3 M IH M1]; [subst; exists [], 0; split; [apply begin_inv|cbn; lia]|].
  destruct (IH Eb) as (R&k&I&L). destruct (move_inv _ _ _ _ _ I M1) as (R'&k'&I'&[->|(t&->&Ex&e&St)]); [now exists R, k'|exists (R ++ [t]), k'].
  rewrite app_length. cbn [List.length]. split; auto.
  destruct (le_lt_dec (List.length (sendable f)) (List.length R)) as [Le|]; [exfalso|lia].
  destruct I as [(n0&mo&Is) _ _ _ Ir _ _].
  destruct (prefix_of n0 (Nat.max n0 f) R _ Is) as [b1 E1]; [lia|]. destruct (tokens_grow f (Nat.max n0 f) esc src) as [b2 E2]; [lia|].
  rewrite E1 in E2. destruct (firstn_prefix _ _ _ _ _ (eq_sym E2) Le) as [c Rq].
  destruct (run_longer_any c false _ _ _ _ Y) as [->|Y2]; [congruence|]. rewrite start_longer, <- Rq in Y2.
  specialize (Ir [] false 1). rewrite app_nil_r, longer_nil, Ex in Ir. cbn [run] in Ir. rewrite St in Ir.
  pose proof (run_det _ _ _ _ _ _ (Ir ltac:(discriminate)) Y2) as Q. injection Q as <- _. congruence.
Qed.
Lemma bounded : forall text fuel v, removeComments text = Ok (src, esc) -> parse_text fuel d text = v -> v <> StillRunning ->
  exists N, forall m w, moves m (begin d) w -> m <= N.
Proof.
  intros text fuel v Rc P Nv.
  assert (H : exists b, forall m w, moves m (begin d) w -> exists R k, inv m w R k /\ List.length R <= b).
  { exists (List.length (sendable fuel)). destruct (due _ _ _ Rc P Nv) as [(s&D)|(o&d'&Y&No)]; [|intros m w M; eapply received_bounded; eauto].
    intros m w M. destruct (moves_inv _ _ M) as (R&k&I). exists R, k. split; auto. destruct I as [(n0&mo&Is) _ _ _ _ _ _].
    assert (G : sendable (Nat.max n0 fuel) = sendable fuel).
    { pose proof (lex_grows fuel (Nat.max n0 fuel) esc src ltac:(lia)) as G. destruct D as [D|D]; rewrite D in G |- *; cbn [grows] in G; now rewrite G. }
    destruct (prefix_of n0 (Nat.max n0 fuel) R _ Is) as [b1 E1]; [lia|]. rewrite G in E1. rewrite E1, app_length. lia. }
  destruct H as [b H]. exists (2 * b + cap + 100 * S b + 2). intros m w M. destruct (H m w M) as (R&k&I&L).
  pose proof (steps_bounded _ _ _ _ I) as K. destruct I as [_ Il _ Ic _ It _]. rewrite app_length in Il.
  destruct (w_over w), (w_end w); lia.
Qed.
End Machine.

(* a verdict reached with some fuel is reached with more *)
Lemma verdict_more : forall f f' d text, f <= f' -> parse_text f d text <> StillRunning -> parse_text f' d text = parse_text f d text.
Proof.
  intros f f' d text Le. unfold parse_text. destruct (removeComments text) as [[src esc]|e|]; auto. cbv zeta.
  pose proof (lex_grows f f' esc src Le) as G. pose proof (tokens_grow f f' esc src Le) as T. pose proof (lexer_positive f esc src) as P.
  assert (More : forall cl c r, run f cl c = Some r -> run f' cl c = Some r).
  { intros cl c r H. apply (run_more _ (f' - f)) in H. now replace (f + (f' - f)) with f' in H by lia. }
  destruct (lex f esc src) as [u s|s|s] eqn:L; cbn [grows tokens_of] in G, T, P |- *.
  - rewrite G. cbn [tokens_of]. unfold yyParse. destruct (run f true _) as [[o d']|] eqn:Y; [|congruence]. now rewrite (More _ _ _ Y).
  - now rewrite G.
  - unfold yyParse. destruct (run f false _) as [[o d']|] eqn:Y; [|congruence]. destruct T as [more T].
    assert (X : forall cl, o = Waits \/ run f' cl (start d (tokens_of (lex f' esc src))) = Some (o, d')).
    { intros cl. destruct (run_longer_any more cl _ _ _ _ Y) as [->|Y2]; [now left|right]. rewrite T. now apply More. }
    intros N. assert (Wo : o <> Waits) by (intros ->; congruence).
    assert (Ro : forall n, o <> Returns n) by (intros n ->; exact (open_never _ _ _ _ _ P Y)).
    destruct (lex f' esc src) as [u' s'|s'|s'].
    + destruct (X true) as [?|X1]; [congruence|]. cbn [tokens_of] in X1 |- *. now rewrite X1.
    + destruct o as [n| | | |]; [destruct (Ro n eq_refl)|reflexivity..|congruence|reflexivity] || (destruct o; congruence).
    + destruct (X false) as [?|X1]; [congruence|]. cbn [tokens_of] in X1 |- *. now rewrite X1.
Qed.
Lemma end_decided : forall cap esc src d m w, moves cap esc src m (begin d) w -> w_end w <> Some StillRunning.
Proof.
  intros cap esc src d m w M. remember (begin d) as b eqn:Eb. destruct M as [w|m w1 w2 w3 _ M]; [subst; discriminate|destruct M; cbn [w_end]; try discriminate].
  destruct o as [n| | | |]; cbn [parser_end]; try discriminate. destruct (n =? 0)%Z; discriminate.
Qed.

(* ---- a scheduler, for examples: true lets the lexer move, false the parser ---- *)
Definition lexer_moves (cap n : nat) (esc : N) (src : bytes) (w : world) : option world :=
  let r := lex n esc src in
  if w_over w then None else
  match nth_error (tokens_of r) (w_sent w) with
  | Some t => if List.length (w_chan w) <? cap
      then Some {| w_sent := S (w_sent w); w_over := false; w_chan := w_chan w ++ [t]; w_parser := w_parser w; w_end := None |} else None
  | None =>
      match r with
      | Done _ s => if w_sent w =? List.length (sent s)
          then Some {| w_sent := w_sent w; w_over := true; w_chan := w_chan w; w_parser := w_parser w; w_end := None |} else None
      | Panicked s => if w_sent w =? List.length (sent s)
          then Some {| w_sent := w_sent w; w_over := w_over w; w_chan := w_chan w; w_parser := w_parser w; w_end := Some Crashed |} else None
      | Unfinished _ => None
      end
  end.
Definition parser_moves (w : world) : option world :=
  match step (exhausted w) (w_parser w) with
  | Continue c => Some {| w_sent := w_sent w; w_over := w_over w; w_chan := w_chan w; w_parser := c; w_end := None |}
  | Stop Waits _ =>
      match w_chan w with
      | t :: r => Some {| w_sent := w_sent w; w_over := w_over w; w_chan := r; w_parser := received t (w_parser w); w_end := None |}
      | [] => None
      end
  | Stop o d => Some {| w_sent := w_sent w; w_over := w_over w; w_chan := w_chan w; w_parser := w_parser w; w_end := Some (parser_end o d) |}
  end.
(* n turns; [prefer]: the lexer moves when it can (otherwise the parser does) *)
Fixpoint play (cap f : nat) (esc : N) (src : bytes) (prefer : bool) (n : nat) (w : world) : nat * world :=
  match n with
  | O => (0, w)
  | S n =>
      match w_end w with
      | Some _ => (0, w)
      | None =>
          let l := lexer_moves cap f esc src w in let p := parser_moves w in
          match (if prefer then match l with Some w' => Some w' | None => p end else match p with Some w' => Some w' | None => l end) with
          | Some w' => let '(k, w2) := play cap f esc src prefer n w' in (S k, w2)
          | None => (0, w)
          end
      end
  end.
Lemma lexer_moves_ok : forall cap n esc src w w', w_end w = None -> lexer_moves cap n esc src w = Some w' -> move cap esc src w w'.
Proof.
  intros cap n esc src w w' E. unfold lexer_moves. cbv zeta. destruct (w_over w) eqn:O; [discriminate|].
  destruct (nth_error _ _) as [t|] eqn:N.
  - destruct (_ <? cap) eqn:C; [|discriminate]. intros H. injection H as <-. apply Nat.ltb_lt in C. now apply (send _ _ _ w n t).
  - destruct (lex n esc src) as [[] s|s|s] eqn:L; [| |discriminate]; (destruct (_ =? _) eqn:C; [|discriminate]); intros H; injection H as <-; apply Nat.eqb_eq in C.
    + now apply (close _ _ _ w n s).
    + rewrite <- O at 1. now apply (lexer_panics _ _ _ w n s).
Qed.
Lemma parser_moves_ok : forall cap esc src w w', w_end w = None -> parser_moves w = Some w' -> move cap esc src w w'.
Proof.
  intros cap esc src w w' E. unfold parser_moves. destruct (step (exhausted w) (w_parser w)) as [c|o d] eqn:St.
  - intros H. injection H as <-. now apply parse.
  - assert (Dec : o = Waits \/ o <> Waits) by (destruct o; auto; right; discriminate). destruct Dec as [->|No].
    + destruct (w_chan w) as [|t r] eqn:Ch; [discriminate|]. intros H. injection H as <-.
      unfold exhausted in St. rewrite Ch, andb_false_r in St. apply receive; auto. now rewrite <- (step_waits _ _ St).
    + intros H. assert (Q : w' = {| w_sent := w_sent w; w_over := w_over w; w_chan := w_chan w; w_parser := w_parser w; w_end := Some (parser_end o d) |})
        by (destruct o; congruence). subst w'. now apply parser_stops.
Qed.
Lemma moves_first : forall cap esc src n w1 w2 w3, move cap esc src w1 w2 -> moves cap esc src n w2 w3 -> moves cap esc src (S n) w1 w3.
Proof.
  intros cap esc src n w1 w2 w3 M H. induction H as [w|n w2 w3 w4 H IH M2]; [eapply moves_one; [constructor|exact M]|].
  eapply moves_one; [apply IH, M|exact M2].
Qed.
Lemma play_ok : forall cap f esc src prefer n w k w', play cap f esc src prefer n w = (k, w') -> moves cap esc src k w w'.
Proof.
  induction n as [|n IH]; intros w k w' H; cbn [play] in H; [injection H as <- <-; constructor|].
  destruct (w_end w) as [v|] eqn:E; [injection H as <- <-; constructor|]. cbv zeta in H.
  destruct (lexer_moves cap f esc src w) as [wl|] eqn:L; destruct (parser_moves w) as [wp|] eqn:P; destruct prefer;
    try (injection H as <- <-; constructor);
    match type of H with context [play _ _ _ _ _ _ ?x] => destruct (play cap f esc src _ n x) as [j w2] eqn:Q; injection H as <- <-; apply IH in Q; apply (moves_first _ _ _ _ _ x _); auto end;
    eauto using lexer_moves_ok, parser_moves_ok.
Qed.
