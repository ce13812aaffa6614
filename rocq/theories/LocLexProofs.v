(* The lexer of locale definitions: invariants of all runs. *)
From Verif Require Import GoBase GoFacts LocYaccModel LocaleModel LocLexModel.
Local Open Scope Z_scope.

(* ---- a property of lexer states kept by the primitives is kept by everything ---- *)
Section Invariant.
Variable P : lx -> Prop.
Variable T : Z -> Prop.
Hypothesis Pnext : forall s, P s -> P (snd (next s)).
Hypothesis Prewind : forall s, P s -> P (rewind s).
Hypothesis Pemit : forall t s, T t -> P s -> P (emit t s).

Definition ends {A} (r : lres A) : Prop := match r with Done _ s | Panicked s | Unfinished s => P s end.

Lemma bind_ends : forall A C (m : lres A) (f : A -> lx -> lres C), ends m -> (forall a s, P s -> ends (f a s)) -> ends (bind m f).
Proof. intros A C m f H K. destruct m as [a s|s|s]; cbn [bind ends] in *; auto. Qed.

Lemma next_ends : forall s r s', next s = (r, s') -> P s -> P s'.
Proof. intros s r s' E H. apply Pnext in H. now rewrite E in H. Qed.

Lemma take_from_ends : forall fuel chars s, P s -> P (take_from fuel chars s).
Proof.
  induction fuel as [|f IH]; intros chars s H; cbn [take_from]; destruct (next s) as [r s1] eqn:E; pose proof (next_ends _ _ _ E H).
  - now apply Prewind.
  - destruct (has chars r); [now apply IH|now apply Prewind].
Qed.

Lemma take_ends : forall chars s, P s -> P (take chars s).
Proof. intros chars s H. now apply take_from_ends. Qed.

Lemma rewinds_ends : forall n s, P s -> P (rewinds n s).
Proof. induction n as [|n IH]; intros s H; cbn [rewinds]; auto. Qed.

Hypothesis T_types : Forall T [WHITESPACE; EOL; CHARSYMBOL; SEMI; 40; 44; 41; CHAR; OCTAL_CHAR; DECIMAL_CHAR; HEX_CHAR;
  DQUOTE; TWO_DOUBLE_QUOTE_STR; EXTENDED_REG_EXP].
(* numbers are read at the start of a token *)
Hypothesis Pint : forall s, cur s = [] -> P s -> ends (grabInt s).

Ltac emits := apply Pemit; [apply (proj1 (Forall_forall _ _) T_types); cbn [In]; tauto|].
Ltac step E := let r := fresh "r" in let s := fresh "s" in
  destruct (next _) as [r s] eqn:E; apply next_ends in E; [|first [assumption|emits; assumption]].

Lemma ws_ends : forall s, P s -> ends (grabWhitespace s).
Proof.
  intros s H. unfold grabWhitespace. cbv zeta. pose proof (take_ends whiteSpace s H).
  destruct (beqb _ []); cbn [ends]; [assumption|]. now emits.
Qed.
Lemma nl_ends : forall s, P s -> ends (grabNewline s).
Proof.
  intros s H. unfold grabNewline. cbv zeta. pose proof (take_ends newLine s H).
  destruct (beqb _ []); cbn [ends]; [assumption|]. now emits.
Qed.
Lemma char_ends : forall s, P s -> ends (grabChar s).
Proof.
  intros s H. unfold grabChar. step E. destruct (negb _); cbn [ends]; [now apply Prewind|].
  pose proof (take_ends (upperChars ++ lowerChars ++ B "-" ++ B "_" ++ digits) s0 E) as K. cbv zeta.
  destruct (next (take _ s0)) as [r1 s1] eqn:E1. apply next_ends in E1; [|exact K].
  destruct (negb _); cbn [ends]; [now apply rewinds_ends|]. now emits.
Qed.
Lemma list_ends : forall fuel grab ok s, (forall s, cur s = [] -> P s -> ends (grab s)) -> cur s = [] -> P s -> ends (grabList fuel grab ok s).
Proof.
  induction fuel as [|f IH]; intros grab ok s G C H; cbn [grabList]; [exact H|].
  apply bind_ends; [now apply G|]. intros b s1 H1. destruct b; [|exact H1].
  step E. destruct (at_char ";" r); [apply IH; [exact G|reflexivity|now emits]|now apply Prewind].
Qed.
Lemma pair_ends : forall s, P s -> ends (grabCharPair s).
Proof.
  intros s H. unfold grabCharPair. step E. destruct (negb _); cbn [ends]; [now apply Prewind|].
  apply bind_ends; [apply char_ends; now emits|]. intros b s1 H1. destruct (negb b); [exact H1|].
  step E1. destruct (negb _); cbn [ends]; [now apply Prewind|].
  apply bind_ends; [apply char_ends; now emits|]. intros b2 s3 H3. destruct (negb b2); [exact H3|].
  step E2. destruct (negb _); cbn [ends]; [now apply Prewind|]. now emits.
Qed.
Lemma escape_ends : forall esc s, P s -> ends (grabEscapeInString esc s).
Proof.
  intros esc s H. unfold grabEscapeInString. step E.
  destruct (_ || _)%bool; cbn [ends]; [now emits|].
  destruct (has digits r); cbn [ends]; [emits; now apply Pnext, Pnext|].
  destruct (at_char "d" r).
  - destruct (next (snd (next (snd (next s0))))) as [r1 s1] eqn:E1. apply next_ends in E1; [|now apply Pnext, Pnext].
    cbn [ends]. emits. destruct (has digits r1); [exact E1|now apply Prewind].
  - destruct (at_char "x" r); cbn [ends]; [emits; now apply Pnext, Pnext|exact E].
Qed.
Lemma loop_ends : forall fuel esc e s, P s -> ends (string_loop fuel esc e s).
Proof.
  induction fuel as [|f IH]; intros esc e s H; cbn [string_loop]; [exact H|]. step E.
  destruct e; [apply bind_ends; [apply escape_ends; now apply Prewind|intros _ s1 H1; now apply IH]|].
  destruct (at_char """" r); cbn [ends]; [now emits|]. destruct (at_char nl r); cbn [ends]; [exact E|].
  destruct (at_char "\" r); [now apply IH|]. apply IH. now emits.
Qed.
Lemma peek_ends : forall s r s', peek s = (r, s') -> P s -> P s'.
Proof.
  intros s r s' E H. unfold peek in E. destruct (next s) as [r1 s1] eqn:E1. injection E as <- <-.
  apply Prewind. exact (next_ends _ _ _ E1 H).
Qed.
Lemma string_ends : forall fuel esc s, P s -> ends (grabString fuel esc s).
Proof.
  intros fuel esc s H. unfold grabString. destruct (peek s) as [r s1] eqn:E. apply peek_ends in E; [|exact H].
  destruct (negb _); cbn [ends]; [exact E|]. cbv zeta.
  destruct (peek (snd (next s1))) as [r2 s2] eqn:E2. apply peek_ends in E2; [|now apply Pnext].
  destruct (at_char """" r2); cbn [ends]; [emits; now apply Pnext|]. apply loop_ends. now emits.
Qed.
Lemma to_quote_ends : forall fuel s, P s -> ends (to_quote fuel s).
Proof.
  induction fuel as [|f IH]; intros s H; cbn [to_quote]; [exact H|]. step E.
  destruct (at_char """" r); cbn [ends]; [exact E|now apply IH].
Qed.
Lemma msg_ends : forall fuel s, P s -> ends (grabMsg fuel s).
Proof.
  intros fuel s H. unfold grabMsg. step E. destruct (negb _); cbn [ends]; [now apply Prewind|].
  apply bind_ends; [apply to_quote_ends; now emits|]. intros _ s1 H1. cbn [ends]. emits. apply Pnext. emits. now apply Prewind.
Qed.
Lemma must_ends : forall m, ends m -> ends (must m).
Proof. intros m H. apply bind_ends; [exact H|]. intros b s K. destruct b; exact K. Qed.
Lemma grab_ends : forall fuel esc g s, cur s = [] -> P s -> ends (grab fuel esc g s).
Proof.
  intros fuel esc g s C H. destruct g; cbn [grab].
  - apply list_ends; [intros; now apply char_ends|exact C|exact H].
  - apply list_ends; [intros; now apply pair_ends|exact C|exact H].
  - apply list_ends; [exact Pint|exact C|exact H].
  - now apply Pint.
  - now apply string_ends.
  - apply list_ends; [intros; now apply string_ends|exact C|exact H].
  - now apply msg_ends.
Qed.

Hypothesis T_states : Forall T [LC_COLLATE_STR; END_STR; ORDER_START_STR; COLLATING_ELEMENT_STR; COLLATING_SYMBOL_STR; FROM_STR;
  FORWARD_STR; BACKWARD_STR; POSITION_STR; ORDER_END_STR].
Hypothesis T_categories : forall c, In c categories -> T (c_tok c) /\ Forall (fun d => T (fst (snd d))) (c_defs c).
Ltac emits' := apply Pemit; [apply (proj1 (Forall_forall _ _) T_states); cbn [In]; tauto|].

Definition sound_state (st : lstate) : Prop := match st with SGeneric c => In c categories | _ => True end.
Definition goes (r : lres (option lstate)) : Prop :=
  ends r /\ match r with Done (Some st) _ => sound_state st | _ => True end.

Lemma bind_goes_eq : forall A (m : lres A) f, ends m -> (forall a s, m = Done a s -> P s -> goes (f a s)) -> goes (bind m f).
Proof. intros A m f H K. destruct m as [a s|s|s]; cbn [bind ends] in *; [now apply K|split; auto..]. Qed.
Lemma white_cur : forall s u s', must (grabWhitespace s) = Done u s' -> cur s' = [].
Proof.
  intros s u s' E. unfold must, grabWhitespace in E. cbv zeta in E. destruct (beqb _ _); cbn [bind] in E; [discriminate|]. now injection E as <- <-.
Qed.
Lemma bind_goes : forall A (m : lres A) f, ends m -> (forall a s, P s -> goes (f a s)) -> goes (bind m f).
Proof. intros A m f H K. destruct m as [a s|s|s]; cbn [bind ends] in *; [now apply K|split; auto..]. Qed.

Lemma look_up_in : forall A k (m : list (bytes * A)) v, look_up k m = Some v -> In (k, v) m.
Proof.
  intros A k m v. induction m as [|(x, w) m IH]; [discriminate|]. cbn [look_up].
  destruct (beqb k x) eqn:E; [|right; now apply IH]. apply beqb_eq in E. intros H. injection H as ->. left. now subst.
Qed.

Lemma category_goes : forall s, P s -> goes (sCategory s).
Proof.
  intros s H. unfold sCategory. cbv zeta. pose proof (take_ends (upperChars ++ B "_") s H) as K.
  set (s1 := take _ s) in *.
  destruct (beqb (current s1) (B "LC_COLLATE")).
  - apply bind_goes; [apply must_ends, nl_ends, take_ends; now emits'|]. intros _ s2 H2. now split.
  - destruct (find _ categories) as [c|] eqn:F; cbn [option_map]; [|now split].
    apply find_some in F. destruct F as [F _].
    apply bind_goes; [apply must_ends, nl_ends, take_ends; apply Pemit; [exact (proj1 (T_categories c F))|exact K]|].
    intros _ s2 H2. now split.
Qed.
Lemma generic_goes : forall fuel esc c s, In c categories -> P s -> goes (sGeneric fuel esc c s).
Proof.
  intros fuel esc c s C H. unfold sGeneric. apply bind_goes; [now apply ws_ends|]. intros _ s1 H1. cbv zeta.
  pose proof (take_ends (upperChars ++ lowerChars ++ B "_") s1 H1) as K. set (s2 := take _ s1) in *.
  destruct (beqb (current s2) (B "END")).
  - apply bind_goes; [apply must_ends, ws_ends; now emits'|]. intros _ s3 H3. pose proof (take_ends upperChars s3 H3) as K3.
    destruct (negb _); [now split|].
    apply bind_goes; [apply ws_ends, Pemit; [exact (proj1 (T_categories c C))|exact K3]|]. intros _ s4 H4.
    apply bind_goes; [now apply must_ends, nl_ends|]. intros _ s5 H5. now split.
  - destruct (look_up (current s2) (c_defs c)) as [[typ g]|] eqn:L; [|now split].
    apply look_up_in in L. pose proof (proj1 (Forall_forall _ _) (proj2 (T_categories c C)) _ L) as TT. cbn [fst snd] in TT.
    apply bind_goes_eq; [apply must_ends, ws_ends; now apply Pemit|]. intros u3 s3 C3 H3. apply white_cur in C3.
    apply bind_goes; [now apply must_ends, grab_ends|]. intros _ s4 H4.
    apply bind_goes; [now apply must_ends, nl_ends|]. intros _ s5 H5. now split.
Qed.
Lemma collate_goes : forall fuel esc s, P s -> goes (sCollate fuel esc s).
Proof.
  intros fuel esc s H. unfold sCollate. apply bind_goes; [now apply ws_ends|]. intros _ s1 H1. cbv zeta.
  pose proof (take_ends (upperChars ++ lowerChars ++ B "_") s1 H1) as K. set (s2 := take _ s1) in *.
  destruct (beqb (current s2) (B "END")).
  { apply bind_goes; [apply must_ends, ws_ends; now emits'|]. intros _ s3 H3. pose proof (take_ends upperChars s3 H3) as K3.
    destruct (negb _); [now split|].
    apply bind_goes; [apply nl_ends; now emits'|]. intros _ s4 H4. now split. }
  destruct (beqb (current s2) (B "order_start")); [split; [cbn [ends]; now emits'|exact I]|].
  destruct (beqb (current s2) (B "collating-element")).
  { apply bind_goes; [apply must_ends, ws_ends; now emits'|]. intros _ s3 H3.
    apply bind_goes; [now apply must_ends, char_ends|]. intros _ s4 H4.
    apply bind_goes; [now apply must_ends, ws_ends|]. intros _ s5 H5.
    pose proof (take_ends (B "from") s5 H5) as K5. destruct (negb _); [now split|].
    apply bind_goes; [apply must_ends, ws_ends; now emits'|]. intros _ s6 H6.
    apply bind_goes; [now apply must_ends, string_ends|]. intros _ s7 H7.
    apply bind_goes; [now apply ws_ends|]. intros _ s8 H8.
    apply bind_goes; [now apply must_ends, nl_ends|]. intros _ s9 H9. now split. }
  destruct (beqb (current s2) (B "collating-symbol")); [|now split].
  apply bind_goes; [apply must_ends, ws_ends; now emits'|]. intros _ s3 H3.
  apply bind_goes; [now apply must_ends, string_ends|]. intros _ s7 H7.
  apply bind_goes; [now apply ws_ends|]. intros _ s8 H8.
  apply bind_goes; [now apply must_ends, nl_ends|]. intros _ s9 H9. now split.
Qed.
Lemma order_start_goes : forall s, P s -> goes (sOrderStart s).
Proof.
  intros s H. unfold sOrderStart. apply bind_goes; [now apply ws_ends|]. intros _ s1 H1. cbv zeta.
  pose proof (take_ends lowerChars s1 H1) as K. set (s2 := take _ s1) in *.
  destruct (beqb (current s2) []).
  { apply bind_goes; [now apply must_ends, nl_ends|]. intros _ s9 H9. now split. }
  destruct (beqb (current s2) (B "forward")); [split; [cbn [ends]; now emits'|exact I]|].
  destruct (beqb (current s2) (B "backward")); [split; [cbn [ends]; now emits'|exact I]|].
  destruct (beqb (current s2) (B "position")); [split; [cbn [ends]; now emits'|exact I]|]. now split.
Qed.
Lemma order_goes : forall s, P s -> goes (sOrder s).
Proof.
  intros s H. unfold sOrder. apply bind_goes; [now apply char_ends|]. intros b s1 H1. cbv zeta.
  pose proof (take_ends lowerChars s1 H1) as K.
  destruct (negb b).
  - destruct (negb _); [now split|].
    apply bind_goes; [apply must_ends, nl_ends; now emits'|]. intros _ s9 H9. now split.
  - apply bind_goes; [now apply must_ends, nl_ends|]. intros _ s9 H9. now split.
Qed.
Lemma call_goes : forall fuel esc st s, sound_state st -> P s -> goes (call fuel esc st s).
Proof.
  intros fuel esc st s C H. destruct st as [| |c| | |]; cbn [call].
  - now split.
  - now apply category_goes.
  - now apply generic_goes.
  - now apply collate_goes.
  - now apply order_start_goes.
  - now apply order_goes.
Qed.
Lemma run_ends : forall k fuel esc st s, sound_state st -> P s -> ends (lex_run k fuel esc st s).
Proof.
  induction k as [|k IH]; intros fuel esc st s C H; cbn [lex_run]; [exact H|].
  destruct (call_goes fuel esc st s C H) as [G1 G2]. destruct (call fuel esc st s) as [o s1|s1|s1]; cbn [bind ends] in *; auto.
  destruct o as [st'|]; [now apply IH|exact G1].
Qed.
Lemma lex_ends : forall fuel esc src, P {| cur := []; rest := src; rew := []; sent := [] |} -> ends (lex fuel esc src).
Proof. intros fuel esc src H. apply run_ends; [exact I|exact H]. Qed.
End Invariant.

Lemma int_ends : forall (P : lx -> Prop), (forall s, P s -> P (snd (next s))) -> (forall s, P s -> P (rewind s)) ->
  (forall s, P s -> P (emit NUMBER s)) -> forall s, P s -> ends P (grabInt s).
Proof.
  intros P N R E s H. unfold grabInt. cbv zeta. pose proof (take_ends P N R (B "-1234567890") s H) as K.
  destruct (beqb _ []); cbn [ends]; [exact K|]. destruct (_ || _)%bool; cbn [ends]; [exact K|]. now apply E.
Qed.

(* ---- every token comes from a fixed set ---- *)
Definition lexer_types : list Z :=
  [WHITESPACE; EOL; CHARSYMBOL; SEMI; 40; 44; 41; NUMBER; CHAR; OCTAL_CHAR; DECIMAL_CHAR; HEX_CHAR;
   DQUOTE; TWO_DOUBLE_QUOTE_STR; EXTENDED_REG_EXP] ++
  [LC_COLLATE_STR; END_STR; ORDER_START_STR; COLLATING_ELEMENT_STR; COLLATING_SYMBOL_STR; FROM_STR;
   FORWARD_STR; BACKWARD_STR; POSITION_STR; ORDER_END_STR] ++
  flat_map (fun c => c_tok c :: map (fun d => fst (snd d)) (c_defs c)) categories.

Lemma types_ends : forall fuel esc src, Forall (fun t => In (t_type t) lexer_types) (tokens_of (lex fuel esc src)).
Proof.
  intros fuel esc src.
  pose proof (lex_ends (fun s => Forall (fun t => In (t_type t) lexer_types) (sent s)) (fun z => In z lexer_types)) as L.
  assert (E : ends (fun s => Forall (fun t => In (t_type t) lexer_types) (sent s)) (lex fuel esc src)).
  { apply L.
    - intros s H. unfold next. destruct (rest s); [exact H|]. destruct (decode_rune _). exact H.
    - intros s H. unfold rewind. destruct (rew s) as [|[r|] w]; exact H.
    - intros t s H1 H2. cbn [emit sent]. now constructor.
    - apply Forall_forall. intros z I. apply in_or_app. left. cbn [In] in *. tauto.
    - intros s _ H. apply int_ends; [..|exact H]; clear s H; intros s H.
      + unfold next. destruct (rest s); [exact H|]. destruct (decode_rune _). exact H.
      + unfold rewind. destruct (rew s) as [|[r|] w]; exact H.
      + cbn [emit sent]. constructor; [|exact H]. apply in_or_app. left. cbn [t_type In]. tauto.
    - apply Forall_forall. intros z I. apply in_or_app. right. apply in_or_app. now left.
    - intros c I. split.
      + apply in_or_app. right. apply in_or_app. right. apply in_flat_map. exists c. split; [exact I|now left].
      + apply Forall_forall. intros d D. apply in_or_app. right. apply in_or_app. right. apply in_flat_map. exists c.
        split; [exact I|]. right. apply in_map_iff. now exists d.
    - constructor. }
  destruct (lex fuel esc src) as [u s|s|s]; cbn [ends tokens_of] in *; now apply Forall_rev.
Qed.

(* ---- nothing is lost ---- *)
Definition unread {A} (r : lres A) : bytes := match r with Done _ s | Panicked s | Unfinished s => current s ++ rest s end.

Lemma lossless : forall fuel esc src,
  concat (map t_value (tokens_of (lex fuel esc src))) ++ unread (lex fuel esc src) = src.
Proof.
  intros fuel esc src.
  set (P := fun s => concat (map t_value (rev (sent s))) ++ current s ++ rest s = src).
  assert (E : ends P (lex fuel esc src)).
  { assert (N1 : forall s, P s -> P (snd (next s))).
    { intros s H. unfold P, next, current in *. destruct (rest s) as [|c r] eqn:E; [cbn; now rewrite <- H|].
      destruct (decode_rune (c :: r)) as [n k]. cbn [snd cur rest sent]. rewrite rev_app_distr, rev_involutive, <- app_assoc.
      rewrite firstn_skipn. exact H. }
    assert (N2 : forall s, P s -> P (rewind s)).
    { intros s H. unfold P, rewind, current in *. destruct (rew s) as [|[r|] w]; [exact H| |exact H].
      cbn [cur rest sent]. rewrite (app_assoc (rev (skipn _ _))), <- rev_app_distr, firstn_skipn. exact H. }
    assert (N3 : forall t s, P s -> P (emit t s)).
    { intros t s H. unfold P, emit, current in *. cbn [cur rest sent rev]. rewrite map_app, concat_app. cbn [map concat t_value app].
      rewrite app_nil_r, <- app_assoc. exact H. }
    apply (lex_ends P (fun _ => True)); auto.
    - apply Forall_forall. trivial.
    - intros s _ H. apply int_ends; auto.
    - apply Forall_forall. trivial.
    - intros c _. split; [trivial|]. apply Forall_forall. trivial.
    - reflexivity. }
  unfold P in E. destruct (lex fuel esc src) as [u s|s|s]; exact E.
Qed.
