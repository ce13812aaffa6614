(* C124-C126: the patterns ParseBre understands.  Statements only; proofs in RegexGramProofs.v. *)
From Verif Require Import GoBase GoFacts NumFacts Utf8Facts RegexModel RegexSpec RegexProofs RegexGramSpec RegexPrintModel RegexGramProofs.

(* C124: the characters that the grammar names are these. *)
Theorem C124_characters : [c_lbrack; c_rbrack; c_lbrace; c_comma; c_rbrace; c_lparen; c_rparen; c_dot; c_star; c_bslash; c_caret; c_dollar] =
  runes_of (B "[]{,}().*\^$").
Proof. vm_compute. reflexivity. Qed.
Print Assumptions C124_characters.
(* C124: a text parses to a pattern iff it is written as the grammar of RegexGramSpec.v says. *)
Theorem C124_grammar : forall text b, ParseBre text = Ok b <-> pattern (runes_of text) b.
Proof. intros. apply parse_pattern. Qed.
Print Assumptions C124_grammar.
(* so the grammar gives a text one meaning at most *)
Theorem C124_unambiguous : forall text b b', pattern (runes_of text) b -> pattern (runes_of text) b' -> b = b'.
Proof. intros text b b' H H'. apply C124_grammar in H, H'. congruence. Qed.
Print Assumptions C124_unambiguous.
Example C124_nonvacuous :
  pattern (runes_of (B "^a(b){007}[\]x]*$")) {| anchorLeft := true; anchorRight := true;
    elements := [(Plain 97, {| cmin := 1; cmax := 1 |}); (Plain 98, {| cmin := 1; cmax := 1 |});
                 (Plain 123, {| cmin := 1; cmax := 1 |}); (Plain 48, {| cmin := 1; cmax := 1 |});
                 (Plain 48, {| cmin := 1; cmax := 1 |}); (Plain 55, {| cmin := 1; cmax := 1 |});
                 (Plain 125, {| cmin := 1; cmax := 1 |});
                 (Bracket [92; 93; 120]%N, {| cmin := 0; cmax := max_int64 |})] |} /\
  pattern (runes_of (B "$a{007}")) {| anchorLeft := false; anchorRight := false;
    elements := [(Plain 36, {| cmin := 1; cmax := 1 |}); (Plain 97, {| cmin := 7; cmax := 7 |})] |} /\
  ~ exists b, pattern (runes_of (B "a{2")) b.
Proof.
  split; [apply C124_grammar; vm_compute; reflexivity|]. split; [apply C124_grammar; vm_compute; reflexivity|].
  intros [b H]. apply C124_grammar in H. vm_compute in H. discriminate.
Qed.

(* C125 is false: ParseBre returns an error for no text at all; it panics on every text that is no pattern. *)
Theorem C125_malformed_refuted : (exists text, forall b, ~ pattern (runes_of text) b) /\
  forall text, (forall b, ~ pattern (runes_of text) b) -> ParseBre text = Panic.
Proof.
  split.
  - exists (B "[ab"). intros b H. apply C124_grammar in H. vm_compute in H. discriminate.
  - intros text H. destruct (ParseBre text) as [b|x|] eqn:E; auto.
    + apply C124_grammar in E. destruct (H b E).
    + exfalso. revert E. unfold ParseBre. destruct (N.eq_dec (hd 0%N (runes_of text)) c_caret) as [E|E].
      * destruct (runes_of text) as [|r t]; [discriminate|]. cbn in E. subst r. rewrite parse_runes_anchored.
        pose proof (parse_elements_no_err _ (body_of t) x (Nat.le_refl _)). destruct (parse_elements _ _); cbn; congruence.
      * rewrite parse_runes_unanchored by auto.
        pose proof (parse_elements_no_err _ (body_of (runes_of text)) x (Nat.le_refl _)).
        destruct (parse_elements _ _); cbn; congruence.
Qed.
Print Assumptions C125_malformed_refuted.

(* C126: the elements of a parsed pattern, printed one after the other, are a pattern with these elements: after a
   ^, and without one unless the first element is a ^; followed by $ or not. *)
Theorem C126_printed_elements : forall text b, ParseBre text = Ok b ->
  let printed := concat (map dupl_String (elements b)) in
  ParseBre (B "^" ++ printed) = Ok {| anchorLeft := true; anchorRight := false; elements := elements b |} /\
  ParseBre (B "^" ++ printed ++ B "$") = Ok {| anchorLeft := true; anchorRight := true; elements := elements b |} /\
  ((forall c es, elements b <> (Plain c_caret, c) :: es) ->
   ParseBre printed = Ok {| anchorLeft := false; anchorRight := false; elements := elements b |} /\
   ParseBre (printed ++ B "$") = Ok {| anchorLeft := false; anchorRight := true; elements := elements b |}).
Proof.
  intros text b P printed.
  assert (Pr : Forall printable (elements b)).
  { apply parse_pattern in P. pose proof (runes_of_valid text) as V.
    destruct P as [l es H1 H2 Q|l es H2 Q|l es H1 Q|l es Q]; cbn [elements]; apply (sequence_printable l es Q); auto.
    - now inversion V.
    - apply Forall_app in V. apply V.
    - inversion V as [|x y Vx Vy]; subst. apply Forall_app in Vy. apply Vy. }
  destruct (printed_string _ Pr) as [E V]. pose proof (printed_sequence _ Pr) as Q. pose proof (printed_last (elements b)) as L.
  subst printed. rewrite E. set (l := concat (map dupl_runes (elements b))) in *.
  assert (R : forall r, (r < 128)%N -> Forall valid_rune [r]) by (intros; repeat constructor; unfold valid_rune; lia).
  assert (D : runes_of (string_of_runes l ++ B "$") = l ++ [c_dollar]) by (rewrite runes_of_app by auto; reflexivity).
  unfold ParseBre. change (B "^") with (string_of_runes [c_caret]).
  rewrite D. rewrite !(runes_of_app [c_caret]) by (apply R; reflexivity). rewrite D, runes_of_string by auto.
  split; [apply parse_pattern; now apply pt_left|]. split; [apply parse_pattern; now apply pt_both|].
  intros H. assert (Hd : hd 0%N l <> c_caret).
  { subst l. destruct (elements b) as [|[[r| |cs] c] es]; cbn [map concat]; [discriminate| |discriminate|discriminate].
    cbn. intros ->. now apply (H c es). }
  split; apply parse_pattern; [now apply pt_none|now apply pt_right].
Qed.
Print Assumptions C126_printed_elements.
Example C126_nonvacuous : exists b, ParseBre (B "a*[x\]]{2,}.") = Ok b /\
  concat (map dupl_String (elements b)) = B "a{0,9223372036854775807}[x\]]{2,9223372036854775807}.{1,1}" /\
  exists b', ParseBre (B "(^a") = Ok b' /\ concat (map dupl_String (elements b')) = B "^{1,1}a{1,1}" /\
    ParseBre (B "^{1,1}a{1,1}") <> Ok b'.
Proof.
  eexists. split; [vm_compute; reflexivity|]. split; [vm_compute; reflexivity|].
  eexists. split; [vm_compute; reflexivity|]. split; [vm_compute; reflexivity|]. vm_compute. discriminate.
Qed.
