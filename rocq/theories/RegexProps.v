(* C41-C45: pkg/regexes.  Statements only; proofs in RegexProofs.v. *)
From Verif Require Import GoBase GoFacts NumFacts Utf8Facts RegexModel RegexSpec RegexProofs.

(* The characters that the specification names are these. *)
Theorem C41_special_characters : special = runes_of (B "[().*{") /\ c_caret = N_of_ascii "^" /\ c_dollar = N_of_ascii "$".
Proof. repeat split; vm_compute; reflexivity. Qed.
Print Assumptions C41_special_characters.

(* A pattern without special characters parses, and matches exactly the texts in which it occurs;
   with ^ in front exactly the texts it begins.  (ps is the pattern, as runes; any input bytes.) *)
Theorem C41_literal : forall ps, literal ps ->
  exists b, ParseBre (string_of_runes ps) = Ok b /\
  forall input, Matches b input = true <-> exists u v, runes_of input = u ++ ps ++ v.
Proof.
  intros ps L. destruct (parse_literal ps L) as [-> _]. eexists. split; [reflexivity|]. intros input.
  unfold Matches. rewrite matches_literal. split; intros (u&v&H); [exists u, v; tauto|].
  exists u, v. split; auto. discriminate.
Qed.
Print Assumptions C41_literal.
Theorem C41_literal_anchored : forall ps, literal ps ->
  exists b, ParseBre (string_of_runes (c_caret :: ps)) = Ok b /\
  forall input, Matches b input = true <-> exists v, runes_of input = ps ++ v.
Proof.
  intros ps L. destruct (parse_literal ps L) as [_ ->]. eexists. split; [reflexivity|]. intros input.
  unfold Matches. rewrite matches_literal. split.
  - intros (u&v&H&U). rewrite U in H by auto. eauto.
  - intros (v&H). exists [], v. auto.
Qed.
Print Assumptions C41_literal_anchored.
Example C41_nonvacuous : literal [97; 233; 36; 94; 98]%N /\
  (exists b, ParseBre (string_of_runes [97; 233; 36; 94; 98]%N) = Ok b /\
    Matches b (string_of_runes [120; 97; 233; 36; 94; 98; 121]%N) = true /\ Matches b (B "ab") = false).
Proof.
  split.
  - split; [repeat constructor; unfold valid_rune; lia|]. split; [|split; discriminate].
    unfold special. cbn [In]. unfold c_lbrack, c_lparen, c_rparen, c_dot, c_star, c_lbrace. intros r H Q. lia.
  - vm_compute. eauto.
Qed.

(* Every textbook match is found. *)
Theorem C42_no_false_negative : forall pattern b input, ParseBre pattern = Ok b ->
  contains_match (anchorLeft b) (anchorRight b) (elements b) (runes_of input) -> Matches b input = true.
Proof. intros pattern b input _ H. now apply matches_complete. Qed.
Print Assumptions C42_no_false_negative.
Example C42_nonvacuous : exists b, ParseBre (B "^a*[bc]{1,2}.$") = Ok b /\
  contains_match (anchorLeft b) (anchorRight b) (elements b) (runes_of (B "aacbx")) /\ Matches b (B "aacbx") = true.
Proof.
  vm_compute ParseBre. eexists. split; [reflexivity|]. split; [|vm_compute; reflexivity].
  cbn [anchorLeft anchorRight elements]. exists [], (runes_of (B "aacbx")), []. split; [reflexivity|].
  split; [|split; auto]. vm_compute runes_of.
  apply (sp_cons _ _ _ [97; 97]%N); [repeat constructor|cbn; lia|].
  apply (sp_cons _ _ _ [99; 98]%N); [apply Forall_cons; [cbn; auto|apply Forall_cons; [cbn; auto|apply Forall_nil]]|cbn; lia|].
  apply (sp_cons _ _ _ [120]%N []); [repeat constructor|cbn; lia|constructor].
Qed.

(* C43 is false: RegexMoreProps.v. *)
(* Missing from C43: patterns with a variable repetition of anything but "." before an element that is
   not optional, and the right anchor (C44).  For all other patterns a match is a textbook match. *)
Theorem C43_no_false_positive_partial : forall pattern b input, ParseBre pattern = Ok b ->
  exact_elements (elements b) -> Matches b input = true ->
  contains_match (anchorLeft b) false (elements b) (runes_of input).
Proof. intros pattern b input P F H. apply matches_sound; auto. eapply ParseBre_nonneg; eauto. Qed.
Print Assumptions C43_no_false_positive_partial.
Example C43_nonvacuous : exists b, ParseBre (B "^[ab]{2}.*xy*z*") = Ok b /\ exact_elements (elements b) /\
  Matches b (B "ba--x") = true /\ Matches b (B "bc--x") = false.
Proof.
  vm_compute ParseBre. eexists. split; [reflexivity|]. cbn [elements]. split; [|split; vm_compute; reflexivity].
  apply ex_fixed; [left; reflexivity|]. apply ex_fixed; [right; reflexivity|]. apply ex_fixed; [left; reflexivity|].
  apply ex_last. repeat constructor.
Qed.

(* C45: the characters named below are these. *)
Theorem C45_characters : [c_lbrack; c_rbrack; c_lbrace; c_comma; c_rbrace; c_lparen; c_rparen; c_dot; c_star; c_bslash; c_caret; c_dollar] =
  runes_of (B "[]{,}().*\^$").
Proof. vm_compute. reflexivity. Qed.
Print Assumptions C45_characters.

(* C44 is false: adding or removing the right anchor never changes the result (and see RegexMoreProps.v). *)
Theorem C44_right_anchor_ignored : forall left right right' es input,
  Matches {| anchorLeft := left; anchorRight := right; elements := es |} input =
  Matches {| anchorLeft := left; anchorRight := right'; elements := es |} input.
Proof. intros. apply matches_ignores_right. Qed.
Print Assumptions C44_right_anchor_ignored.
(* An element and its count in front of any text (valid runes; any bytes after them) parse to that element
   with that count, followed by what the text parses to. *)
Theorem C45_counts : forall e et c ct rest, element_text e et -> count_text c ct -> Forall valid_rune et ->
  follows ct (runes_of rest) ->
  ParseBre (string_of_runes (et ++ ct) ++ rest) = prepend (e, c) (ParseBre rest).
Proof.
  intros e et c ct rest He Hc V F. unfold ParseBre. rewrite runes_of_app.
  - rewrite <- app_assoc. now apply parse_runes_step.
  - apply Forall_app. split; auto. apply Forall_forall. intros r I.
    assert (A : (r < 128)%N).
    { assert (D : forall m x, is_count m -> In x (dec_runes m) -> (x < 128)%N).
      { intros m x [Hm _] Hx. pose proof (dec_runes_digits m Hm) as [_ Q]. rewrite Forall_forall in Q.
        apply Q in Hx. lia. }
      destruct Hc; cbn [In] in I; repeat (apply in_app_or in I as [I|I] || destruct I as [I|I]);
        subst; eauto; try contradiction; unfold c_star, c_lbrace, c_rbrace, c_comma; try lia. }
    left. lia.
Qed.
Print Assumptions C45_counts.
Theorem C45_empty : ParseBre [] = Ok {| anchorLeft := false; anchorRight := false; elements := [] |}.
Proof. reflexivity. Qed.
Print Assumptions C45_empty.
(* anchors *)
Theorem C45_anchors : forall s b, ParseBre s = Ok b -> hd 0%N (runes_of s) <> c_caret ->
  ParseBre (B "^" ++ s) = Ok {| anchorLeft := true; anchorRight := anchorRight b; elements := elements b |} /\
  anchorLeft b = false /\ (anchorRight b = true <-> last (runes_of s) 0%N = c_dollar).
Proof.
  intros s b H Hd. unfold ParseBre in *. change (B "^") with (string_of_runes [c_caret]).
  rewrite runes_of_app by (repeat constructor; unfold valid_rune, c_caret; lia). cbn [app].
  rewrite parse_runes_anchored. rewrite parse_runes_unanchored in H by auto.
  destruct (parse_elements _ _); cbn [rbind] in *; try discriminate. injection H as <-. cbn.
  repeat split; auto; [intros E; now apply N.eqb_eq in E|intros E; now apply N.eqb_eq].
Qed.
Print Assumptions C45_anchors.
(* unterminated or malformed { and [ panic, also after other well-formed elements (C45_counts) *)
Theorem C45_unterminated_count : forall e et t, element_text e et -> Forall valid_rune et ->
  ~ In c_rbrace (runes_of t) -> ParseBre (string_of_runes et ++ B "{" ++ t) = Panic.
Proof.
  intros e et t He V H. unfold ParseBre. change (B "{") with (string_of_runes [c_lbrace]).
  rewrite !runes_of_app by (auto; repeat constructor; unfold valid_rune, c_lbrace; lia).
  now apply (parse_unterminated_brace e).
Qed.
Print Assumptions C45_unterminated_count.
Theorem C45_malformed_count : forall e et body t, element_text e et -> Forall valid_rune et -> Forall valid_rune body ->
  ~ In c_rbrace body -> ~ In c_bslash body -> ~ count_body body ->
  ParseBre (string_of_runes et ++ B "{" ++ string_of_runes body ++ B "}" ++ t) = Panic.
Proof.
  intros e et body t He V Vb H1 H2 H. unfold ParseBre. change (B "{") with (string_of_runes [c_lbrace]).
  change (B "}") with (string_of_runes [c_rbrace]).
  rewrite !runes_of_app by (auto; repeat constructor; unfold valid_rune, c_lbrace, c_rbrace; lia).
  apply (parse_bad_count e); auto. rewrite parseCount_brace by auto.
  destruct (breCountRe body) eqn:E; auto. apply breCountRe_body in E. contradiction.
Qed.
Print Assumptions C45_malformed_count.
(* a count that does not fit an int *)
Theorem C45_huge_count : forall e et m t, element_text e et -> Forall valid_rune et -> (max_int64 < m)%Z ->
  ParseBre (string_of_runes et ++ B "{" ++ itoa m ++ B "}" ++ t) = Panic.
Proof.
  intros e et m t He V Hm. assert (P : (0 <= m)%Z) by (unfold max_int64 in Hm; lia).
  pose proof (dec_runes_digits m P) as [Ne D].
  assert (S : itoa m = string_of_runes (dec_runes m)).
  { rewrite string_of_ascii_runes. 2: eapply Forall_impl; [|exact D]; cbv beta; intros; lia.
    unfold dec_runes. rewrite map_map, (map_ext _ (fun x => x)) by apply ascii_N_embedding. now rewrite map_id. }
  rewrite S. unfold ParseBre. change (B "{") with (string_of_runes [c_lbrace]).
  change (B "}") with (string_of_runes [c_rbrace]).
  rewrite !runes_of_app; auto.
  2, 4: repeat constructor; unfold valid_rune, c_lbrace, c_rbrace; lia.
  2: eapply Forall_impl; [|exact D]; cbv beta; unfold valid_rune; intros; lia.
  assert (R1 : ~ In c_rbrace (dec_runes m)) by (apply digits_not; [split; auto|unfold c_rbrace; lia]).
  assert (R2 : ~ In c_bslash (dec_runes m)) by (apply digits_not; [split; auto|unfold c_bslash; lia]).
  apply (parse_bad_count e); auto. rewrite parseCount_brace by auto. rewrite breCountRe_exactly by (split; auto).
  unfold mustBeInt. rewrite dec_runes_atoi by auto. replace (m <=? max_int64)%Z with false by lia. reflexivity.
Qed.
Print Assumptions C45_huge_count.
Theorem C45_unterminated_bracket : forall t, ~ In c_rbrack (runes_of t) -> ParseBre (B "[" ++ t) = Panic.
Proof.
  intros t H. unfold ParseBre. change (B "[") with (string_of_runes [c_lbrack]).
  rewrite runes_of_app by (repeat constructor; unfold valid_rune, c_lbrack; lia).
  now apply parse_unterminated_bracket.
Qed.
Print Assumptions C45_unterminated_bracket.
(* the parser always ends, with a pattern or a panic *)
Theorem C45_total : forall s x, ParseBre s <> Err x.
Proof.
  intros s x. unfold ParseBre. destruct (N.eq_dec (hd 0%N (runes_of s)) c_caret) as [E|E].
  - destruct (runes_of s) as [|r t]; [discriminate|]. cbn in E. subst r. rewrite parse_runes_anchored.
    pose proof (parse_elements_no_err _ (body_of t) x (Nat.le_refl _)). destruct (parse_elements _ _); cbn; congruence.
  - rewrite parse_runes_unanchored by auto.
    pose proof (parse_elements_no_err _ (body_of (runes_of s)) x (Nat.le_refl _)). destruct (parse_elements _ _); cbn; congruence.
Qed.
Print Assumptions C45_total.
Example C45_nonvacuous :
  ParseBre (string_of_runes ([97%N] ++ c_lbrace :: dec_runes 12 ++ [c_comma] ++ dec_runes 305 ++ [c_rbrace]) ++ B "[xy]*$") =
    Ok {| anchorLeft := false; anchorRight := true;
          elements := [(Plain 97, {| cmin := 12; cmax := 305 |}); (Bracket [120; 121]%N, {| cmin := 0; cmax := max_int64 |})] |} /\
  element_text (Plain 97) [97%N] /\
  count_text {| cmin := 12; cmax := 305 |} (c_lbrace :: dec_runes 12 ++ [c_comma] ++ dec_runes 305 ++ [c_rbrace]) /\
  follows (c_lbrace :: dec_runes 12 ++ [c_comma] ++ dec_runes 305 ++ [c_rbrace]) (runes_of (B "[xy]*$")) /\
  ~ count_body (runes_of (B "1,2,")).
Proof.
  split; [vm_compute; reflexivity|]. split.
  { constructor. cbn. unfold c_lbrack, c_lparen, c_rparen, c_dot, c_caret, c_dollar. lia. }
  split. { apply ct_between; unfold is_count, max_int64; lia. }
  split. { split; [discriminate|discriminate]. }
  intros H. remember (runes_of (B "1,2,")) as l eqn:E. vm_compute in E. destruct H as [m [_ D]|m [_ D]|m n [_ D] [_ D2]].
  - subst. inversion D; subst. inversion H2; subst. lia.
  - change [49; 44; 50; 44]%N with ([49; 44; 50] ++ [44])%N in E. apply app_inj_tail in E as [-> _].
    inversion D; subst. inversion H2; subst. lia.
  -
    destruct m as [|a [|b m]]; cbn [app] in E; unfold c_comma in E.
    + discriminate E.
    + inversion E; subst. rewrite Forall_forall in D2. pose proof (D2 44%N ltac:(cbn; auto)). lia.
    + inversion E; subst. rewrite Forall_forall in D. pose proof (D 44%N ltac:(cbn; auto)). lia.
Qed.
