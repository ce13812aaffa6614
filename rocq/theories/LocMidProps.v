(* Property theorem C130, and C103-C106 at any place of a definition (pkg/locale: localelex.go in front of the generated parser).
   [begun esc doc c es pre] (LocMidSpec.v): pre is the text of the categories doc, the header of the category c and its entries
   es, all well formed.  [removeComments text = Ok (src, esc)]: src is what NewLexer leaves of the file's text. *)
From Verif Require Import GoBase GoFacts Utf8Facts RuneFacts LocaleSpec LocGramSpec LocYaccModel LocYaccProofs LocYaccGram LocYaccSound LocParseSpec LocYaccFinal
  LocaleModel LocaleProofs LocLexModel LocLexProofs LocDocSpec LocDocLex LocDocProofs LocDocFinal LocTokSpec LocHangSpec LocLexEnds LocLexMore LocLexBad LocHang
  LocMidSpec LocMidProofs LocDocProps LocTokProps.
Local Open Scope Z_scope.

(* C103 is false at any place: a first word in LC_COLLATE other than END and order_start, ... *)
Theorem C103_any_collate_refuted : forall esc doc pre w g c r text d, begun_collation esc doc pre ->
  Forall (fun x => In x letters) w -> w <> B "END" -> w <> B "order_start" -> Forall (fun x => In x [" "%char; tab]) g ->
  (byte_val c < 128)%N -> ~ In c (" "%char :: tab :: letters) -> (w ++ g = [] -> ~ In c [nl; cr]) ->
  removeComments text = Ok (pre ++ w ++ g ++ c :: r, esc) ->
  exists n, forall fuel, (n <= fuel)%nat -> parse_text fuel d text = StillRunning.
Proof.
  intros esc doc pre w g c r text d Bg Lw N1 N2 Lg Lc Nc N0 R. apply (mid_collate esc doc w g (c :: r) pre text d Bg Lw N1 N2 Lg).
  - destruct w as [|w0 w1]; [destruct g as [|g0 g1]|].
    + split; [exact Lc|]. now apply N0.
    + cbn [app]. inversion Lg as [|? ? G1 _]; subst. destruct G1 as [<-|[<-|[]]]; now apply stops_b.
    + cbn [app]. inversion Lw as [|? ? G1 _]; subst.
      assert (A : forallb (fun c => lowb c && negb (existsb (Ascii.eqb c) newLine)) letters = true) by (vm_compute; reflexivity).
      apply stops_b. exact (proj1 (forallb_forall _ _) A w0 G1).
  - split; [exact Lc|]. intros I. apply Nc. destruct I as [<-|[<-|[]]]; [now left|right; now left].
  - split; [exact Lc|]. intros I. apply Nc. right; right. apply in_b.
    assert (A : within letters word_chars = true) by (vm_compute; reflexivity). exact (proj1 (forallb_forall _ _) A c I).
  - exact R.
Qed.
Print Assumptions C103_any_collate_refuted.
(* ... a quote that is not closed in LC_MESSAGES, ... *)
Theorem C103_any_unclosed_refuted : forall esc doc es k g x pre text d, begun esc doc Messages es pre -> In k [B "yesexpr"; B "noexpr"] ->
  blanks g -> ~ In """"%char x -> removeComments text = Ok (pre ++ k ++ g ++ """"%char :: x, esc) ->
  exists n, forall fuel, (n <= fuel)%nat -> parse_text fuel d text = StillRunning.
Proof. exact mid_unclosed. Qed.
Print Assumptions C103_any_unclosed_refuted.
(* ... the end of the text inside a numeric escape. *)
Theorem C103_any_escape_refuted : forall esc doc c es k g gs x e pre text d, begun esc doc c es pre -> text_keyword c k -> blanks g ->
  text_ok esc gs -> In x (B "0123456789dx") -> byte_val x <> esc -> (length (runes_of e) <= 1)%nat ->
  removeComments text = Ok (pre ++ k ++ g ++ """"%char :: written gs ++ "\"%char :: x :: e ++ [nl], esc) ->
  exists n, forall fuel, (n <= fuel)%nat -> parse_text fuel d text = StillRunning.
Proof. exact mid_cut. Qed.
Print Assumptions C103_any_escape_refuted.

(* C104 is false at any place: a blank after the value of an entry makes the program fail. *)
Theorem C104_any_trailing_blank_refuted : forall esc doc c es e b r pre text d, begun esc doc c es pre -> entry_ok esc c e ->
  In b [" "%char; tab] -> removeComments text = Ok (pre ++ write_entry e ++ b :: r, esc) ->
  exists n, forall fuel, (n <= fuel)%nat -> parse_text fuel d text = Crashed.
Proof. exact mid_trailing. Qed.
Print Assumptions C104_any_trailing_blank_refuted.

(* C105 is false at any place: a copy line makes the program fail. *)
Theorem C105_any_copy_refuted : forall esc doc c es b r pre text d, begun esc doc c es pre -> In b [nl; cr; " "%char; tab] ->
  removeComments text = Ok (pre ++ B "copy" ++ b :: r, esc) ->
  exists n, forall fuel, (n <= fuel)%nat -> parse_text fuel d text = Crashed.
Proof. exact mid_copy. Qed.
Print Assumptions C105_any_copy_refuted.

(* C106 is false at any place: a definition with the keyword charclass is never accepted. *)
Theorem C106_any_charclass_refuted : forall esc doc es b r pre text d d' fuel, begun esc doc Ctype es pre -> In b [nl; cr; " "%char; tab] ->
  removeComments text = Ok (pre ++ B "charclass" ++ b :: r, esc) -> parse_text fuel d text <> Accepted d'.
Proof. exact mid_charclass. Qed.
Print Assumptions C106_any_charclass_refuted.

(* C130 is false: an escape of two octal digits at the end of a text (which POSIX allows) takes the closing quote with it, and the
   program fails, unless another quote or a backslash follows in the line; ... *)
Theorem C130_two_digits_refuted : forall esc doc c es k g gs a b y r pre text d, begun esc doc c es pre -> text_keyword c k -> blanks g ->
  text_ok esc gs -> octal_digit a -> octal_digit b -> byte_val a <> esc -> plain_text y ->
  removeComments text = Ok (pre ++ k ++ g ++ """"%char :: written gs ++ ["\"%char; a; b; """"%char] ++ y ++ nl :: r, esc) ->
  exists n, forall fuel, (n <= fuel)%nat -> parse_text fuel d text = Crashed.
Proof.
  intros esc doc c es k g gs a b y r pre text d Bg Tk Bl F Oa Ob Ne (rs & -> & Py) R.
  apply (mid_text_crash esc doc c es k g gs (a :: b :: """"%char :: string_of_runes rs ++ nl :: r) pre text d (length rs + 3) Bg Tk Bl F); [|exact R].
  intros n l Le. now apply loop_octal_two.
Qed.
Print Assumptions C130_two_digits_refuted.
(* ... and it fails on a backslash before any other character, also when escape_char has named another one. *)
Theorem C130_ordinary_backslash_refuted : forall esc doc c es k g gs x r pre text d, begun esc doc c es pre -> text_keyword c k -> blanks g ->
  text_ok esc gs -> valid_rune x -> x <> esc -> ~ In x (map byte_val (B ",;<>0123456789dx")) ->
  removeComments text = Ok (pre ++ k ++ g ++ """"%char :: written gs ++ "\"%char :: encode_rune x ++ r, esc) ->
  exists n, forall fuel, (n <= fuel)%nat -> parse_text fuel d text = Crashed.
Proof.
  intros esc doc c es k g gs x r pre text d Bg Tk Bl F V Ne N R.
  apply (mid_text_crash esc doc c es k g gs (encode_rune x ++ r) pre text d 2 Bg Tk Bl F); [|exact R].
  intros n l Le. apply loop_unknown; [exact V|exact Ne| |exact Le]. apply Forall_forall. intros c0 I X. apply N. rewrite <- X. now apply in_map.
Qed.
Print Assumptions C130_ordinary_backslash_refuted.
(* What does hold: the lines of a well-formed beginning are read word by word, each escape of theirs one word, whatever follows
   (and whatever escape_char says). *)
Definition head_words (doc : list part) (c : lc) (es : list entry) : list word :=
  flat_map part_words doc ++ term_in name_terms (lc_name c) ++ LineEnd :: flat_map entry_words es.
Theorem C130_read_partial : forall esc doc c es pre r, begun esc doc c es pre ->
  match r with [] => True | b :: _ => (byte_val b < 128)%N /\ ~ In b [nl; cr] end ->
  exists n, forall fuel, (n <= fuel)%nat -> exists ts more, tokens_of (lex fuel esc (pre ++ r)) = ts ++ more /\ Forall2 says (head_words doc c es) ts.
Proof.
  intros esc doc c es pre r Bg Sr. pose proof Bg as (Od & Oe & _). destruct (begun_lines _ _ _ _ _ Bg) as (ll & E & -> & O & Lk).
  destruct (lines_lex _ _ _ ll r Lk E O) as (n & H); [destruct r; exact Sr|]. exists n. intros fuel Le. destruct (H fuel Le) as (k & _ & Lx).
  set (base := rev (all_toks ll)) in *. set (P := fun s : lx => exists x, sent s = x ++ base).
  assert (Hd : ends P (lex fuel esc (source ll ++ r))).
  { assert (H1 : forall s, P s -> P (snd (next s))).
    { intros s (x & Ex). unfold P, next. destruct (rest s); [now exists x|]. destruct (decode_rune _). now exists x. }
    assert (H2 : forall s, P s -> P (rewind s)) by (intros s (x & Ex); unfold P, rewind; destruct (rew s) as [|[y|] w]; now exists x).
    assert (H3 : forall ty s, True -> P s -> P (emit ty s)).
    { intros ty s _ (x & Ex). unfold P, emit. cbn [sent]. exists ({| t_type := ty; t_value := current s |} :: x). now rewrite Ex. }
    rewrite Lx. apply (run_ends P (fun _ => True)); auto using all_true, cats_true.
    - intros; apply int_ends; auto.
    - destruct c; cbn [sound_state]; [now left|do 1 right; now left|do 2 right; now left|do 3 right; now left|do 4 right; now left].
    - now exists []. }
  exists (all_toks ll). assert (X : exists x, tokens_of (lex fuel esc (source ll ++ r)) = rev (x ++ base)).
  { destruct (lex fuel esc (source ll ++ r)) as [u s|s|s]; cbn [ends tokens_of] in *; destruct Hd as (x & ->); now exists x. }
  destruct X as (x & ->). exists (rev x). rewrite rev_app_distr. unfold base. rewrite rev_involutive. split; [reflexivity|].
  unfold head_dlines in E. apply by_map in E. destruct E as (l1 & l2 & -> & E1 & E2). rewrite toks_app. unfold head_words. apply Forall2_app.
  - now apply (says_parts esc).
  - destruct l2 as [|[d0 k0] l2]; [discriminate E2|]. cbn [map fst] in E2. injection E2 as -> E2.
    change (all_toks ((DHead c, k0) :: l2)) with ([tk (c_tok (cat c)) (lc_name c)] ++ eol_tok k0 :: all_toks l2). apply Forall2_app; [destruct c; now repeat constructor|].
    constructor; [apply says_eol|]. apply (says_lines _ _ (DEntry c)); [exact E2|]. intros e i Ie. apply (says_entry esc).
    exact (proj1 (Forall_forall _ _) Oe e Ie).
Qed.
Print Assumptions C130_read_partial.

(* ---- the hypotheses hold for a definition that begins like the sample and goes on with LC_NUMERIC, LC_CTYPE, LC_MESSAGES ---- *)
Definition head_lines (c : lc) (es : list entry) : list bytes := flat_map part_lines sample ++ lc_name c :: map write_entry es.
Lemma sample_begun : forall c es, Forall (entry_ok 92 c) es -> no_comments (head_lines c es) -> begun 92 sample c es (file_text (head_lines c es)).
Proof.
  intros c es Oe Nc. split; [exact sample_ok|]. split; [exact Oe|]. exists (head_lines c es). split; [|split; [exact Nc|reflexivity]].
  exists [], (lc_name Monetary), (tl (head_lines c es)), (tl (head_lines c es)). split; [reflexivity|]. split; [constructor|].
  split; [reflexivity|apply after_same].
Qed.
Definition comment_free (file : list bytes) : bool := forallb (fun l => match hd_error l with Some c => negb (Ascii.eqb c "#") | None => true end) file.
Lemma comment_free_ok : forall file, comment_free file = true -> no_comments file.
Proof.
  intros file A. apply Forall_forall. intros l I E. apply (proj1 (forallb_forall _ _) A) in I. rewrite E in I. discriminate I.
Qed.
Definition point : entry := ent (B "decimal_point") (Text [Octal "0" "5" "4"]).
Lemma point_ok : entry_ok 92 Numeric point.
Proof.
  split; [split; [discriminate|constructor; [now left|constructor; [now right|constructor]]]|].
  eexists a_text, _. split; [do 5 right; left; reflexivity|]. split; [now left|]. split; [|cbn; tauto].
  constructor; [|constructor]. unfold glyph_ok, octal_digit. repeat (split; [now apply in_b|]). discriminate.
Qed.
Definition numeric_head : bytes := file_text (head_lines Numeric [point]).
Lemma numeric_begun : begun 92 sample Numeric [point] numeric_head.
Proof. apply sample_begun; [constructor; [exact point_ok|constructor]|]. apply comment_free_ok. vm_compute. reflexivity. Qed.
Definition sep_key : text_keyword Numeric (B "thousands_sep").
Proof. exists a_text. eexists. split; [do 5 right; left; reflexivity|]. split; [right; now left|now left]. Qed.
Example C130_nonvacuous :
  removeComments (numeric_head ++ B "thousands_sep ""\56""") =
    Ok (numeric_head ++ B "thousands_sep" ++ B " " ++ """"%char :: written [] ++ ["\"%char; "5"%char; "6"%char; """"%char] ++ [] ++ nl :: [], 92%N) /\
  removeComments (numeric_head ++ B "thousands_sep ""\n""") =
    Ok (numeric_head ++ B "thousands_sep" ++ B " " ++ """"%char :: written [] ++ "\"%char :: encode_rune 110 ++ """"%char :: [nl], 92%N) /\
  begun 92 sample Numeric [point] numeric_head /\ text_keyword Numeric (B "thousands_sep") /\ plain_text [] /\
  parse_text 5000 nothing (numeric_head ++ B "thousands_sep ""\56""") = Crashed /\
  exists d', parse_text 5000 nothing (numeric_head ++ B "thousands_sep ""\056""" ++ nl :: B "END LC_NUMERIC") = Accepted d'.
Proof.
  split; [vm_compute; reflexivity|]. split; [vm_compute; reflexivity|]. split; [exact numeric_begun|]. split; [exact sep_key|].
  split; [exists []; split; [reflexivity|constructor]|]. split; [vm_compute; reflexivity|]. eexists. vm_compute. reflexivity.
Qed.
Example C104_any_nonvacuous : exists e r, entry_ok 92 Numeric e /\ begun 92 sample Numeric [point] numeric_head /\
  removeComments (numeric_head ++ write_entry point ++ " "%char :: nl :: B "END LC_NUMERIC") = Ok (numeric_head ++ write_entry e ++ " "%char :: r, 92%N).
Proof.
  exists point, (nl :: B "END LC_NUMERIC" ++ [nl]). split; [exact point_ok|]. split; [exact numeric_begun|]. vm_compute. reflexivity.
Qed.
Example C105_any_nonvacuous : begun 92 sample Numeric [point] numeric_head /\
  removeComments (numeric_head ++ B "copy ""C""" ++ nl :: B "END LC_NUMERIC") = Ok (numeric_head ++ B "copy" ++ " "%char :: B """C""" ++ nl :: B "END LC_NUMERIC" ++ [nl], 92%N).
Proof. split; [exact numeric_begun|]. vm_compute. reflexivity. Qed.
Example C106_any_nonvacuous : begun 92 sample Ctype [] (file_text (head_lines Ctype [])) /\
  removeComments (file_text (head_lines Ctype []) ++ B "charclass vowel" ++ nl :: B "END LC_CTYPE") =
  Ok (file_text (head_lines Ctype []) ++ B "charclass" ++ " "%char :: B "vowel" ++ nl :: B "END LC_CTYPE" ++ [nl], 92%N).
Proof. split; [|vm_compute; reflexivity]. apply sample_begun; [constructor|]. apply comment_free_ok. vm_compute. reflexivity. Qed.
Example C103_any_nonvacuous :
  begun 92 sample Messages [] (file_text (head_lines Messages [])) /\
  removeComments (file_text (head_lines Messages []) ++ B "noexpr ""^n" ++ nl :: B "END LC_MESSAGES") =
    Ok (file_text (head_lines Messages []) ++ B "noexpr" ++ B " " ++ """"%char :: B "^n" ++ nl :: B "END LC_MESSAGES" ++ [nl], 92%N) /\
  removeComments (numeric_head ++ B "thousands_sep ""a\5") =
    Ok (numeric_head ++ B "thousands_sep" ++ B " " ++ """"%char :: written (plain (B "a")) ++ "\"%char :: "5"%char :: [] ++ [nl], 92%N) /\
  (let pre := file_text (flat_map part_lines sample ++ [B "LC_COLLATE"]) in begun_collation 92 sample pre /\
   removeComments (pre ++ B "copy ""POSIX""" ++ nl :: B "END LC_COLLATE") = Ok (pre ++ B "copy" ++ B " " ++ """"%char :: B "POSIX""" ++ nl :: B "END LC_COLLATE" ++ [nl], 92%N)).
Proof.
  split; [apply sample_begun; [constructor|]; apply comment_free_ok; vm_compute; reflexivity|]. split; [vm_compute; reflexivity|].
  split; [vm_compute; reflexivity|]. cbv zeta. split; [|vm_compute; reflexivity]. split; [exact sample_ok|].
  eexists. split; [|split; [|reflexivity]].
  - exists [], (lc_name Monetary). do 2 eexists. split; [reflexivity|]. split; [constructor|]. split; [reflexivity|apply after_same].
  - apply comment_free_ok. vm_compute. reflexivity.
Qed.
