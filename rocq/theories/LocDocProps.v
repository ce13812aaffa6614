(* Property theorems C98-C107 (pkg/locale: the lexer of localelex.go in front of the generated parser).
   [parse_text fuel d text] is NewLexer followed by yyParse on the text of a file, with the package variable def holding d;
   fuel bounds the lexer's calls and loops and the parser's steps, and [StillRunning] is what is left when it runs out.
   [definition_of doc text] (LocDocSpec.v) says what a well-formed definition is. *)
From Verif Require Import GoBase GoFacts Utf8Facts RuneFacts LocaleSpec LocGramSpec LocYaccModel LocYaccProofs LocYaccGram LocYaccSound LocYaccValues
  LocParseSpec LocYaccFinal LocaleModel LocaleProofs LocLexModel LocLexProofs LocDocSpec LocDocLex LocDocProofs LocDocFinal LocLexEnds
  LocLexMore LocLexBad LocNumProofs LocHangSpec LocHang.
Local Open Scope Z_scope.

Definition nothing : definition := {| int_curr_symbol := []; int_frac_digits := 0; mon_grouping := [] |}.
Definition lines (l : list bytes) : bytes := file_text l.

(* a definition with every form of value *)
Definition ent (k : bytes) (v : value) : entry := {| e_key := k; e_gap := [" "%char; tab]; e_value := v |}.
Definition plain (s : bytes) : list glyph := map (fun c => Single (byte_val c)) s.
Definition sample : list part := [
  Category Monetary [ent (B "int_curr_symbol") (Text (plain (B "USD "))); ent (B "mon_grouping") (Numbers [3; -1]);
                     ent (B "int_frac_digits") (Number 2); ent (B "int_curr_symbol") (Text (plain (B "E # R")))];
  Collation (Some ([" "%char], B "backward")) [B "A"; B "b-2"];
  Category Ctype [ent (B "upper") (Chars [B "A"; B "left-brace"]); ent (B "tolower") (Pairs [(B "A", B "a"); (B "B", B "b")])];
  Category Time [ent (B "am_pm") (Texts [plain (B "AM"); [Hex "5" "0"; Decimal "7" "7" None]]); ent (B "d_fmt") (Text (plain (B "%d") ++ [Escaped ";"; Octal "0" "4" "5"; Single 233] ++ plain (B "m")))];
  Category Messages [ent (B "yesexpr") (Regexp (B "^[yY]\."))]].

Definition plain_b (c : ascii) : bool :=
  ((byte_val c <? 128) && negb (byte_val c =? 34) && negb (byte_val c =? 10) && negb (byte_val c =? 92))%N.
Lemma plain_ascii : forall esc s, forallb plain_b s = true -> text_ok esc (plain s).
Proof.
  intros esc s H. split.
  - apply Forall_map, Forall_forall. intros c I. rewrite forallb_forall in H. apply H in I. unfold plain_b in I. cbn [glyph_ok].
    unfold valid_rune. lia.
  - clear. induction s as [|c s IH]; [exact I|]. split; [exact I|exact IH].
Qed.
Lemma sample_ok : Forall (part_ok 92) sample.
Proof.
  assert (In64 : forall z, (min_int64 <=? z) && (z <=? max_int64) = true -> int64 z) by (intros z H; unfold int64; lia).
  assert (Nm : forall n, forallb (fun c => existsb (Ascii.eqb c) (B "ABCDEFGHIJKLMNOPQRSTUVWXYZabcdefghijklmnopqrstuvwxyz0123456789_-")) n = true -> symbol_name n).
  { intros n H. apply Forall_forall. intros c I. rewrite forallb_forall in H. now apply in_b, H. }
  Ltac names Nm := repeat match goal with |- Forall ?P (_ :: _) => refine (Forall_cons _ _ _) end; try apply Forall_nil;
    cbv beta; try (split; cbn [fst snd]); apply Nm.
  unfold sample. repeat apply Forall_cons; try apply Forall_nil; cbn [part_ok].
  - split; [discriminate|]. repeat apply Forall_cons; try apply Forall_nil; (split; [split; [discriminate|repeat constructor; first [now left|now right]]|]).
    + eexists a_text, _. split; [right; right; left; reflexivity|]. split; [now left|]. now apply plain_ascii.
    + eexists some_numbers, _. split; [do 3 right; left; reflexivity|]. split; [now left|]. split; [discriminate|]. repeat apply Forall_cons; try apply Forall_nil; now apply In64.
    + eexists a_number, _. split; [do 4 right; left; reflexivity|]. split; [now left|]. now apply In64.
    + eexists a_text, _. split; [right; right; left; reflexivity|]. split; [now left|]. now apply plain_ascii.
  - split; [split; [split; [discriminate|repeat constructor; now left]|right; now left]|]. split; [discriminate|]. now names Nm.
  - split; [discriminate|]. repeat apply Forall_cons; try apply Forall_nil; (split; [split; [discriminate|repeat constructor; first [now left|now right]]|]).
    + eexists some_symbols, _. split; [left; reflexivity|]. split; [now left|]. split; [discriminate|]. now names Nm.
    + eexists some_pairs, _. split; [right; left; reflexivity|]. split; [right; now left|]. split; [discriminate|]. now names Nm.
  - split; [discriminate|]. repeat apply Forall_cons; try apply Forall_nil; (split; [split; [discriminate|repeat constructor; first [now left|now right]]|]).
    + eexists full_texts, _. split; [do 7 right; left; reflexivity|]. split; [do 4 right; now left|]. split; [discriminate|].
      apply Forall_cons; [split; [now apply plain_ascii|discriminate]|]. apply Forall_cons; [|apply Forall_nil].
      split; [|discriminate]. split; [|cbn; tauto]. 
      constructor; [split; [now apply in_b|split; [now apply in_b|discriminate]]|].
      constructor; [split; [now apply in_b|split; [now apply in_b|split; [discriminate|discriminate]]]|constructor].
    + eexists a_full_text, _. split; [do 8 right; left; reflexivity|]. split; [right; now left|]. split; [|discriminate].
      split; [|cbn; tauto]. apply Forall_app. split; [exact (proj1 (plain_ascii 92 (B "%d") eq_refl))|].
      apply Forall_app. split; [|exact (proj1 (plain_ascii 92 (B "m") eq_refl))].
      constructor; [|constructor; [|constructor; [cbn [glyph_ok]; unfold valid_rune; repeat split; lia|constructor]]].
      * split; [left; now apply in_b|]. split; [reflexivity|discriminate].
      * split; [now apply in_b|]. split; [now apply in_b|]. split; [now apply in_b|discriminate].
  - split; [discriminate|]. repeat apply Forall_cons; try apply Forall_nil; (split; [split; [discriminate|repeat constructor; first [now left|now right]]|]).
    eexists a_regexp, _. split; [do 9 right; left; reflexivity|]. split; [now left|]. split; intros I; apply in_b in I; discriminate I.
Qed.
(* two texts for it: with and without comment lines and empty lines *)
Definition bare : list bytes := flat_map part_lines sample.
Definition dressed : list bytes := [B "# a comment"; B "#"] ++ flat_map (fun l => [l; []; B "# !"]) (flat_map part_lines sample) ++ [[]; []].
Lemma after_same : forall l, after l l.
Proof. induction l as [|x l IH]; [apply after_end|now apply after_line]. Qed.
Lemma after_dressed : forall l f, after l f -> after l (flat_map (fun x => [x; []; B "# !"]) l).
Proof.
  intros l f _. induction l as [|x l IH]; [apply after_end|]. cbn [flat_map app]. apply after_line, after_blank, after_comment; [|exact IH].
  exists (B " !"). split; [reflexivity|]. intros I. apply in_b in I. discriminate I.
Qed.
Lemma sample_bare : definition_of sample (lines bare).
Proof.
  split; [exact sample_ok|]. exists bare. split; [|reflexivity].
  exists [], (lc_name Monetary), (tl (flat_map part_lines sample)), (tl (flat_map part_lines sample)).
  split; [reflexivity|]. split; [constructor|]. split; [reflexivity|apply after_same].
Qed.
Lemma after_app : forall a f g, after a f -> after [] g -> after a (f ++ g).
Proof.
  intros a f g H G. induction H as [|l ls f H IH|ls f H IH|c ls f Hc H IH]; cbn [app]; [exact G|now apply after_line|now apply after_blank|now apply after_comment].
Qed.
Lemma dressed_laid_out : laid_out (flat_map part_lines sample) dressed.
Proof.
  exists [B "# a comment"; B "#"], (lc_name Monetary), (tl (flat_map part_lines sample)),
    ([[]; B "# !"] ++ flat_map (fun x => [x; []; B "# !"]) (tl (flat_map part_lines sample)) ++ [[]; []]).
  assert (C : forall s, existsb (Ascii.eqb nl) s = false -> comment ("#"%char :: s)).
  { intros s H. exists s. split; [reflexivity|]. intros I. apply in_b in I. congruence. }
  split; [reflexivity|]. split; [constructor; [now apply (C (B " a comment"))|constructor; [now apply (C [])|constructor]]|].
  split; [reflexivity|]. cbn [app]. apply after_blank, after_comment; [now apply (C (B " !"))|]. apply after_app.
  - eapply after_dressed, after_same.
  - apply after_blank, after_blank, after_end.
Qed.
Lemma sample_dressed : definition_of sample (lines dressed).
Proof. split; [exact sample_ok|]. exists dressed. split; [exact dressed_laid_out|reflexivity]. Qed.

(* C98: every well-formed locale definition is accepted. *)
Theorem C98_definitions_accepted : forall doc text d, doc <> [] -> definition_of doc text ->
  exists d' n, forall fuel, (n <= fuel)%nat -> parse_text fuel d text = Accepted d'.
Proof. intros doc text d Ne D. destruct (document doc text d Ne D) as (d' & (n & H) & _). now exists d', n. Qed.
Print Assumptions C98_definitions_accepted.
Example C98_nonvacuous : definition_of sample (lines dressed) /\ (exists d', parse_text 5000 nothing (lines dressed) = Accepted d').
Proof. split; [exact sample_dressed|]. eexists. vm_compute. reflexivity. Qed.
(* ... also when lines are continued and escape_char is set; [items] is how the file is written (LocaleSpec.v). *)
Theorem C98_continued_lines : forall doc items file d, doc <> [] -> Forall (part_ok (last_ec 92 items)) doc ->
  items_ok 35 92 items -> (forall a w b, ~ In (CommentDir a w b) items) ->
  map string_of_runes (flat_map item_output items) = file -> laid_out (flat_map part_lines doc) file ->
  Forall (fun l => hd_error l <> Some "#"%char) file ->
  exists d' n, forall fuel, (n <= fuel)%nat -> parse_text fuel d (as_text (items_lines 35 92 items)) = Accepted d'.
Proof. intros doc items file d Ne O I C E L P. destruct (document_items doc items file d Ne O I C E L P) as (d' & (n & H) & _). now exists d', n. Qed.
Print Assumptions C98_continued_lines.
(* the second and the third test of parse_test.go, the latter shortened *)
Example C98_nonvacuous_2 :
  (exists d', parse_text 2000 nothing (B "escape_char /" ++ [nl] ++ B "LC_MONETARY" ++ [nl] ++ B "int_curr_symbol ""USD """ ++ [nl] ++ B "END /" ++ [nl] ++ B "LC_MONETARY")
     = Accepted d' /\ int_curr_symbol d' = B "USD ") /\
  (exists d', parse_text 2000 nothing (lines [B "LC_MONETARY"; B "mon_grouping        3;\"; B "  3"; B "positive_sign       """""; B "END LC_MONETARY "])
     = Accepted d' /\ mon_grouping d' = [3; 3]).
Proof. split; eexists; (split; [vm_compute; reflexivity|reflexivity]). Qed.

(* C99 is false: of int_curr_symbol "" the two quotes are stored ... *)
Theorem C99_empty_symbol_refuted : forall doc text d, doc <> [] -> definition_of doc text ->
  (exists l, texts_of (B "int_curr_symbol") doc = l ++ [[]]) ->
  exists d' n, (forall fuel, (n <= fuel)%nat -> parse_text fuel d text = Accepted d') /\ int_curr_symbol d' = [""""%char; """"%char].
Proof.
  intros doc text d Ne D (l & E). destruct (document doc text d Ne D) as (d' & (n & H) & S1 & _). exists d', n. split; [exact H|].
  rewrite S1, E, map_app. apply last_last.
Qed.
Print Assumptions C99_empty_symbol_refuted.
(* ... and of any other symbol what is written between the quotes ... *)
Theorem C99_as_written : forall doc text d l s, doc <> [] -> definition_of doc text ->
  texts_of (B "int_curr_symbol") doc = l ++ [s] -> s <> [] ->
  exists d' n, (forall fuel, (n <= fuel)%nat -> parse_text fuel d text = Accepted d') /\ int_curr_symbol d' = written s.
Proof.
  intros doc text d l s Ne D E Ns. destruct (document doc text d Ne D) as (d' & (n & H) & S1 & _). exists d', n. split; [exact H|].
  rewrite S1, E, map_app. cbn [map]. rewrite last_last. destruct s; [congruence|reflexivity].
Qed.
Print Assumptions C99_as_written.
(* ... so that it is wrong whenever there is an escape in it ... *)
Lemma meant_shorter : forall s, (length (meant s) <= length (written s))%nat /\
  ((exists g, In g s /\ forall r, g <> Single r) -> (length (meant s) < length (written s))%nat).
Proof.
  induction s as [|g s [IH1 IH2]]; [split; [apply Nat.le_refl|intros (g & [] & _)]|].
  change (meant (g :: s)) with (meaning g ++ meant s). change (written (g :: s)) with (write_glyph g ++ written s). rewrite !app_length.
  assert (G : (length (meaning g) <= length (write_glyph g))%nat /\ ((forall r, g <> Single r) -> (length (meaning g) < length (write_glyph g))%nat)).
  { destruct g as [r|c|a b c|a b c|a b]; cbn [meaning write_glyph length]; try lia. split; [lia|]. intros X. now destruct (X r). }
  destruct G as [G1 G2]. split; [lia|]. intros (g' & [<-|I] & X); [specialize (G2 X)|assert (K := IH2 (ex_intro _ g' (conj I X)))]; lia.
Qed.
Theorem C99_escape_refuted : forall doc text d l s g, doc <> [] -> definition_of doc text ->
  texts_of (B "int_curr_symbol") doc = l ++ [s] -> In g s -> (forall r, g <> Single r) ->
  exists d' n, (forall fuel, (n <= fuel)%nat -> parse_text fuel d text = Accepted d') /\ int_curr_symbol d' <> meant s.
Proof.
  intros doc text d l s g Ne D E I G. assert (Ns : s <> []) by (intros ->; destruct I).
  destruct (C99_as_written doc text d l s Ne D E Ns) as (d' & n & H & W). exists d', n. split; [exact H|]. rewrite W.
  intros X. pose proof (proj2 (meant_shorter s) (ex_intro _ g (conj I G))) as L. rewrite X in L. lia.
Qed.
Print Assumptions C99_escape_refuted.
(* ... and otherwise right. *)
Theorem C99_symbol_partial : forall doc text d l s, doc <> [] -> definition_of doc text ->
  texts_of (B "int_curr_symbol") doc = l ++ [s] -> s <> [] -> (forall g, In g s -> exists r, g = Single r) ->
  exists d' n, (forall fuel, (n <= fuel)%nat -> parse_text fuel d text = Accepted d') /\ int_curr_symbol d' = meant s.
Proof.
  intros doc text d l s Ne D E Ns G. destruct (C99_as_written doc text d l s Ne D E Ns) as (d' & n & H & W).
  exists d', n. split; [exact H|]. rewrite W. clear -G. induction s as [|g s IH]; [reflexivity|].
  destruct (G g (or_introl eq_refl)) as (r & ->). change (meant (Single r :: s)) with (encode_rune r ++ meant s).
  rewrite <- IH; [reflexivity|]. intros g I. apply G. now right.
Qed.
Print Assumptions C99_symbol_partial.
Theorem C99_no_symbol : forall doc text d, doc <> [] -> definition_of doc text -> texts_of (B "int_curr_symbol") doc = [] ->
  exists d' n, (forall fuel, (n <= fuel)%nat -> parse_text fuel d text = Accepted d') /\ int_curr_symbol d' = int_curr_symbol d.
Proof.
  intros doc text d Ne D E. destruct (document doc text d Ne D) as (d' & (n & H) & S1 & _). exists d', n. split; [exact H|].
  now rewrite S1, E.
Qed.
Print Assumptions C99_no_symbol.
Example C99_nonvacuous : texts_of (B "int_curr_symbol") sample = [plain (B "USD "); plain (B "E # R")] /\ meant (plain (B "E # R")) = B "E # R" /\
  (exists d', parse_text 5000 nothing (lines bare) = Accepted d' /\ int_curr_symbol d' = B "E # R").
Proof. split; [vm_compute; reflexivity|]. split; [vm_compute; reflexivity|]. eexists. split; [vm_compute; reflexivity|reflexivity]. Qed.
Definition empty_symbol : list part := [Category Monetary [ent (B "int_curr_symbol") (Text [])]].
Example C99_nonvacuous_2 : texts_of (B "int_curr_symbol") empty_symbol = [] ++ [[]] /\ definition_of empty_symbol (lines (flat_map part_lines empty_symbol)).
Proof.
  split; [reflexivity|]. split.
  - constructor; [|constructor]. split; [discriminate|]. constructor; [|constructor]. split; [split; [discriminate|repeat constructor; first [now left|now right]]|].
    eexists a_text, _. split; [right; right; left; reflexivity|]. split; [now left|]. now apply (plain_ascii 92 []).
  - eexists. split; [|reflexivity]. exists [], (lc_name Monetary), (tl (flat_map part_lines empty_symbol)), (tl (flat_map part_lines empty_symbol)).
    split; [reflexivity|]. split; [constructor|]. split; [reflexivity|apply after_same].
Qed.

Definition escapes : list glyph := [Hex "4" "1"; Escaped ","; Single 8364; Octal "1" "0" "1"; Decimal "6" "5" None].
Definition escaped_symbol : list part := [Category Monetary [ent (B "int_curr_symbol") (Text escapes)]].
Example C99_nonvacuous_3 : texts_of (B "int_curr_symbol") escaped_symbol = [] ++ [escapes] /\
  definition_of escaped_symbol (lines (flat_map part_lines escaped_symbol)) /\
  meant escapes = B "A," ++ encode_rune 8364 ++ B "AA" /\ written escapes = B "\x41\," ++ encode_rune 8364 ++ B "\101\d65".
Proof.
  split; [reflexivity|]. split; [split|split; vm_compute; reflexivity].
  - constructor; [|constructor]. split; [discriminate|]. constructor; [|constructor]. split; [split; [discriminate|repeat constructor; first [now left|now right]]|].
    eexists a_text, _. split; [right; right; left; reflexivity|]. split; [now left|]. split; [|cbn; tauto].
    constructor; [split; [now apply in_b|split; [now apply in_b|discriminate]]|].
    constructor; [split; [left; now apply in_b|split; [reflexivity|discriminate]]|].
    constructor; [cbn [glyph_ok]; unfold valid_rune; repeat split; lia|].
    constructor; [split; [now apply in_b|split; [now apply in_b|split; [now apply in_b|discriminate]]]|].
    constructor; [split; [now apply in_b|split; [now apply in_b|split; [discriminate|discriminate]]]|constructor].
  - eexists. split; [|reflexivity]. exists [], (lc_name Monetary), (tl (flat_map part_lines escaped_symbol)), (tl (flat_map part_lines escaped_symbol)).
    split; [reflexivity|]. split; [constructor|]. split; [reflexivity|apply after_same].
Qed.

(* C100: mon_grouping is the numbers of the last mon_grouping line, or as before if there is none. *)
Theorem C100_grouping : forall doc text d, doc <> [] -> definition_of doc text ->
  exists d' n, (forall fuel, (n <= fuel)%nat -> parse_text fuel d text = Accepted d') /\
    mon_grouping d' = last (numbers_of (B "mon_grouping") doc) (mon_grouping d).
Proof.
  intros doc text d Ne D. destruct (document doc text d Ne D) as (d' & (n & H) & _ & _ & G). now exists d', n.
Qed.
Print Assumptions C100_grouping.
Example C100_nonvacuous : numbers_of (B "mon_grouping") sample = [[3; -1]] /\
  (exists d', parse_text 5000 nothing (lines dressed) = Accepted d' /\ mon_grouping d' = [3; -1]).
Proof. split; [vm_compute; reflexivity|]. eexists. split; [vm_compute; reflexivity|reflexivity]. Qed.

(* C101 is false: an empty line before the first category makes the program fail ... *)
Theorem C101_leading_blank_refuted : forall text r esc d, removeComments text = Ok (nl :: r, esc) ->
  forall fuel, (50 <= fuel)%nat -> parse_text fuel d text = Crashed.
Proof.
  intros text r esc d R fuel Le. unfold parse_text. rewrite R.
  assert (L : lex fuel esc (nl :: r) = Done tt (fresh (nl :: r) [])).
  { destruct fuel as [|[|k]]; [lia..|]. unfold lex. rewrite (lex_call _ _ _ _ _ SCategory (fresh (nl :: r) [])) by reflexivity.
    cbn [lex_run]. replace (call (S (S k)) esc SCategory (fresh (nl :: r) [])) with (@Done (option lstate) None (fresh (nl :: r) [])); [reflexivity|].
    cbn [call]. unfold sCategory. rewrite take_none by (now apply stops_b). reflexivity. }
  rewrite L. cbn [tokens_of sent fresh rev].
  assert (E : exists d', yyParse 50 true d [] = Some (SyntaxError, d')) by (eexists; reflexivity). destruct E as (d' & E).
  unfold yyParse in *. apply (LocYaccSound.run_more _ (fuel - 50)) in E. replace (50 + (fuel - 50))%nat with fuel in E by lia. now rewrite E.
Qed.
Print Assumptions C101_leading_blank_refuted.
Example C101_nonvacuous : exists r, removeComments (lines ([] :: bare)) = Ok (nl :: r, 92%N).
Proof. eexists. vm_compute. reflexivity. Qed.
(* ... but elsewhere comment lines and empty lines make no difference, and neither does the length of the blanks before values. *)
Definition same_entry (a b : entry) : Prop := e_key a = e_key b /\ e_value a = e_value b.
Definition same_part (a b : part) : Prop :=
  match a, b with
  | Category c es, Category c' es' => c = c' /\ Forall2 same_entry es es'
  | Collation dir o, Collation dir' o' => option_map snd dir = option_map snd dir' /\ o = o'
  | _, _ => False
  end.
Theorem C101_layout_partial : forall doc doc' text text' d, doc <> [] -> definition_of doc text -> definition_of doc' text' ->
  Forall2 same_part doc doc' ->
  exists d' n, forall fuel, (n <= fuel)%nat -> parse_text fuel d text = Accepted d' /\ parse_text fuel d text' = Accepted d'.
Proof.
  intros doc doc' text text' d Ne D D' Sm.
  assert (Ne' : doc' <> []) by (destruct Sm; [congruence|discriminate]).
  destruct (document doc text d Ne D) as (a & (n & H) & S1 & F1 & G1). destruct (document doc' text' d Ne' D') as (b & (m & K) & S2 & F2 & G2).
  exists a, (n + m)%nat. intros fuel Le. split; [apply H; lia|]. rewrite K by lia. f_equal.
  assert (En : Forall2 same_entry (flat_map entries_of doc) (flat_map entries_of doc')).
  { clear -Sm. induction Sm as [|x y l l' Hxy Hl IH]; [constructor|]. cbn [flat_map]. apply Forall2_app; [|exact IH].
    destruct x as [c es|], y as [c' es'|]; try (exfalso; exact Hxy); [|constructor]. destruct Hxy as [<- Hxy].
    destruct c; cbn [entries_of]; try constructor. exact Hxy. }
  assert (T : forall k, texts_of k doc = texts_of k doc' /\ numbers_of k doc = numbers_of k doc').
  { intros k. unfold texts_of, numbers_of. clear -En. induction En as [|x y l l' [E1 E2] Hl [I1 I2]]; [now split|]. cbn [flat_map].
    now rewrite E1, E2, I1, I2. }
  destruct (T (B "int_curr_symbol")) as [T1 _]. destruct (T (B "mon_grouping")) as [_ T2].
  rewrite <- T1, <- S1 in S2. rewrite <- T2, <- G1 in G2. rewrite <- F1 in F2. destruct a, b. cbn in *. congruence.
Qed.
Print Assumptions C101_layout_partial.
Example C101_nonvacuous_2 : definition_of sample (lines bare) /\ definition_of sample (lines dressed) /\ lines bare <> lines dressed /\
  Forall2 same_part sample sample.
Proof.
  split; [exact sample_bare|]. split; [exact sample_dressed|]. split; [vm_compute; discriminate|].
  repeat (constructor; [split; [reflexivity|repeat constructor]|]). constructor.
Qed.

(* C102: what is accepted is, up to where the lexer stops, spelt by tokens that form a locale definition, and the lexer does
   not stop in front of a category ... *)
Definition category_names : list bytes := [B "LC_CTYPE"; B "LC_COLLATE"; B "LC_MONETARY"; B "LC_NUMERIC"; B "LC_TIME"; B "LC_MESSAGES"].
Definition begins_category (r : bytes) : Prop :=
  exists h t, In h category_names /\ r = h ++ t /\ (t = [] \/ exists c t', t = c :: t' /\ In c [nl; cr; " "%char; tab]).
Theorem C102_accepted_partial : forall fuel d text d', parse_text fuel d text = Accepted d' ->
  exists src esc toks rest w, removeComments text = Ok (src, esc) /\ src = concat (map t_value toks) ++ rest /\
    spells toks w /\ locale_definition w /\ ~ begins_category rest.
Proof.
  intros fuel d text d' H. destruct (accepted_inv _ _ _ _ H) as (src & esc & s & R & L & Y).
  pose proof (lexer_positive fuel esc src) as P. pose proof (lossless fuel esc src) as Ls. rewrite L in P, Ls. cbn [tokens_of] in P, Ls.
  destruct (accepted_spells _ _ _ _ _ P Y) as (_ & w & Sp & D).
  exists src, esc, (rev (sent s)), (pend s), w. split; [exact R|]. split; [now symmetry|]. split; [exact Sp|]. split; [exact D|].
  exact (stops_at_header _ _ _ _ L).
Qed.
Print Assumptions C102_accepted_partial.
Example C102_nonvacuous : exists d', parse_text 5000 nothing (lines dressed) = Accepted d'.
Proof. eexists. vm_compute. reflexivity. Qed.
(* ... but not all of the text need be used: text after the last category that does not begin like one is ignored. *)
Definition capitals : bytes := B "ABCDEFGHIJKLMNOPQRSTUVWXYZ_".
Theorem C102_rest_ignored_refuted : forall doc file c r text d esc, doc <> [] -> Forall (part_ok esc) doc -> laid_out (flat_map part_lines doc) file ->
  Forall (fun l => hd_error l <> Some "#"%char) file -> (byte_val c < 128)%N -> ~ In c (nl :: cr :: capitals) ->
  removeComments text = Ok (file_text file ++ c :: r, esc) ->
  exists d' n, (forall fuel, (n <= fuel)%nat -> parse_text fuel d text = Accepted d') /\
    int_curr_symbol d' = last (map shown (texts_of (B "int_curr_symbol") doc)) (int_curr_symbol d) /\
    mon_grouping d' = last (numbers_of (B "mon_grouping") doc) (mon_grouping d).
Proof.
  intros doc file c r text d esc Ne O L P Lc N R.
  destruct (document_rest doc file (c :: r) text d esc Ne O L P) as (d' & (n & H) & S1 & _ & G); [|exact R|now exists d', n].
  split; [exact Lc|]. intros I. apply N, in_b.
  assert (A : forallb (fun c => existsb (Ascii.eqb c) (nl :: cr :: capitals)) (newLine ++ upperChars ++ B "_") = true) by (vm_compute; reflexivity).
  exact (proj1 (forallb_forall _ _) A c I).
Qed.
Print Assumptions C102_rest_ignored_refuted.
Example C102_nonvacuous_2 :
  removeComments (file_text bare ++ B "lc_monetary" ++ [nl] ++ B "int_curr_symbol ""EUR""") =
    Ok (file_text bare ++ "l"%char :: B "c_monetary" ++ [nl] ++ B "int_curr_symbol ""EUR""" ++ [nl], 92%N) /\
  laid_out (flat_map part_lines sample) bare /\ Forall (fun l => hd_error l <> Some "#"%char) bare.
Proof.
  split; [vm_compute; reflexivity|]. split.
  - destruct sample_bare as (_ & f & L & E). exists [], (lc_name Monetary), (tl bare), (tl bare).
    split; [reflexivity|]. split; [constructor|]. split; [reflexivity|apply after_same].
  - assert (A : forallb (fun l => match hd_error l with Some c => negb (Ascii.eqb c "#") | None => true end) bare = true) by (vm_compute; reflexivity).
    apply Forall_forall. intros l I E. apply (proj1 (forallb_forall _ _) A) in I. cbv beta in I. rewrite E in I. discriminate I.
Qed.

(* C103 is false: the program does not end on a first word in LC_COLLATE other than END and order_start (such as the
   copy of localedef, or no word), on a collating-element or collating-symbol keyword, ... *)
Theorem C103_collate_refuted : forall w g c r text esc d,
  Forall (fun x => In x letters) w -> w <> B "END" -> w <> B "order_start" -> Forall (fun x => In x [" "%char; tab]) g ->
  (byte_val c < 128)%N -> ~ In c (" "%char :: tab :: letters) -> (w ++ g = [] -> ~ In c [nl; cr]) ->
  removeComments text = Ok (B "LC_COLLATE" ++ nl :: w ++ g ++ c :: r, esc) ->
  forall fuel, parse_text fuel d text = StillRunning.
Proof.
  intros w g c r text esc d Lw N1 N2 Lg Lc Nc N0 R. apply (collate_word_hangs w g (c :: r) text esc d Lw N1 N2 Lg).
  - destruct w as [|w0 w1]; [destruct g as [|g0 g1]|].
    + split; [exact Lc|]. now apply N0.
    + cbn [app]. inversion Lg as [|? ? G1 _]; subst. destruct G1 as [<-|[<-|[]]]; now apply stops_b.
    + cbn [app]. inversion Lw as [|? ? G1 _]; subst.
      assert (A : forallb (fun c => lowb c && negb (existsb (Ascii.eqb c) newLine)) letters = true) by (vm_compute; reflexivity).
      apply stops_b. exact (proj1 (forallb_forall _ _) A w0 G1).
  - split; [exact Lc|]. intros I. apply Nc. destruct I as [<-|[<-|[]]]; [now left|right; now left].
  - split; [exact Lc|]. intros I. apply Nc. right; right. apply in_b.
    assert (A : within letters word_chars = true) by (vm_compute; reflexivity). exact (proj1 (forallb_forall _ _) A c I).
  - exact R.
Qed.
Print Assumptions C103_collate_refuted.
Theorem C103_collate_alone_refuted : forall fuel d, parse_text fuel d (B "LC_COLLATE" ++ [nl]) = StillRunning.
Proof. exact collate_hangs. Qed.
Print Assumptions C103_collate_alone_refuted.
Theorem C103_collating_refuted : forall r text esc d, removeComments text = Ok (B "LC_COLLATE" ++ nl :: B "collating-" ++ r, esc) ->
  forall fuel, parse_text fuel d text = StillRunning.
Proof. exact collating_hangs. Qed.
Print Assumptions C103_collating_refuted.
(* ... on a quote that is not closed in LC_MESSAGES, ... *)
Theorem C103_unclosed_refuted : forall x text esc d, ~ In """"%char x -> Forall (fun c => (byte_val c < 128)%N) x ->
  removeComments text = Ok (B "LC_MESSAGES" ++ nl :: B "yesexpr """ ++ x, esc) ->
  forall fuel, parse_text fuel d text = StillRunning.
Proof. exact unclosed_hangs. Qed.
Print Assumptions C103_unclosed_refuted.
(* ... nor where the text ends inside a numeric escape of a quoted value (the first entry of its category). *)
Theorem C103_escape_refuted : forall c sh ks k g x d e text esc def, In (c, sh, ks) keywords -> In k ks ->
  In sh [a_text; a_full_text; full_texts] -> blanks g -> plain_text x -> In d (B "0123456789dx") -> byte_val d <> esc ->
  (length (runes_of e) <= 1)%nat ->
  removeComments text = Ok (lc_name c ++ nl :: k ++ g ++ """"%char :: x ++ "\"%char :: d :: e ++ [nl], esc) ->
  forall fuel, (length x + 3 <= fuel)%nat -> parse_text fuel def text = StillRunning.
Proof. exact cut_hangs. Qed.
Print Assumptions C103_escape_refuted.
(* ... but it ends on every text without LC_COLLATE that is neither cut short in an escape nor in such a message. *)
Theorem C103_ends_partial : forall d text src esc, removeComments text = Ok (src, esc) ->
  ~ cut_escape src -> ~ open_message src -> (forall a b, src <> a ++ B "LC_COLLATE" ++ b) ->
  exists n, forall fuel, (n <= fuel)%nat -> parse_text fuel d text <> StillRunning.
Proof.
  intros d text src esc R N1 N2 N3. apply (parse_ends d text src esc R N1); [|exact N2].
  intros (a & b & E). exact (N3 a b E).
Qed.
Print Assumptions C103_ends_partial.
Theorem C103_unreadable_partial : forall d text, (forall p, removeComments text <> Ok p) -> forall fuel, parse_text fuel d text = Crashed.
Proof. exact parse_ends_preprocess. Qed.
Print Assumptions C103_unreadable_partial.
Example C103_nonvacuous :
  removeComments (lines [B "LC_COLLATE"; B "copy ""POSIX"""; B "END LC_COLLATE"]) =
    Ok (B "LC_COLLATE" ++ nl :: B "copy" ++ B " " ++ """"%char :: B "POSIX""" ++ nl :: B "END LC_COLLATE" ++ [nl; nl], 92%N) /\
  removeComments (lines [B "LC_COLLATE"; B "collating-element <a> from ""b"""; B "END LC_COLLATE"]) =
    Ok (B "LC_COLLATE" ++ nl :: B "collating-" ++ B "element <a> from ""b""" ++ nl :: B "END LC_COLLATE" ++ [nl; nl], 92%N) /\
  (let x := B "^y" ++ nl :: B "END LC_MESSAGES" ++ [nl] in ~ In """"%char x /\ Forall (fun c => (byte_val c < 128)%N) x /\
     removeComments (B "LC_MESSAGES" ++ nl :: B "yesexpr """ ++ B "^y" ++ nl :: B "END LC_MESSAGES") = Ok (B "LC_MESSAGES" ++ nl :: B "yesexpr """ ++ x, 92%N)) /\
  removeComments (B "LC_TIME" ++ nl :: B "d_fmt ""%d\x2") = Ok (lc_name Time ++ nl :: B "d_fmt" ++ B " " ++ """"%char :: B "%d" ++ "\"%char :: "x"%char :: B "2" ++ [nl], 92%N).
Proof.
  split; [vm_compute; reflexivity|]. split; [vm_compute; reflexivity|]. split; [|vm_compute; reflexivity].
  cbv zeta. split; [intros I; apply in_b in I; discriminate I|]. split; [|vm_compute; reflexivity].
  now apply lows.
Qed.
(* meeting the hypotheses of C103_ends_partial: a file with an escape and a message *)
Fixpoint has_inside (w s : bytes) : bool := beqb (firstn (length w) s) w || match s with [] => false | _ :: t => has_inside w t end.
Lemma inside_b : forall w a b, has_inside w (a ++ w ++ b) = true.
Proof.
  intros w a b. induction a as [|c a IH].
  - cbn [app]. destruct (w ++ b) as [|x y] eqn:E; cbn [has_inside]; rewrite <- E; rewrite firstn_app, firstn_all, Nat.sub_diag, app_nil_r, beqb_refl; reflexivity.
  - cbn [app has_inside]. rewrite IH. apply orb_true_r.
Qed.
Lemma last_split : forall (x : ascii) a b a' b', a ++ x :: b = a' ++ x :: b' -> ~ In x b -> ~ In x b' -> a = a'.
Proof.
  intros x a. induction a as [|y a IH]; intros b [|z a'] b' E N N'; [reflexivity|..]; cbn [app] in E; injection E as E1 E2.
  - exfalso. apply N. rewrite E2. apply in_or_app. right. now left.
  - exfalso. apply N'. rewrite <- E2. apply in_or_app. right. now left.
  - f_equal; [exact E1|]. exact (IH _ _ _ E2 N N').
Qed.
Lemma one_rune : forall e, (length (runes_of e) <= 1)%nat -> (length e <= 4)%nat.
Proof.
  intros [|c e] H; [cbn [length]; lia|]. destruct (decode_rune (c :: e)) as [q k] eqn:D.
  rewrite (runes_of_step (c :: e) q k) in H by (try discriminate; exact D). cbn [length] in H.
  pose proof (decode_encode_length _ _ _ D) as L.
  assert (L4 : (length (encode_rune q) <= 4)%nat) by (unfold encode_rune; repeat (match goal with |- context [if ?b then _ else _] => destruct b end); cbn [length map]; lia).
  destruct (skipn k (c :: e)) as [|x y] eqn:E.
  - apply (f_equal (@length ascii)) in E. rewrite skipn_length in E. cbn [length] in E |- *. lia.
  - destruct (decode_rune (x :: y)) as [q' k'] eqn:D'. rewrite (runes_of_step (x :: y) q' k') in H by (try discriminate; exact D'). cbn [length] in H. lia.
Qed.
Lemma cut_late : forall src, cut_escape src -> In "\"%char (skipn (length src - 7) src).
Proof.
  intros src (a & c & e & -> & _ & L). apply one_rune in L. rewrite skipn_app. apply in_or_app. right.
  rewrite !app_length. cbn [length]. rewrite app_length. cbn [length].
  replace (length a + S (S (length e + 1)) - 7 - length a)%nat with 0%nat by lia. now left.
Qed.
Definition foreign : list bytes := [B "LC_MESSAGES"; B "yesexpr ""^[yY\d106]"""; B "END LC_MESSAGES"; B "LC_NUMERIC"; B "decimal_point ""\x2c""";
  B "frac_digits 4"; B "END LC_NUMERIC"].
Example C103_nonvacuous_2 : exists src, removeComments (lines foreign) = Ok (src, 92%N) /\
  ~ cut_escape src /\ ~ open_message src /\ (forall a b, src <> a ++ B "LC_COLLATE" ++ b) /\
  parse_text 1000 nothing (lines foreign) = Crashed.
Proof.
  eexists. split; [vm_compute; reflexivity|]. split; [|split; [|split]].
  - intros C. apply cut_late in C. apply in_b in C. discriminate C.
  - intros (a & k & g & q & E & _ & (Ng & Lg) & Nq).
    pose (p := B "LC_MESSAGES" ++ nl :: B "yesexpr ""^[yY\d106]""" ++ nl :: B "END LC_MESSAGES" ++ nl :: B "LC_NUMERIC" ++ nl :: B "decimal_point ""\x2c").
    pose (z := nl :: B "frac_digits 4" ++ nl :: B "END LC_NUMERIC" ++ [nl; nl]).
    assert (X : p = a ++ k ++ g).
    { apply (last_split """"%char p z (a ++ k ++ g) q); [|intros I; apply in_b in I; discriminate I|exact Nq].
      rewrite <- !app_assoc. exact E. }
    destruct (exists_last Ng) as (g' & c & ->). apply Forall_app in Lg. destruct Lg as [_ Lg]. inversion Lg as [|? ? Lc _]; subst.
    apply (f_equal (@rev ascii)) in X. rewrite !rev_app_distr in X. cbn in X. injection X as X _. rewrite <- X in Lc. destruct Lc as [Lc|Lc]; discriminate Lc.
  - intros a b E. pose proof (inside_b (B "LC_COLLATE") a b) as H. rewrite <- E in H. discriminate H.
  - vm_compute. reflexivity.
Qed.

(* C104 is false: a blank after the value of an entry makes the program fail (shown for the first entry). *)
Theorem C104_trailing_blank_refuted : forall c e b r text esc d, entry_ok esc c e -> In b [" "%char; tab] ->
  removeComments text = Ok (lc_name c ++ nl :: write_entry e ++ b :: r, esc) ->
  forall fuel, (length (write_entry e) + 4 <= fuel)%nat -> parse_text fuel d text = Crashed.
Proof. intros c e b r text esc d O I R fuel Le. exact (trailing_crash c e b r text esc d O I R fuel Le). Qed.
Print Assumptions C104_trailing_blank_refuted.
Example C104_nonvacuous : exists e r, entry_ok 92 Monetary e /\
  removeComments (lines [B "LC_MONETARY"; B "mon_grouping 3;2 "; B "END LC_MONETARY"]) = Ok (lc_name Monetary ++ nl :: write_entry e ++ " "%char :: r, 92%N).
Proof.
  exists {| e_key := B "mon_grouping"; e_gap := B " "; e_value := Numbers [3; 2] |}, (nl :: B "END LC_MONETARY" ++ [nl; nl]).
  split; [|vm_compute; reflexivity]. split; [split; [discriminate|repeat constructor; now left]|].
  eexists some_numbers, _. split; [do 3 right; left; reflexivity|]. split; [now left|]. split; [discriminate|].
  repeat apply Forall_cons; try apply Forall_nil; unfold int64, min_int64, max_int64; lia.
Qed.

(* C105 is false: a category cannot be copied from another locale. *)
Theorem C105_copy_refuted : forall c b r text esc d, In b [nl; cr; " "%char; tab] ->
  removeComments text = Ok (lc_name c ++ nl :: B "copy" ++ b :: r, esc) ->
  forall fuel, (4 <= fuel)%nat -> parse_text fuel d text = Crashed.
Proof. intros c b r text esc d I R fuel Le. exact (copy_crash c b r text esc d I R fuel Le). Qed.
Print Assumptions C105_copy_refuted.
Example C105_nonvacuous : removeComments (lines [B "LC_TIME"; B "copy ""en_US"""; B "END LC_TIME"]) =
  Ok (lc_name Time ++ nl :: B "copy" ++ " "%char :: B """en_US""" ++ [nl] ++ B "END LC_TIME" ++ [nl; nl], 92%N).
Proof. vm_compute. reflexivity. Qed.

(* C106 is false: the keyword charclass is never accepted (as the first of LC_CTYPE; nor are texts with such a token at all). *)
Theorem C106_charclass_refuted : forall b r text esc d d' fuel, In b [nl; cr; " "%char; tab] ->
  removeComments text = Ok (B "LC_CTYPE" ++ nl :: B "charclass" ++ b :: r, esc) ->
  parse_text fuel d text <> Accepted d'.
Proof. exact charclass_never. Qed.
Print Assumptions C106_charclass_refuted.
Theorem C106_charclass_token_refuted : forall fuel d text d' src esc t, parse_text fuel d text = Accepted d' ->
  removeComments text = Ok (src, esc) -> In t (tokens_of (lex fuel esc src)) -> ~ is T_CHARCLASS_STR t.
Proof. exact no_charclass_accepted. Qed.
Print Assumptions C106_charclass_token_refuted.
Example C106_nonvacuous : removeComments (lines [B "LC_CTYPE"; B "charclass vowel"; B "END LC_CTYPE"]) =
  Ok (B "LC_CTYPE" ++ nl :: B "charclass" ++ " "%char :: B "vowel" ++ [nl] ++ B "END LC_CTYPE" ++ [nl; nl], 92%N).
Proof. vm_compute. reflexivity. Qed.

(* C107: every token sent is a blank or a terminal of the grammar, never one of these. *)
Definition unused : list term := [T_LOC_NAME; T_COLLSYMBOL; T_COLLELEMENT; T_CHARCLASS; T_ELLIPSIS; T_ESCAPE_CHAR_STR; T_COMMENT_CHAR_STR;
  T_COPY_STR; T_UNDEFINED_STR; T_IGNORE_STR; T_NEGATIVE_ONE_STR].
Theorem C107_tokens : forall fuel esc src t, In t (tokens_of (lex fuel esc src)) ->
  t_type t = WHITESPACE \/ exists x, is x t /\ ~ In x unused.
Proof.
  intros fuel esc src t I. pose proof (proj1 (Forall_forall _ _) (types_ends fuel esc src) t I) as H.
  set (same := fun a b => token_number a =? token_number b).
  assert (A : forallb (fun z => (z =? WHITESPACE) || existsb (fun x => (token_number x =? z) && negb (existsb (same x) unused)) all_terms) lexer_types = true)
    by (vm_compute; reflexivity).
  apply (proj1 (forallb_forall _ _) A) in H. cbv beta in H. apply orb_true_iff in H. destruct H as [H|H]; [left; now apply Z.eqb_eq|right].
  apply existsb_exists in H. destruct H as (x & _ & H). apply andb_true_iff in H. destruct H as [H1 H2]. exists x.
  split; [apply Z.eqb_eq in H1; now symmetry|]. intros J. apply negb_true_iff in H2. rewrite <- not_true_iff_false in H2. apply H2.
  apply existsb_exists. exists x. split; [exact J|]. apply Z.eqb_refl.
Qed.
Print Assumptions C107_tokens.
(* ... and the tokens are what was read, in order, with nothing left out: with the text not yet taken they give the source back. *)
Theorem C107_lossless : forall fuel esc src, exists rest, concat (map t_value (tokens_of (lex fuel esc src))) ++ rest = src.
Proof. intros fuel esc src. eexists. exact (lossless fuel esc src). Qed.
Print Assumptions C107_lossless.
Example C107_nonvacuous : map t_type (tokens_of (lex 100 92 (B "LC_TIME" ++ nl :: B "d_fmt ""\060x""" ++ [nl] ++ B "END LC_TIME" ++ [nl]))) =
  map token_number [T_LC_TIME_STR; T_EOL; T_D_FMT_STR] ++ [WHITESPACE] ++ map token_number [T_dquote; T_OCTAL_CHAR; T_CHAR; T_dquote; T_EOL; T_END_STR] ++
  [WHITESPACE] ++ map token_number [T_LC_TIME_STR; T_EOL].
Proof. vm_compute. reflexivity. Qed.
