(* The words of a well-formed locale definition, each with the terminal of the grammar it stands for: what the lexer should
   send.  Independent of the lexer and its tables. *)
From Verif Require Import GoBase LocGramSpec LocYaccModel LocParseSpec LocDocSpec.
Local Open Scope Z_scope.

(* files whose lines end in a newline or in a carriage return and a newline, in any mixture *)
Inductive ended : list bytes -> bytes -> Prop :=
| ended_none : ended [] []
| ended_nl : forall l f t, ended f t -> ended (l :: f) (l ++ nl :: t)
| ended_crlf : forall l f t, ended f t -> ended (l :: f) (l ++ cr :: nl :: t).
Definition written_as (doc : list part) (text : bytes) : Prop :=
  Forall (part_ok 92) doc /\ exists file, laid_out (flat_map part_lines doc) file /\ ended file text.

(* a blank, a terminal with its text, or the end of a line with the empty lines and comments after it *)
Inductive word := Blank (b : bytes) | Word (x : term) (text : bytes) | LineEnd.
Definition says (w : word) (t : token) : Prop :=
  match w with
  | Blank b => t_type t = WHITESPACE /\ t_value t = b
  | Word x text => is x t /\ t_value t = text
  | LineEnd => is T_EOL t /\ t_value t <> [] /\ Forall (fun c => c = nl \/ c = cr) (t_value t)
  end.

(* the terminal of every keyword: its name in capitals *)
Definition keyword_terms : list (bytes * term) := [
  (B "upper", T_UPPER_STR); (B "lower", T_LOWER_STR); (B "alpha", T_ALPHA_STR); (B "digit", T_DIGIT_STR);
  (B "alnum", T_ALNUM_STR); (B "space", T_SPACE_STR); (B "cntrl", T_CNTRL_STR); (B "punct", T_PUNCT_STR);
  (B "graph", T_GRAPH_STR); (B "print", T_PRINT_STR); (B "xdigit", T_XDIGIT_STR); (B "blank", T_BLANK_STR);
  (B "toupper", T_TOUPPER_STR); (B "tolower", T_TOLOWER_STR); (B "int_curr_symbol", T_INT_CURR_SYMBOL_STR);
  (B "currency_symbol", T_CURRENCY_SYMBOL_STR); (B "mon_decimal_point", T_MON_DECIMAL_POINT_STR);
  (B "mon_thousands_sep", T_MON_THOUSANDS_SEP_STR); (B "positive_sign", T_POSITIVE_SIGN_STR);
  (B "negative_sign", T_NEGATIVE_SIGN_STR); (B "mon_grouping", T_MON_GROUPING_STR);
  (B "int_frac_digits", T_INT_FRAC_DIGITS_STR); (B "frac_digits", T_FRAC_DIGITS_STR);
  (B "p_cs_precedes", T_P_CS_PRECEDES_STR); (B "p_sep_by_space", T_P_SEP_BY_SPACE_STR);
  (B "n_cs_precedes", T_N_CS_PRECEDES_STR); (B "n_sep_by_space", T_N_SEP_BY_SPACE_STR);
  (B "p_sign_posn", T_P_SIGN_POSN_STR); (B "n_sign_posn", T_N_SIGN_POSN_STR);
  (B "int_p_cs_precedes", T_INT_P_CS_PRECEDES_STR); (B "int_p_sep_by_space", T_INT_P_SEP_BY_SPACE_STR);
  (B "int_n_cs_precedes", T_INT_N_CS_PRECEDES_STR); (B "int_n_sep_by_space", T_INT_N_SEP_BY_SPACE_STR);
  (B "int_p_sign_posn", T_INT_P_SIGN_POSN_STR); (B "int_n_sign_posn", T_INT_N_SIGN_POSN_STR);
  (B "decimal_point", T_DECIMAL_POINT_STR); (B "thousands_sep", T_THOUSANDS_SEP_STR); (B "grouping", T_GROUPING_STR);
  (B "abday", T_ABDAY_STR); (B "day", T_DAY_STR); (B "abmon", T_ABMON_STR); (B "mon", T_MON_STR);
  (B "am_pm", T_AM_PM_STR); (B "era", T_ERA_STR); (B "alt_digits", T_ALT_DIGITS_STR); (B "d_t_fmt", T_D_T_FMT_STR);
  (B "d_fmt", T_D_FMT_STR); (B "t_fmt", T_T_FMT_STR); (B "t_fmt_ampm", T_T_FMT_AMPM_STR);
  (B "era_d_fmt", T_ERA_D_FMT_STR); (B "era_t_fmt", T_ERA_T_FMT_STR); (B "era_d_t_fmt", T_ERA_D_T_FMT_STR);
  (B "yesexpr", T_YESEXPR_STR); (B "noexpr", T_NOEXPR_STR)].
Definition name_terms : list (bytes * term) := [
  (B "LC_CTYPE", T_LC_CTYPE_STR); (B "LC_MONETARY", T_LC_MONETARY_STR); (B "LC_NUMERIC", T_LC_NUMERIC_STR);
  (B "LC_TIME", T_LC_TIME_STR); (B "LC_MESSAGES", T_LC_MESSAGES_STR); (B "LC_COLLATE", T_LC_COLLATE_STR);
  (B "forward", T_FORWARD_STR); (B "backward", T_BACKWARD_STR); (B "position", T_POSITION_STR)].
(* the word k with its terminal *)
Fixpoint term_in (l : list (bytes * term)) (k : bytes) : list word :=
  match l with
  | [] => []
  | (x, t) :: l' => if beqb x k then [Word t k] else term_in l' k
  end.

Definition quote_word : word := Word T_dquote (B """").
(* the characters and escapes between the quotes one by one, but two quotes are one word *)
Definition glyph_word (g : glyph) : word :=
  match g with
  | Single r => Word T_CHAR (encode_rune r)
  | Escaped _ => Word T_CHAR (write_glyph g)
  | Octal _ _ _ => Word T_OCTAL_CHAR (write_glyph g)
  | Decimal _ _ _ => Word T_DECIMAL_CHAR (write_glyph g)
  | Hex _ _ => Word T_HEX_CHAR (write_glyph g)
  end.
Definition text_words (s : list glyph) : list word :=
  match s with
  | [] => [Word T_TWO_DOUBLE_QUOTE_STR (B """""")]
  | _ => quote_word :: map glyph_word s ++ [quote_word]
  end.
Definition number_words (z : Z) : list word := [Word T_NUMBER (itoa z)].
Definition symbol_words (n : bytes) : list word := [Word T_CHARSYMBOL (bracketed n)].
Definition pair_words (p : bytes * bytes) : list word :=
  Word T_lparen (B "(") :: symbol_words (fst p) ++ Word T_comma (B ",") :: symbol_words (snd p) ++ [Word T_rparen (B ")")].
Fixpoint with_semicolons (l : list (list word)) : list word :=
  match l with
  | [] => []
  | [x] => x
  | x :: l' => x ++ Word T_semicolon (B ";") :: with_semicolons l'
  end.
Definition value_words (v : value) : list word :=
  match v with
  | Text s => text_words s
  | Texts l => with_semicolons (map text_words l)
  | Number z => number_words z
  | Numbers l => with_semicolons (map number_words l)
  | Chars l => with_semicolons (map symbol_words l)
  | Pairs l => with_semicolons (map pair_words l)
  | Regexp s => [quote_word; Word T_EXTENDED_REG_EXP s; quote_word]
  end.
Definition entry_words (e : entry) : list word := term_in keyword_terms (e_key e) ++ Blank (e_gap e) :: value_words (e_value e) ++ [LineEnd].
Definition end_words (name : bytes) : list word := Word T_END_STR (B "END") :: Blank (B " ") :: term_in name_terms name ++ [LineEnd].
Definition part_words (p : part) : list word :=
  match p with
  | Category c entries => term_in name_terms (lc_name c) ++ LineEnd :: flat_map entry_words entries ++ end_words (lc_name c)
  | Collation dir order =>
      term_in name_terms (B "LC_COLLATE") ++ LineEnd :: Word T_ORDER_START_STR (B "order_start") ::
      match dir with Some (g, w) => Blank g :: term_in name_terms w | None => [] end ++
      LineEnd :: flat_map (fun n => symbol_words n ++ [LineEnd]) order ++
      Word T_ORDER_END_STR (B "order_end") :: LineEnd :: end_words (B "LC_COLLATE")
  end.
