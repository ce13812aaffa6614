(* What the message of a syntax error should say, in terms of the tokens and of the grammar in LocGramSpec.v. *)
From Verif Require Import GoBase LocGramSpec LocYaccModel LocParseSpec LocViaSpec.
Local Open Scope Z_scope.

(* the names of the terminals: localedef.y:49-153 and the literal characters *)
Definition term_name (x : term) : bytes :=
  match x with
  | T_LOC_NAME => B "LOC_NAME"
  | T_CHAR => B "CHAR"
  | T_NUMBER => B "NUMBER"
  | T_COLLSYMBOL => B "COLLSYMBOL"
  | T_COLLELEMENT => B "COLLELEMENT"
  | T_CHARSYMBOL => B "CHARSYMBOL"
  | T_OCTAL_CHAR => B "OCTAL_CHAR"
  | T_HEX_CHAR => B "HEX_CHAR"
  | T_DECIMAL_CHAR => B "DECIMAL_CHAR"
  | T_CHARCLASS => B "CHARCLASS"
  | T_ELLIPSIS => B "ELLIPSIS"
  | T_EXTENDED_REG_EXP => B "EXTENDED_REG_EXP"
  | T_EOL => B "EOL"
  | T_ESCAPE_CHAR_STR => B "ESCAPE_CHAR_STR"
  | T_COMMENT_CHAR_STR => B "COMMENT_CHAR_STR"
  | T_COPY_STR => B "COPY_STR"
  | T_LC_CTYPE_STR => B "LC_CTYPE_STR"
  | T_CHARCLASS_STR => B "CHARCLASS_STR"
  | T_UPPER_STR => B "UPPER_STR"
  | T_LOWER_STR => B "LOWER_STR"
  | T_ALPHA_STR => B "ALPHA_STR"
  | T_DIGIT_STR => B "DIGIT_STR"
  | T_PUNCT_STR => B "PUNCT_STR"
  | T_XDIGIT_STR => B "XDIGIT_STR"
  | T_SPACE_STR => B "SPACE_STR"
  | T_PRINT_STR => B "PRINT_STR"
  | T_GRAPH_STR => B "GRAPH_STR"
  | T_BLANK_STR => B "BLANK_STR"
  | T_CNTRL_STR => B "CNTRL_STR"
  | T_ALNUM_STR => B "ALNUM_STR"
  | T_TOUPPER_STR => B "TOUPPER_STR"
  | T_TOLOWER_STR => B "TOLOWER_STR"
  | T_LC_COLLATE_STR => B "LC_COLLATE_STR"
  | T_COLLATING_SYMBOL_STR => B "COLLATING_SYMBOL_STR"
  | T_COLLATING_ELEMENT_STR => B "COLLATING_ELEMENT_STR"
  | T_ORDER_START_STR => B "ORDER_START_STR"
  | T_FORWARD_STR => B "FORWARD_STR"
  | T_BACKWARD_STR => B "BACKWARD_STR"
  | T_POSITION_STR => B "POSITION_STR"
  | T_UNDEFINED_STR => B "UNDEFINED_STR"
  | T_IGNORE_STR => B "IGNORE_STR"
  | T_END_STR => B "END_STR"
  | T_LC_TIME_STR => B "LC_TIME_STR"
  | T_ERA_STR => B "ERA_STR"
  | T_ERA_D_FMT_STR => B "ERA_D_FMT_STR"
  | T_ERA_T_FMT_STR => B "ERA_T_FMT_STR"
  | T_ALT_DIGITS_STR => B "ALT_DIGITS_STR"
  | T_ERA_D_T_FMT_STR => B "ERA_D_T_FMT_STR"
  | T_AM_PM_STR => B "AM_PM_STR"
  | T_D_T_FMT_STR => B "D_T_FMT_STR"
  | T_D_FMT_STR => B "D_FMT_STR"
  | T_T_FMT_STR => B "T_FMT_STR"
  | T_T_FMT_AMPM_STR => B "T_FMT_AMPM_STR"
  | T_ABDAY_STR => B "ABDAY_STR"
  | T_DAY_STR => B "DAY_STR"
  | T_ABMON_STR => B "ABMON_STR"
  | T_MON_STR => B "MON_STR"
  | T_LC_NUMERIC_STR => B "LC_NUMERIC_STR"
  | T_DECIMAL_POINT_STR => B "DECIMAL_POINT_STR"
  | T_THOUSANDS_SEP_STR => B "THOUSANDS_SEP_STR"
  | T_LC_MONETARY_STR => B "LC_MONETARY_STR"
  | T_INT_P_SIGN_POSN_STR => B "INT_P_SIGN_POSN_STR"
  | T_INT_N_CS_PRECEDES_STR => B "INT_N_CS_PRECEDES_STR"
  | T_INT_P_CS_PRECEDES_STR => B "INT_P_CS_PRECEDES_STR"
  | T_P_SIGN_POSN_STR => B "P_SIGN_POSN_STR"
  | T_N_CS_PRECEDES_STR => B "N_CS_PRECEDES_STR"
  | T_P_CS_PRECEDES_STR => B "P_CS_PRECEDES_STR"
  | T_INT_FRAC_DIGITS_STR => B "INT_FRAC_DIGITS_STR"
  | T_FRAC_DIGITS_STR => B "FRAC_DIGITS_STR"
  | T_P_SEP_BY_SPACE_STR => B "P_SEP_BY_SPACE_STR"
  | T_N_SEP_BY_SPACE_STR => B "N_SEP_BY_SPACE_STR"
  | T_N_SIGN_POSN_STR => B "N_SIGN_POSN_STR"
  | T_INT_P_SEP_BY_SPACE_STR => B "INT_P_SEP_BY_SPACE_STR"
  | T_INT_N_SEP_BY_SPACE_STR => B "INT_N_SEP_BY_SPACE_STR"
  | T_INT_N_SIGN_POSN_STR => B "INT_N_SIGN_POSN_STR"
  | T_NEGATIVE_SIGN_STR => B "NEGATIVE_SIGN_STR"
  | T_POSITIVE_SIGN_STR => B "POSITIVE_SIGN_STR"
  | T_MON_DECIMAL_POINT_STR => B "MON_DECIMAL_POINT_STR"
  | T_INT_CURR_SYMBOL_STR => B "INT_CURR_SYMBOL_STR"
  | T_CURRENCY_SYMBOL_STR => B "CURRENCY_SYMBOL_STR"
  | T_MON_THOUSANDS_SEP_STR => B "MON_THOUSANDS_SEP_STR"
  | T_LC_MESSAGES_STR => B "LC_MESSAGES_STR"
  | T_NOEXPR_STR => B "NOEXPR_STR"
  | T_YESEXPR_STR => B "YESEXPR_STR"
  | T_FROM_STR => B "FROM_STR"
  | T_ORDER_END_STR => B "ORDER_END_STR"
  | T_MON_GROUPING_STR => B "MON_GROUPING_STR"
  | T_GROUPING_STR => B "GROUPING_STR"
  | T_NEGATIVE_ONE_STR => B "NEGATIVE_ONE_STR"
  | T_TWO_DOUBLE_QUOTE_STR => B "TWO_DOUBLE_QUOTE_STR"
  | T_dquote => B "'""'"
  | T_semicolon => B "';'"
  | T_lparen => B "'('"
  | T_comma => B "','"
  | T_rparen => B "')'"
  end.
(* the tokens l, the terminal x and possibly more are a locale definition *)
Definition may_follow (l : list token) (x : term) : Prop := exists w more, spells l w /\ locale_definition (w ++ x :: more).
(* the message calls the token t by this name: that of the terminal, or "$unk" for tokens of any other type
   (57344 is the type goyacc gives the terminal "error" of its own) *)
Definition named (t : token) (who : bytes) : Prop :=
  (exists x, is x t /\ who = term_name x) \/
  (forall x, ~ is x t) /\ who = (if t_type t =? 57344 then B "error" else B "$unk").
(* ", expecting X or Y or Z" *)
Definition expecting (es : list term) : bytes :=
  match es with
  | [] => []
  | x :: r => B ", expecting " ++ term_name x ++ concat (map (fun y => B " or " ++ term_name y) r)
  end.
(* the terminals in the order of their declarations *)
Definition declared : list term := [
  T_LOC_NAME; T_CHAR; T_NUMBER; T_COLLSYMBOL; T_COLLELEMENT; T_CHARSYMBOL; T_OCTAL_CHAR; T_HEX_CHAR; T_DECIMAL_CHAR;
  T_CHARCLASS; T_ELLIPSIS; T_EXTENDED_REG_EXP; T_EOL; T_ESCAPE_CHAR_STR; T_COMMENT_CHAR_STR; T_COPY_STR;
  T_LC_CTYPE_STR; T_CHARCLASS_STR; T_UPPER_STR; T_LOWER_STR; T_ALPHA_STR; T_DIGIT_STR; T_PUNCT_STR; T_XDIGIT_STR;
  T_SPACE_STR; T_PRINT_STR; T_GRAPH_STR; T_BLANK_STR; T_CNTRL_STR; T_ALNUM_STR; T_TOUPPER_STR; T_TOLOWER_STR;
  T_LC_COLLATE_STR; T_COLLATING_SYMBOL_STR; T_COLLATING_ELEMENT_STR; T_ORDER_START_STR; T_FORWARD_STR;
  T_BACKWARD_STR; T_POSITION_STR; T_UNDEFINED_STR; T_IGNORE_STR; T_END_STR; T_LC_TIME_STR; T_ERA_STR;
  T_ERA_D_FMT_STR; T_ERA_T_FMT_STR; T_ALT_DIGITS_STR; T_ERA_D_T_FMT_STR; T_AM_PM_STR; T_D_T_FMT_STR; T_D_FMT_STR;
  T_T_FMT_STR; T_T_FMT_AMPM_STR; T_ABDAY_STR; T_DAY_STR; T_ABMON_STR; T_MON_STR; T_LC_NUMERIC_STR;
  T_DECIMAL_POINT_STR; T_THOUSANDS_SEP_STR; T_LC_MONETARY_STR; T_INT_P_SIGN_POSN_STR; T_INT_N_CS_PRECEDES_STR;
  T_INT_P_CS_PRECEDES_STR; T_P_SIGN_POSN_STR; T_N_CS_PRECEDES_STR; T_P_CS_PRECEDES_STR; T_INT_FRAC_DIGITS_STR;
  T_FRAC_DIGITS_STR; T_P_SEP_BY_SPACE_STR; T_N_SEP_BY_SPACE_STR; T_N_SIGN_POSN_STR; T_INT_P_SEP_BY_SPACE_STR;
  T_INT_N_SEP_BY_SPACE_STR; T_INT_N_SIGN_POSN_STR; T_NEGATIVE_SIGN_STR; T_POSITIVE_SIGN_STR; T_MON_DECIMAL_POINT_STR;
  T_INT_CURR_SYMBOL_STR; T_CURRENCY_SYMBOL_STR; T_MON_THOUSANDS_SEP_STR; T_LC_MESSAGES_STR; T_NOEXPR_STR;
  T_YESEXPR_STR; T_FROM_STR; T_ORDER_END_STR; T_MON_GROUPING_STR; T_GROUPING_STR; T_NEGATIVE_ONE_STR;
  T_TWO_DOUBLE_QUOTE_STR; T_dquote; T_semicolon; T_lparen; T_comma; T_rparen
].
(* where the error is: after p, at a token with which p no longer begins a definition, or at the end of the tokens *)
Definition found_at (closed : bool) (l p : list token) (who : bytes) : Prop :=
  begins_definition p /\
  ((exists t q, l = p ++ t :: q /\ t_type t <> WHITESPACE /\ ~ begins_definition (p ++ [t]) /\ named t who) \/
   closed = true /\ l = p /\ (forall w, spells l w -> ~ locale_definition w) /\ who = B "$end").
