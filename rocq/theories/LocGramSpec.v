(* The grammar of locale definition files, transcribed from pkg/locale/localedef.y, and what it derives.
   Independent of the generated parser (y.go): neither its tables nor its state numbers are mentioned. *)
From Verif Require Import GoBase.
Local Open Scope Z_scope.

(* The tokens (localedef.y:49-153), in the order of their first declaration, and the literal characters. *)
Inductive term :=
| T_LOC_NAME | T_CHAR | T_NUMBER | T_COLLSYMBOL | T_COLLELEMENT | T_CHARSYMBOL | T_OCTAL_CHAR | T_HEX_CHAR
| T_DECIMAL_CHAR | T_CHARCLASS | T_ELLIPSIS | T_EXTENDED_REG_EXP | T_EOL | T_ESCAPE_CHAR_STR | T_COMMENT_CHAR_STR
| T_COPY_STR | T_LC_CTYPE_STR | T_CHARCLASS_STR | T_UPPER_STR | T_LOWER_STR | T_ALPHA_STR | T_DIGIT_STR | T_PUNCT_STR
| T_XDIGIT_STR | T_SPACE_STR | T_PRINT_STR | T_GRAPH_STR | T_BLANK_STR | T_CNTRL_STR | T_ALNUM_STR | T_TOUPPER_STR
| T_TOLOWER_STR | T_LC_COLLATE_STR | T_COLLATING_SYMBOL_STR | T_COLLATING_ELEMENT_STR | T_ORDER_START_STR
| T_FORWARD_STR | T_BACKWARD_STR | T_POSITION_STR | T_UNDEFINED_STR | T_IGNORE_STR | T_END_STR | T_LC_TIME_STR
| T_ERA_STR | T_ERA_D_FMT_STR | T_ERA_T_FMT_STR | T_ALT_DIGITS_STR | T_ERA_D_T_FMT_STR | T_AM_PM_STR | T_D_T_FMT_STR
| T_D_FMT_STR | T_T_FMT_STR | T_T_FMT_AMPM_STR | T_ABDAY_STR | T_DAY_STR | T_ABMON_STR | T_MON_STR | T_LC_NUMERIC_STR
| T_DECIMAL_POINT_STR | T_THOUSANDS_SEP_STR | T_LC_MONETARY_STR | T_INT_P_SIGN_POSN_STR | T_INT_N_CS_PRECEDES_STR
| T_INT_P_CS_PRECEDES_STR | T_P_SIGN_POSN_STR | T_N_CS_PRECEDES_STR | T_P_CS_PRECEDES_STR | T_INT_FRAC_DIGITS_STR
| T_FRAC_DIGITS_STR | T_P_SEP_BY_SPACE_STR | T_N_SEP_BY_SPACE_STR | T_N_SIGN_POSN_STR | T_INT_P_SEP_BY_SPACE_STR
| T_INT_N_SEP_BY_SPACE_STR | T_INT_N_SIGN_POSN_STR | T_NEGATIVE_SIGN_STR | T_POSITIVE_SIGN_STR
| T_MON_DECIMAL_POINT_STR | T_INT_CURR_SYMBOL_STR | T_CURRENCY_SYMBOL_STR | T_MON_THOUSANDS_SEP_STR
| T_LC_MESSAGES_STR | T_NOEXPR_STR | T_YESEXPR_STR | T_FROM_STR | T_ORDER_END_STR | T_MON_GROUPING_STR
| T_GROUPING_STR | T_NEGATIVE_ONE_STR | T_TWO_DOUBLE_QUOTE_STR | T_dquote | T_semicolon | T_lparen | T_comma
| T_rparen.

(* The non-terminals (localedef.y:158-548), in goyacc's numbering: by first mention. *)
Inductive nonterm :=
| N_locale_definition | N_global_statements | N_locale_categories | N_symbol_redefine | N_locale_category
| N_lc_ctype | N_lc_collate | N_lc_messages | N_lc_monetary | N_lc_numeric | N_lc_time | N_char_list | N_char_symbol
| N_elem_list | N_symb_list | N_locale_name | N_ctype_hdr | N_ctype_keywords | N_ctype_tlr | N_ctype_keyword
| N_charclass_keyword | N_charclass_list | N_charconv_keyword | N_charconv_list | N_charclass_namelist
| N_charconv_entry | N_collate_hdr | N_collate_keywords | N_collate_tlr | N_order_statements | N_opt_statements
| N_collating_symbols | N_collating_elements | N_order_start | N_collation_order | N_order_end | N_order_opts
| N_order_opt | N_opt_word | N_collation_entry | N_collation_element | N_weight_list | N_weight_symbol
| N_messages_hdr | N_messages_keywords | N_messages_tlr | N_messages_keyword | N_monetary_hdr | N_monetary_keywords
| N_monetary_tlr | N_monetary_keyword | N_mon_keyword_string | N_mon_string | N_mon_keyword_char
| N_mon_keyword_grouping | N_mon_group_list | N_numeric_hdr | N_numeric_keywords | N_numeric_tlr | N_numeric_keyword
| N_num_keyword_string | N_num_string | N_num_keyword_grouping | N_num_group_list | N_time_hdr | N_time_keywords
| N_time_tlr | N_time_keyword | N_time_keyword_name | N_time_list | N_time_keyword_fmt | N_time_string
| N_time_keyword_opt.

Inductive symbol := Tm (t : term) | Nt (n : nonterm).
Coercion Tm : term >-> symbol.
Coercion Nt : nonterm >-> symbol.
Notation "<[ ]>" := (@nil symbol).
Notation "<[ a ; .. ; b ]>" := (@cons symbol a .. (@cons symbol b (@nil symbol)) ..).

(* localedef.y:158-548, production by production and in the same order *)
Definition grammar : list (nonterm * list symbol) := [
  (N_locale_definition, <[ N_global_statements; N_locale_categories ]>);
  (N_locale_definition, <[ N_locale_categories ]>);
  (N_global_statements, <[ N_global_statements; N_symbol_redefine ]>);
  (N_global_statements, <[ N_symbol_redefine ]>);
  (N_symbol_redefine, <[ T_ESCAPE_CHAR_STR; T_CHAR; T_EOL ]>);
  (N_symbol_redefine, <[ T_COMMENT_CHAR_STR; T_CHAR; T_EOL ]>);
  (N_locale_categories, <[ N_locale_categories; N_locale_category ]>);
  (N_locale_categories, <[ N_locale_category ]>);
  (N_locale_category, <[ N_lc_ctype ]>);
  (N_locale_category, <[ N_lc_collate ]>);
  (N_locale_category, <[ N_lc_messages ]>);
  (N_locale_category, <[ N_lc_monetary ]>);
  (N_locale_category, <[ N_lc_numeric ]>);
  (N_locale_category, <[ N_lc_time ]>);
  (N_char_list, <[ N_char_list; N_char_symbol ]>);
  (N_char_list, <[ N_char_symbol ]>);
  (N_char_symbol, <[ T_CHAR ]>);
  (N_char_symbol, <[ T_CHARSYMBOL ]>);
  (N_char_symbol, <[ T_OCTAL_CHAR ]>);
  (N_char_symbol, <[ T_HEX_CHAR ]>);
  (N_char_symbol, <[ T_DECIMAL_CHAR ]>);
  (N_elem_list, <[ N_elem_list; N_char_symbol ]>);
  (N_elem_list, <[ N_elem_list; T_COLLSYMBOL ]>);
  (N_elem_list, <[ N_elem_list; T_COLLELEMENT ]>);
  (N_elem_list, <[ N_char_symbol ]>);
  (N_elem_list, <[ T_COLLSYMBOL ]>);
  (N_elem_list, <[ T_COLLELEMENT ]>);
  (N_symb_list, <[ N_symb_list; T_COLLSYMBOL ]>);
  (N_symb_list, <[ T_COLLSYMBOL ]>);
  (N_locale_name, <[ T_LOC_NAME ]>);
  (N_locale_name, <[ T_dquote; T_LOC_NAME; T_dquote ]>);
  (N_lc_ctype, <[ N_ctype_hdr; N_ctype_keywords; N_ctype_tlr ]>);
  (N_lc_ctype, <[ N_ctype_hdr; T_COPY_STR; N_locale_name; T_EOL; N_ctype_tlr ]>);
  (N_ctype_hdr, <[ T_LC_CTYPE_STR; T_EOL ]>);
  (N_ctype_keywords, <[ N_ctype_keywords; N_ctype_keyword ]>);
  (N_ctype_keywords, <[ N_ctype_keyword ]>);
  (N_ctype_keyword, <[ N_charclass_keyword; N_charclass_list; T_EOL ]>);
  (N_ctype_keyword, <[ N_charconv_keyword; N_charconv_list; T_EOL ]>);
  (N_ctype_keyword, <[ T_CHARCLASS_STR; N_charclass_namelist; T_EOL ]>);
  (N_charclass_namelist, <[ N_charclass_namelist; T_semicolon; T_CHARCLASS ]>);
  (N_charclass_namelist, <[ T_CHARCLASS ]>);
  (N_charclass_keyword, <[ T_UPPER_STR ]>);
  (N_charclass_keyword, <[ T_LOWER_STR ]>);
  (N_charclass_keyword, <[ T_ALPHA_STR ]>);
  (N_charclass_keyword, <[ T_DIGIT_STR ]>);
  (N_charclass_keyword, <[ T_PUNCT_STR ]>);
  (N_charclass_keyword, <[ T_XDIGIT_STR ]>);
  (N_charclass_keyword, <[ T_SPACE_STR ]>);
  (N_charclass_keyword, <[ T_PRINT_STR ]>);
  (N_charclass_keyword, <[ T_GRAPH_STR ]>);
  (N_charclass_keyword, <[ T_BLANK_STR ]>);
  (N_charclass_keyword, <[ T_CNTRL_STR ]>);
  (N_charclass_keyword, <[ T_ALNUM_STR ]>);
  (N_charclass_keyword, <[ T_CHARCLASS ]>);
  (N_charclass_list, <[ N_charclass_list; T_semicolon; N_char_symbol ]>);
  (N_charclass_list, <[ N_charclass_list; T_semicolon; T_ELLIPSIS; T_semicolon; N_char_symbol ]>);
  (N_charclass_list, <[ N_char_symbol ]>);
  (N_charconv_keyword, <[ T_TOUPPER_STR ]>);
  (N_charconv_keyword, <[ T_TOLOWER_STR ]>);
  (N_charconv_list, <[ N_charconv_list; T_semicolon; N_charconv_entry ]>);
  (N_charconv_list, <[ N_charconv_entry ]>);
  (N_charconv_entry, <[ T_lparen; N_char_symbol; T_comma; N_char_symbol; T_rparen ]>);
  (N_ctype_tlr, <[ T_END_STR; T_LC_CTYPE_STR; T_EOL ]>);
  (N_lc_collate, <[ N_collate_hdr; N_collate_keywords; N_collate_tlr ]>);
  (N_lc_collate, <[ N_collate_hdr; T_COPY_STR; N_locale_name; T_EOL; N_collate_tlr ]>);
  (N_collate_hdr, <[ T_LC_COLLATE_STR; T_EOL ]>);
  (N_collate_keywords, <[ N_order_statements ]>);
  (N_collate_keywords, <[ N_opt_statements; N_order_statements ]>);
  (N_opt_statements, <[ N_opt_statements; N_collating_symbols ]>);
  (N_opt_statements, <[ N_opt_statements; N_collating_elements ]>);
  (N_opt_statements, <[ N_collating_symbols ]>);
  (N_opt_statements, <[ N_collating_elements ]>);
  (N_collating_symbols, <[ T_COLLATING_SYMBOL_STR; T_COLLSYMBOL; T_EOL ]>);
  (N_collating_elements, <[ T_COLLATING_ELEMENT_STR; T_COLLELEMENT ]>);
  (N_collating_elements, <[ T_FROM_STR; T_dquote; N_elem_list; T_dquote; T_EOL ]>);
  (N_order_statements, <[ N_order_start; N_collation_order; N_order_end ]>);
  (N_order_start, <[ T_ORDER_START_STR; T_EOL ]>);
  (N_order_start, <[ T_ORDER_START_STR; N_order_opts; T_EOL ]>);
  (N_order_opts, <[ N_order_opts; T_semicolon; N_order_opt ]>);
  (N_order_opts, <[ N_order_opt ]>);
  (N_order_opt, <[ N_order_opt; T_comma; N_opt_word ]>);
  (N_order_opt, <[ N_opt_word ]>);
  (N_opt_word, <[ T_FORWARD_STR ]>);
  (N_opt_word, <[ T_BACKWARD_STR ]>);
  (N_opt_word, <[ T_POSITION_STR ]>);
  (N_collation_order, <[ N_collation_order; N_collation_entry ]>);
  (N_collation_order, <[ N_collation_entry ]>);
  (N_collation_entry, <[ T_COLLSYMBOL; T_EOL ]>);
  (N_collation_entry, <[ N_collation_element; N_weight_list; T_EOL ]>);
  (N_collation_entry, <[ N_collation_element; T_EOL ]>);
  (N_collation_element, <[ N_char_symbol ]>);
  (N_collation_element, <[ T_COLLELEMENT ]>);
  (N_collation_element, <[ T_ELLIPSIS ]>);
  (N_collation_element, <[ T_UNDEFINED_STR ]>);
  (N_weight_list, <[ N_weight_list; T_semicolon; N_weight_symbol ]>);
  (N_weight_list, <[ N_weight_list; T_semicolon ]>);
  (N_weight_list, <[ N_weight_symbol ]>);
  (N_weight_symbol, <[ ]>);
  (N_weight_symbol, <[ N_char_symbol ]>);
  (N_weight_symbol, <[ T_COLLSYMBOL ]>);
  (N_weight_symbol, <[ T_dquote; N_elem_list; T_dquote ]>);
  (N_weight_symbol, <[ T_dquote; N_symb_list; T_dquote ]>);
  (N_weight_symbol, <[ T_ELLIPSIS ]>);
  (N_weight_symbol, <[ T_IGNORE_STR ]>);
  (N_order_end, <[ T_ORDER_END_STR; T_EOL ]>);
  (N_collate_tlr, <[ T_END_STR; T_LC_COLLATE_STR; T_EOL ]>);
  (N_lc_messages, <[ N_messages_hdr; N_messages_keywords; N_messages_tlr ]>);
  (N_lc_messages, <[ N_messages_hdr; T_COPY_STR; N_locale_name; T_EOL; N_messages_tlr ]>);
  (N_messages_hdr, <[ T_LC_MESSAGES_STR; T_EOL ]>);
  (N_messages_keywords, <[ N_messages_keywords; N_messages_keyword ]>);
  (N_messages_keywords, <[ N_messages_keyword ]>);
  (N_messages_keyword, <[ T_YESEXPR_STR; T_dquote; T_EXTENDED_REG_EXP; T_dquote; T_EOL ]>);
  (N_messages_keyword, <[ T_NOEXPR_STR; T_dquote; T_EXTENDED_REG_EXP; T_dquote; T_EOL ]>);
  (N_messages_tlr, <[ T_END_STR; T_LC_MESSAGES_STR; T_EOL ]>);
  (N_lc_monetary, <[ N_monetary_hdr; N_monetary_keywords; N_monetary_tlr ]>);
  (N_lc_monetary, <[ N_monetary_hdr; T_COPY_STR; N_locale_name; T_EOL; N_monetary_tlr ]>);
  (N_monetary_hdr, <[ T_LC_MONETARY_STR; T_EOL ]>);
  (N_monetary_keywords, <[ N_monetary_keywords; N_monetary_keyword ]>);
  (N_monetary_keywords, <[ N_monetary_keyword ]>);
  (N_monetary_keyword, <[ N_mon_keyword_string; N_mon_string; T_EOL ]>);
  (N_monetary_keyword, <[ N_mon_keyword_char; T_NUMBER; T_EOL ]>);
  (N_monetary_keyword, <[ N_mon_keyword_char; T_NEGATIVE_ONE_STR; T_EOL ]>);
  (N_monetary_keyword, <[ N_mon_keyword_grouping; N_mon_group_list; T_EOL ]>);
  (N_mon_keyword_string, <[ T_INT_CURR_SYMBOL_STR ]>);
  (N_mon_keyword_string, <[ T_CURRENCY_SYMBOL_STR ]>);
  (N_mon_keyword_string, <[ T_MON_DECIMAL_POINT_STR ]>);
  (N_mon_keyword_string, <[ T_MON_THOUSANDS_SEP_STR ]>);
  (N_mon_keyword_string, <[ T_POSITIVE_SIGN_STR ]>);
  (N_mon_keyword_string, <[ T_NEGATIVE_SIGN_STR ]>);
  (N_mon_string, <[ T_dquote; N_char_list; T_dquote ]>);
  (N_mon_string, <[ T_TWO_DOUBLE_QUOTE_STR ]>);
  (N_mon_keyword_char, <[ T_INT_FRAC_DIGITS_STR ]>);
  (N_mon_keyword_char, <[ T_FRAC_DIGITS_STR ]>);
  (N_mon_keyword_char, <[ T_P_CS_PRECEDES_STR ]>);
  (N_mon_keyword_char, <[ T_P_SEP_BY_SPACE_STR ]>);
  (N_mon_keyword_char, <[ T_N_CS_PRECEDES_STR ]>);
  (N_mon_keyword_char, <[ T_N_SEP_BY_SPACE_STR ]>);
  (N_mon_keyword_char, <[ T_P_SIGN_POSN_STR ]>);
  (N_mon_keyword_char, <[ T_N_SIGN_POSN_STR ]>);
  (N_mon_keyword_char, <[ T_INT_P_CS_PRECEDES_STR ]>);
  (N_mon_keyword_char, <[ T_INT_P_SEP_BY_SPACE_STR ]>);
  (N_mon_keyword_char, <[ T_INT_N_CS_PRECEDES_STR ]>);
  (N_mon_keyword_char, <[ T_INT_N_SEP_BY_SPACE_STR ]>);
  (N_mon_keyword_char, <[ T_INT_P_SIGN_POSN_STR ]>);
  (N_mon_keyword_char, <[ T_INT_N_SIGN_POSN_STR ]>);
  (N_mon_keyword_grouping, <[ T_MON_GROUPING_STR ]>);
  (N_mon_group_list, <[ T_NUMBER ]>);
  (N_mon_group_list, <[ N_mon_group_list; T_semicolon; T_NUMBER ]>);
  (N_monetary_tlr, <[ T_END_STR; T_LC_MONETARY_STR; T_EOL ]>);
  (N_lc_numeric, <[ N_numeric_hdr; N_numeric_keywords; N_numeric_tlr ]>);
  (N_lc_numeric, <[ N_numeric_hdr; T_COPY_STR; N_locale_name; T_EOL; N_numeric_tlr ]>);
  (N_numeric_hdr, <[ T_LC_NUMERIC_STR; T_EOL ]>);
  (N_numeric_keywords, <[ N_numeric_keywords; N_numeric_keyword ]>);
  (N_numeric_keywords, <[ N_numeric_keyword ]>);
  (N_numeric_keyword, <[ N_num_keyword_string; N_num_string; T_EOL ]>);
  (N_numeric_keyword, <[ N_num_keyword_grouping; N_num_group_list; T_EOL ]>);
  (N_num_keyword_string, <[ T_DECIMAL_POINT_STR ]>);
  (N_num_keyword_string, <[ T_THOUSANDS_SEP_STR ]>);
  (N_num_string, <[ T_dquote; N_char_list; T_dquote ]>);
  (N_num_string, <[ T_TWO_DOUBLE_QUOTE_STR ]>);
  (N_num_keyword_grouping, <[ T_GROUPING_STR ]>);
  (N_num_group_list, <[ T_NUMBER ]>);
  (N_num_group_list, <[ N_num_group_list; T_semicolon; T_NUMBER ]>);
  (N_numeric_tlr, <[ T_END_STR; T_LC_NUMERIC_STR; T_EOL ]>);
  (N_lc_time, <[ N_time_hdr; N_time_keywords; N_time_tlr ]>);
  (N_lc_time, <[ N_time_hdr; T_COPY_STR; N_locale_name; T_EOL; N_time_tlr ]>);
  (N_time_hdr, <[ T_LC_TIME_STR; T_EOL ]>);
  (N_time_keywords, <[ N_time_keywords; N_time_keyword ]>);
  (N_time_keywords, <[ N_time_keyword ]>);
  (N_time_keyword, <[ N_time_keyword_name; N_time_list; T_EOL ]>);
  (N_time_keyword, <[ N_time_keyword_fmt; N_time_string; T_EOL ]>);
  (N_time_keyword, <[ N_time_keyword_opt; N_time_list; T_EOL ]>);
  (N_time_keyword_name, <[ T_AM_PM_STR ]>);
  (N_time_keyword_name, <[ T_ABDAY_STR ]>);
  (N_time_keyword_name, <[ T_DAY_STR ]>);
  (N_time_keyword_name, <[ T_ABMON_STR ]>);
  (N_time_keyword_name, <[ T_MON_STR ]>);
  (N_time_keyword_fmt, <[ T_D_T_FMT_STR ]>);
  (N_time_keyword_fmt, <[ T_D_FMT_STR ]>);
  (N_time_keyword_fmt, <[ T_T_FMT_STR ]>);
  (N_time_keyword_fmt, <[ T_T_FMT_AMPM_STR ]>);
  (N_time_keyword_opt, <[ T_ERA_STR ]>);
  (N_time_keyword_opt, <[ T_ERA_D_FMT_STR ]>);
  (N_time_keyword_opt, <[ T_ERA_T_FMT_STR ]>);
  (N_time_keyword_opt, <[ T_ERA_D_T_FMT_STR ]>);
  (N_time_keyword_opt, <[ T_ALT_DIGITS_STR ]>);
  (N_time_list, <[ N_time_list; T_semicolon; N_time_string ]>);
  (N_time_list, <[ N_time_string ]>);
  (N_time_string, <[ T_dquote; N_char_list; T_dquote ]>);
  (N_time_tlr, <[ T_END_STR; T_LC_TIME_STR; T_EOL ]>)
].

(* [derives X w]: the symbol X derives the token sequence w. *)
Inductive derives : symbol -> list term -> Prop :=
| derives_term : forall t : term, derives t [t]
| derives_prod : forall (A : nonterm) rhs w, In (A, rhs) grammar -> derives_all rhs w -> derives A w
with derives_all : list symbol -> list term -> Prop :=
| derives_nil : derives_all [] []
| derives_cons : forall X w r v, derives X w -> derives_all r v -> derives_all (X :: r) (w ++ v).

(* the language of locale definitions *)
Definition locale_definition (w : list term) : Prop := derives N_locale_definition w.

(* The number the lexer gives a token (y.go:60-149; a literal character is its own code). *)
Definition token_number (t : term) : Z :=
  match t with
  | T_LOC_NAME => 57346 | T_CHAR => 57347 | T_NUMBER => 57348 | T_COLLSYMBOL => 57349 | T_COLLELEMENT => 57350
  | T_CHARSYMBOL => 57351 | T_OCTAL_CHAR => 57352 | T_HEX_CHAR => 57353 | T_DECIMAL_CHAR => 57354
  | T_CHARCLASS => 57355 | T_ELLIPSIS => 57356 | T_EXTENDED_REG_EXP => 57357 | T_EOL => 57358
  | T_ESCAPE_CHAR_STR => 57359 | T_COMMENT_CHAR_STR => 57360 | T_COPY_STR => 57361 | T_LC_CTYPE_STR => 57362
  | T_CHARCLASS_STR => 57363 | T_UPPER_STR => 57364 | T_LOWER_STR => 57365 | T_ALPHA_STR => 57366
  | T_DIGIT_STR => 57367 | T_PUNCT_STR => 57368 | T_XDIGIT_STR => 57369 | T_SPACE_STR => 57370 | T_PRINT_STR => 57371
  | T_GRAPH_STR => 57372 | T_BLANK_STR => 57373 | T_CNTRL_STR => 57374 | T_ALNUM_STR => 57375
  | T_TOUPPER_STR => 57376 | T_TOLOWER_STR => 57377 | T_LC_COLLATE_STR => 57378 | T_COLLATING_SYMBOL_STR => 57379
  | T_COLLATING_ELEMENT_STR => 57380 | T_ORDER_START_STR => 57381 | T_FORWARD_STR => 57382 | T_BACKWARD_STR => 57383
  | T_POSITION_STR => 57384 | T_UNDEFINED_STR => 57385 | T_IGNORE_STR => 57386 | T_END_STR => 57387
  | T_LC_TIME_STR => 57388 | T_ERA_STR => 57389 | T_ERA_D_FMT_STR => 57390 | T_ERA_T_FMT_STR => 57391
  | T_ALT_DIGITS_STR => 57392 | T_ERA_D_T_FMT_STR => 57393 | T_AM_PM_STR => 57394 | T_D_T_FMT_STR => 57395
  | T_D_FMT_STR => 57396 | T_T_FMT_STR => 57397 | T_T_FMT_AMPM_STR => 57398 | T_ABDAY_STR => 57399
  | T_DAY_STR => 57400 | T_ABMON_STR => 57401 | T_MON_STR => 57402 | T_LC_NUMERIC_STR => 57403
  | T_DECIMAL_POINT_STR => 57404 | T_THOUSANDS_SEP_STR => 57405 | T_LC_MONETARY_STR => 57406
  | T_INT_P_SIGN_POSN_STR => 57407 | T_INT_N_CS_PRECEDES_STR => 57408 | T_INT_P_CS_PRECEDES_STR => 57409
  | T_P_SIGN_POSN_STR => 57410 | T_N_CS_PRECEDES_STR => 57411 | T_P_CS_PRECEDES_STR => 57412
  | T_INT_FRAC_DIGITS_STR => 57413 | T_FRAC_DIGITS_STR => 57414 | T_P_SEP_BY_SPACE_STR => 57415
  | T_N_SEP_BY_SPACE_STR => 57416 | T_N_SIGN_POSN_STR => 57417 | T_INT_P_SEP_BY_SPACE_STR => 57418
  | T_INT_N_SEP_BY_SPACE_STR => 57419 | T_INT_N_SIGN_POSN_STR => 57420 | T_NEGATIVE_SIGN_STR => 57421
  | T_POSITIVE_SIGN_STR => 57422 | T_MON_DECIMAL_POINT_STR => 57423 | T_INT_CURR_SYMBOL_STR => 57424
  | T_CURRENCY_SYMBOL_STR => 57425 | T_MON_THOUSANDS_SEP_STR => 57426 | T_LC_MESSAGES_STR => 57427
  | T_NOEXPR_STR => 57428 | T_YESEXPR_STR => 57429 | T_FROM_STR => 57430 | T_ORDER_END_STR => 57431
  | T_MON_GROUPING_STR => 57432 | T_GROUPING_STR => 57433 | T_NEGATIVE_ONE_STR => 57434
  | T_TWO_DOUBLE_QUOTE_STR => 57435 | T_dquote => 34 | T_semicolon => 59 | T_lparen => 40 | T_comma => 44
  | T_rparen => 41
  end.

