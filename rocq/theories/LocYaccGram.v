(* The grammar in the parser's numbering, and the kernel's validation of the tables against it. *)
From Verif Require Import GoBase GoFacts LocGramSpec LocYaccModel LocYaccCert LocYaccProofs.
Local Open Scope Z_scope.

(* goyacc's number of a non-terminal *)
Definition nt_code (A : nonterm) : Z :=
  match A with
  | N_locale_definition => 1 | N_global_statements => 2 | N_locale_categories => 3 | N_symbol_redefine => 4
  | N_locale_category => 5 | N_lc_ctype => 6 | N_lc_collate => 7 | N_lc_messages => 8 | N_lc_monetary => 9
  | N_lc_numeric => 10 | N_lc_time => 11 | N_char_list => 12 | N_char_symbol => 13 | N_elem_list => 14
  | N_symb_list => 15 | N_locale_name => 16 | N_ctype_hdr => 17 | N_ctype_keywords => 18 | N_ctype_tlr => 19
  | N_ctype_keyword => 20 | N_charclass_keyword => 21 | N_charclass_list => 22 | N_charconv_keyword => 23
  | N_charconv_list => 24 | N_charclass_namelist => 25 | N_charconv_entry => 26 | N_collate_hdr => 27
  | N_collate_keywords => 28 | N_collate_tlr => 29 | N_order_statements => 30 | N_opt_statements => 31
  | N_collating_symbols => 32 | N_collating_elements => 33 | N_order_start => 34 | N_collation_order => 35
  | N_order_end => 36 | N_order_opts => 37 | N_order_opt => 38 | N_opt_word => 39 | N_collation_entry => 40
  | N_collation_element => 41 | N_weight_list => 42 | N_weight_symbol => 43 | N_messages_hdr => 44
  | N_messages_keywords => 45 | N_messages_tlr => 46 | N_messages_keyword => 47 | N_monetary_hdr => 48
  | N_monetary_keywords => 49 | N_monetary_tlr => 50 | N_monetary_keyword => 51 | N_mon_keyword_string => 52
  | N_mon_string => 53 | N_mon_keyword_char => 54 | N_mon_keyword_grouping => 55 | N_mon_group_list => 56
  | N_numeric_hdr => 57 | N_numeric_keywords => 58 | N_numeric_tlr => 59 | N_numeric_keyword => 60
  | N_num_keyword_string => 61 | N_num_string => 62 | N_num_keyword_grouping => 63 | N_num_group_list => 64
  | N_time_hdr => 65 | N_time_keywords => 66 | N_time_tlr => 67 | N_time_keyword => 68 | N_time_keyword_name => 69
  | N_time_list => 70 | N_time_keyword_fmt => 71 | N_time_string => 72 | N_time_keyword_opt => 73
  end.

Definition all_nts : list nonterm := [
  N_locale_definition; N_global_statements; N_locale_categories; N_symbol_redefine; N_locale_category; N_lc_ctype;
  N_lc_collate; N_lc_messages; N_lc_monetary; N_lc_numeric; N_lc_time; N_char_list; N_char_symbol; N_elem_list;
  N_symb_list; N_locale_name; N_ctype_hdr; N_ctype_keywords; N_ctype_tlr; N_ctype_keyword; N_charclass_keyword;
  N_charclass_list; N_charconv_keyword; N_charconv_list; N_charclass_namelist; N_charconv_entry; N_collate_hdr;
  N_collate_keywords; N_collate_tlr; N_order_statements; N_opt_statements; N_collating_symbols; N_collating_elements;
  N_order_start; N_collation_order; N_order_end; N_order_opts; N_order_opt; N_opt_word; N_collation_entry;
  N_collation_element; N_weight_list; N_weight_symbol; N_messages_hdr; N_messages_keywords; N_messages_tlr;
  N_messages_keyword; N_monetary_hdr; N_monetary_keywords; N_monetary_tlr; N_monetary_keyword; N_mon_keyword_string;
  N_mon_string; N_mon_keyword_char; N_mon_keyword_grouping; N_mon_group_list; N_numeric_hdr; N_numeric_keywords;
  N_numeric_tlr; N_numeric_keyword; N_num_keyword_string; N_num_string; N_num_keyword_grouping; N_num_group_list;
  N_time_hdr; N_time_keywords; N_time_tlr; N_time_keyword; N_time_keyword_name; N_time_list; N_time_keyword_fmt;
  N_time_string; N_time_keyword_opt
].

Definition all_terms : list term := [
  T_LOC_NAME; T_CHAR; T_NUMBER; T_COLLSYMBOL; T_COLLELEMENT; T_CHARSYMBOL; T_OCTAL_CHAR; T_HEX_CHAR; T_DECIMAL_CHAR;
  T_CHARCLASS; T_ELLIPSIS; T_EXTENDED_REG_EXP; T_EOL; T_ESCAPE_CHAR_STR; T_COMMENT_CHAR_STR; T_COPY_STR;
  T_LC_CTYPE_STR; T_CHARCLASS_STR; T_UPPER_STR; T_LOWER_STR; T_ALPHA_STR; T_DIGIT_STR; T_PUNCT_STR; T_XDIGIT_STR;
  T_SPACE_STR; T_PRINT_STR; T_GRAPH_STR; T_BLANK_STR; T_CNTRL_STR; T_ALNUM_STR; T_TOUPPER_STR; T_TOLOWER_STR;
  T_LC_COLLATE_STR; T_COLLATING_SYMBOL_STR; T_COLLATING_ELEMENT_STR; T_ORDER_START_STR; T_FORWARD_STR;
  T_BACKWARD_STR; T_POSITION_STR; T_UNDEFINED_STR; T_IGNORE_STR; T_END_STR; T_LC_TIME_STR; T_ERA_STR;
  T_ERA_D_FMT_STR; T_ERA_T_FMT_STR; T_ALT_DIGITS_STR; T_ERA_D_T_FMT_STR; T_AM_PM_STR; T_D_T_FMT_STR; T_D_FMT_STR;
  T_T_FMT_STR; T_T_FMT_AMPM_STR; T_ABDAY_STR; T_DAY_STR; T_ABMON_STR; T_MON_STR; T_LC_NUMERIC_STR;
  T_DECIMAL_POINT_STR; T_THOUSANDS_SEP_STR; T_LC_MONETARY_STR; T_INT_P_SIGN_POSN_STR; T_INT_N_CS_PRECEDES_STR;
  T_INT_P_CS_PRECEDES_STR; T_P_SIGN_POSN_STR; T_N_CS_PRECEDES_STR; T_P_CS_PRECEDES_STR; T_INT_FRAC_DIGITS_STR;
  T_FRAC_DIGITS_STR; T_P_SEP_BY_SPACE_STR; T_N_SEP_BY_SPACE_STR; T_N_SIGN_POSN_STR; T_INT_P_SEP_BY_SPACE_STR;
  T_INT_N_SEP_BY_SPACE_STR; T_INT_N_SIGN_POSN_STR; T_NEGATIVE_SIGN_STR; T_POSITIVE_SIGN_STR; T_MON_DECIMAL_POINT_STR;
  T_INT_CURR_SYMBOL_STR; T_CURRENCY_SYMBOL_STR; T_MON_THOUSANDS_SEP_STR; T_LC_MESSAGES_STR; T_NOEXPR_STR;
  T_YESEXPR_STR; T_FROM_STR; T_ORDER_END_STR; T_MON_GROUPING_STR; T_GROUPING_STR; T_NEGATIVE_ONE_STR;
  T_TWO_DOUBLE_QUOTE_STR; T_dquote; T_semicolon; T_lparen; T_comma; T_rparen
].

Definition term_code (t : term) : Z := translate (token_number t).
Definition sym_code (X : symbol) : Z := match X with Tm t => term_code t | Nt A => - nt_code A end.
Definition gram : list (Z * list Z) := map (fun p => (nt_code (fst p), map sym_code (snd p))) grammar.

Definition decode_term (z : Z) : option term := find (fun t => term_code t =? z) all_terms.

Lemma decode_term_code : forall t, decode_term (term_code t) = Some t.
Proof. destruct t; vm_compute; reflexivity. Qed.

Lemma all_terms_complete : forall t, In t all_terms.
Proof. intros t. exact (proj1 (find_some _ _ (decode_term_code t))). Qed.

Definition decode_nt (z : Z) : option nonterm := find (fun A => nt_code A =? z) all_nts.

Lemma decode_nt_code : forall A, decode_nt (nt_code A) = Some A.
Proof. destruct A; vm_compute; reflexivity. Qed.

Lemma all_nts_complete : forall A, In A all_nts.
Proof. intros A. exact (proj1 (find_some _ _ (decode_nt_code A))). Qed.

Lemma nt_code_inj : forall A A', nt_code A = nt_code A' -> A = A'.
Proof.
  intros A A' E. pose proof (decode_nt_code A) as H. rewrite E, decode_nt_code in H. now injection H.
Qed.

Lemma term_code_inj : forall t u, term_code t = term_code u -> t = u.
Proof.
  intros t u E. pose proof (decode_term_code t) as H. rewrite E, decode_term_code in H. now injection H.
Qed.

Lemma term_code_range : forall t, 4 <= term_code t <= 98.
Proof. destruct t; vm_compute; split; discriminate. Qed.

Lemma nt_code_range : forall A, 1 <= nt_code A <= 73.
Proof. destruct A; vm_compute; split; discriminate. Qed.

Lemma decode_term_range : forall z, 4 <= z <= 98 -> exists t, term_code t = z.
Proof.
  intros z H.
  assert (C : forallb (fun z => existsb (fun t => term_code t =? z) all_terms) (map Z.of_nat (seq 4 95)) = true)
    by (vm_compute; reflexivity).
  rewrite forallb_forall in C.
  assert (I : In z (map Z.of_nat (seq 4 95))).
  { apply in_map_iff. exists (Z.to_nat z). split; [lia|]. apply in_seq. lia. }
  specialize (C z I). apply existsb_exists in C. destruct C as (t & _ & E). exists t. now apply Z.eqb_eq.
Qed.

(* translating a token number is injective on the numbers of tokens *)
Lemma translate_inv : forall z t, 0 < z -> translate z = term_code t -> z = token_number t.
Proof.
  intros z t H E.
  assert (C : forallb (fun z => let c := translate z in (c <? 4) || existsb (fun t => (term_code t =? c) && (token_number t =? z)) all_terms)
                (map Z.of_nat (seq 1 59) ++ map (fun n => 57344 + Z.of_nat n) (seq 0 92)) = true)
    by (vm_compute; reflexivity).
  rewrite forallb_forall in C.
  pose proof (term_code_range t) as R.
  assert (I : In z (map Z.of_nat (seq 1 59) ++ map (fun n => 57344 + Z.of_nat n) (seq 0 92))).
  { apply in_or_app. unfold translate in E.
    destruct (z <=? 0) eqn:Z0; [apply Z.leb_le in Z0; lia|].
    change (Z.of_nat (length yyTok1)) with 60 in E. change (Z.of_nat (length yyTok2)) with 92 in E.
    destruct (z <? 60) eqn:Z1.
    - left. apply Z.ltb_lt in Z1. apply in_map_iff. exists (Z.to_nat z). split; [lia|]. apply in_seq. lia.
    - destruct ((yyPrivate <=? z) && (z <? yyPrivate + 92)) eqn:Z2.
      + right. apply andb_prop in Z2. destruct Z2 as [Z2 Z3]. apply Z.leb_le in Z2. apply Z.ltb_lt in Z3.
        unfold yyPrivate in *. apply in_map_iff. exists (Z.to_nat (z - 57344)). split; [lia|]. apply in_seq. lia.
      + change (3 = term_code t) in E. lia. }
  specialize (C z I). cbv zeta in C. rewrite E in C.
  apply orb_prop in C. destruct C as [C|C]; [apply Z.ltb_lt in C; lia|].
  apply existsb_exists in C. destruct C as (u & _ & C). apply andb_prop in C. destruct C as [C1 C2].
  apply Z.eqb_eq in C1, C2. apply term_code_inj in C1. now subst.
Qed.

Lemma translate_range : forall z, 0 < z -> 2 <= translate z <= 98.
Proof.
  intros z H.
  assert (C : forallb (fun z => (2 <=? translate z) && (translate z <=? 98))
                (map Z.of_nat (seq 1 59) ++ map (fun n => 57344 + Z.of_nat n) (seq 0 92)) = true)
    by (vm_compute; reflexivity).
  rewrite forallb_forall in C.
  destruct (in_dec Z.eq_dec z (map Z.of_nat (seq 1 59) ++ map (fun n => 57344 + Z.of_nat n) (seq 0 92))) as [I|N].
  - specialize (C z I). apply andb_prop in C. destruct C as [C1 C2]. apply Z.leb_le in C1, C2. lia.
  - unfold translate. change (Z.of_nat (length yyTok1)) with 60. change (Z.of_nat (length yyTok2)) with 92.
    destruct (z <=? 0) eqn:Z0; [apply Z.leb_le in Z0; lia|].
    destruct (z <? 60) eqn:Z1.
    { exfalso. apply N, in_or_app. left. apply Z.ltb_lt in Z1. apply in_map_iff. exists (Z.to_nat z). split; [lia|]. apply in_seq. lia. }
    destruct ((yyPrivate <=? z) && (z <? yyPrivate + 92)) eqn:Z2.
    { exfalso. apply N, in_or_app. right. apply andb_prop in Z2. destruct Z2 as [Z2 Z3]. apply Z.leb_le in Z2. apply Z.ltb_lt in Z3.
      unfold yyPrivate in *. apply in_map_iff. exists (Z.to_nat (z - 57344)). split; [lia|]. apply in_seq. lia. }
    change (2 <= 3 <= 98). lia.
Qed.

Lemma states_valid : forallb (check_state gram) states = true.
Proof. vm_compute. reflexivity. Qed.

Lemma preds_valid : forallb (fun s => forallb (fun q => reachable q && mem q states) (preds s)) states = true.
Proof. vm_compute. reflexivity. Qed.

Lemma ranks_valid : forallb (fun s => (0 <=? rank s) && (rank s <? 50)) states = true.
Proof. vm_compute. reflexivity. Qed.

Lemma preds_0 : preds 0 = [].
Proof. vm_compute. reflexivity. Qed.

Lemma chk_1 : chk 1 = -1.
Proof. vm_compute. reflexivity. Qed.

Lemma preds_1 : preds 1 = [0].
Proof. vm_compute. reflexivity. Qed.
