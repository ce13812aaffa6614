(* Model of the message of a syntax error: yyTokname and yyErrorMessage of pkg/locale/y.go.

   Parse hands the message to Lexer.Error, which panics with it (see LocYaccModel.v).  yyErrorMessages is empty
   (y.go:506-510), so the loop of lines 572-576 never finds a message of its own. *)
From Verif Require Import GoBase LocYaccModel.
Local Open Scope Z_scope.

(* pkg/locale/y.go:151-249, copied *)
Definition yyToknames : list bytes := map B [
  "$end"; "error"; "$unk"; "LOC_NAME"; "CHAR"; "NUMBER"; "COLLSYMBOL"; "COLLELEMENT"; "CHARSYMBOL"; "OCTAL_CHAR";
  "HEX_CHAR"; "DECIMAL_CHAR"; "CHARCLASS"; "ELLIPSIS"; "EXTENDED_REG_EXP"; "EOL"; "ESCAPE_CHAR_STR";
  "COMMENT_CHAR_STR"; "COPY_STR"; "LC_CTYPE_STR"; "CHARCLASS_STR"; "UPPER_STR"; "LOWER_STR"; "ALPHA_STR";
  "DIGIT_STR"; "PUNCT_STR"; "XDIGIT_STR"; "SPACE_STR"; "PRINT_STR"; "GRAPH_STR"; "BLANK_STR"; "CNTRL_STR";
  "ALNUM_STR"; "TOUPPER_STR"; "TOLOWER_STR"; "LC_COLLATE_STR"; "COLLATING_SYMBOL_STR"; "COLLATING_ELEMENT_STR";
  "ORDER_START_STR"; "FORWARD_STR"; "BACKWARD_STR"; "POSITION_STR"; "UNDEFINED_STR"; "IGNORE_STR"; "END_STR";
  "LC_TIME_STR"; "ERA_STR"; "ERA_D_FMT_STR"; "ERA_T_FMT_STR"; "ALT_DIGITS_STR"; "ERA_D_T_FMT_STR"; "AM_PM_STR";
  "D_T_FMT_STR"; "D_FMT_STR"; "T_FMT_STR"; "T_FMT_AMPM_STR"; "ABDAY_STR"; "DAY_STR"; "ABMON_STR"; "MON_STR";
  "LC_NUMERIC_STR"; "DECIMAL_POINT_STR"; "THOUSANDS_SEP_STR"; "LC_MONETARY_STR"; "INT_P_SIGN_POSN_STR";
  "INT_N_CS_PRECEDES_STR"; "INT_P_CS_PRECEDES_STR"; "P_SIGN_POSN_STR"; "N_CS_PRECEDES_STR"; "P_CS_PRECEDES_STR";
  "INT_FRAC_DIGITS_STR"; "FRAC_DIGITS_STR"; "P_SEP_BY_SPACE_STR"; "N_SEP_BY_SPACE_STR"; "N_SIGN_POSN_STR";
  "INT_P_SEP_BY_SPACE_STR"; "INT_N_SEP_BY_SPACE_STR"; "INT_N_SIGN_POSN_STR"; "NEGATIVE_SIGN_STR";
  "POSITIVE_SIGN_STR"; "MON_DECIMAL_POINT_STR"; "INT_CURR_SYMBOL_STR"; "CURRENCY_SYMBOL_STR";
  "MON_THOUSANDS_SEP_STR"; "LC_MESSAGES_STR"; "NOEXPR_STR"; "YESEXPR_STR"; "FROM_STR"; "ORDER_END_STR";
  "MON_GROUPING_STR"; "GROUPING_STR"; "NEGATIVE_ONE_STR"; "TWO_DOUBLE_QUOTE_STR"; "'""'"; "';'"; "'('"; "','"; "')'"
]%string.

(* y.go:547-554 *)
Definition yyTokname (c : Z) : bytes :=
  if (1 <=? c) && (c - 1 <? Z.of_nat (length yyToknames))
  then match nth (Z.to_nat (c - 1)) yyToknames [] with
       | [] => B "tok-" ++ itoa c
       | n => n
       end
  else B "tok-" ++ itoa c.

(* What the search for expected tokens (y.go:581-616) comes to: it gives up, or has a list. *)
Inductive search := GivesUp | Found (expected : list Z).

(* y.go:582,587-589,607-610: expected has room for four *)
Definition full_up (expected : list Z) : bool := (4 <=? length expected)%nat.

(* y.go:584-592, for the n tokens from tok on; None: an index out of range *)
Fixpoint shiftable (base tok : Z) (n : nat) (expected : list Z) : option search :=
  match n with
  | O => Some (Found expected)
  | S n' =>
      let i := base + tok in
      if (0 <=? i) && (i <? yyLast)
      then match at_ yyAct i with
           | None => None
           | Some s =>
               match at_ yyChk s with
               | None => None
               | Some k =>
                   if k =? tok
                   then if full_up expected then Some GivesUp else shiftable base (tok + 1) n' (expected ++ [tok])
                   else shiftable base (tok + 1) n' expected
               end
           end
      else shiftable base (tok + 1) n' expected
  end.

(* y.go:600-616: the exceptions of a state, and its default action behind them; None: an index out of range *)
Fixpoint excepted (l : list Z) (expected : list Z) : option search :=
  match l with
  | tok :: n :: r =>
      if 0 <=? tok
      then if (tok <? 4) || (n =? 0) then excepted r expected
           else if full_up expected then Some GivesUp else excepted r (expected ++ [tok])
      else Some (if n =? 0 then Found expected else GivesUp)
  | _ => None
  end.

(* y.go:581-616; TOKSTART is 4 *)
Definition expected_tokens (st : Z) : option search :=
  match at_ yyPact st with
  | None => None
  | Some base =>
      match shiftable base 4 (length yyToknames - 3) [] with
      | Some (Found expected) =>
          match at_ yyDef st with
          | None => None
          | Some n =>
              if n =? -2
              then match exca_find st yyExca with None => None | Some l => excepted l expected end
              else Some (Found expected)
          end
      | r => r
      end
  end.

(* y.go:618-625 *)
Fixpoint listed_names (first : bool) (l : list Z) : bytes :=
  match l with
  | [] => []
  | tok :: r => (if first then B ", expecting " else B " or ") ++ yyTokname tok ++ listed_names false r
  end.

(* y.go:565-627; verbose is yyErrorVerbose; None: an index out of range *)
Definition yyErrorMessage (verbose : bool) (st look : Z) : option bytes :=
  if negb verbose then Some (B "syntax error")
  else
    let res := B "syntax error: unexpected " ++ yyTokname look in
    match expected_tokens st with
    | None => None
    | Some GivesUp => Some res
    | Some (Found expected) => Some (res ++ listed_names true expected)
    end.

(* y.go:695-762: the value of yytoken when the round that begins in c ends at line 765: the token looked at, if the
   round looks at one (tokens of negative type, which would be asked for twice, are not considered) *)
Definition yytoken (closed : bool) (c : config) : Z :=
  match look c with
  | Some t => t
  | None =>
      match at_ yyPact (state c), at_ yyDef (state c) with
      | Some p, Some n =>
          if (p <=? yyFlag) && negb (n =? -2) then -1
          else match read closed c with Some (t, _) => t | None => -1 end
      | _, _ => -1
      end
  end.

(* y.go:668-765: the argument of yylex.Error in a run of Parse; None: it is not called, or an index is out of range *)
Fixpoint reported (verbose : bool) (fuel : nat) (closed : bool) (c : config) : option bytes :=
  match fuel with
  | O => None
  | S f =>
      match step closed c with
      | Continue c' => reported verbose f closed c'
      | Stop SyntaxError _ => yyErrorMessage verbose (state c) (yytoken closed c)
      | Stop _ _ => None
      end
  end.
(* y.go:664-666,765: what yyParse, called on these tokens, hands to yylex.Error *)
Definition yyParse_error (verbose : bool) (fuel : nat) (closed : bool) (d : definition) (l : list token) : option bytes :=
  reported verbose fuel closed (start d l).
