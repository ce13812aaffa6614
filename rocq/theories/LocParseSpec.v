(* What parsing a locale definition should do, in terms of the tokens and of the grammar in LocGramSpec.v. *)
From Verif Require Import GoBase LocGramSpec LocYaccModel.
Local Open Scope Z_scope.

(* the tokens the grammar is about *)
Definition significant (l : list token) : list token := filter (fun t => negb (t_type t =? WHITESPACE)) l.

(* the token is the terminal x *)
Definition is (x : term) (t : token) : Prop := t_type t = token_number x.

(* the significant tokens of l read as terminals are w *)
Definition spells (l : list token) (w : list term) : Prop := Forall2 is w (significant l).

(* the lexer's token types are positive (y.go:60-149, WHITESPACE, and the literal characters) *)
Definition positive (l : list token) : Prop := Forall (fun t => 0 < t_type t) l.

Definition is_character (t : token) : Prop :=
  is T_CHAR t \/ is T_CHARSYMBOL t \/ is T_OCTAL_CHAR t \/ is T_HEX_CHAR t \/ is T_DECIMAL_CHAR t.

(* "..." with the characters between the quotes, or the token for two quotes, with its own text *)
Definition quoted (l : list token) (v : bytes) : Prop :=
  (exists q1 chars q2, l = q1 :: chars ++ [q2] /\ is T_dquote q1 /\ is T_dquote q2 /\ chars <> [] /\
     Forall is_character chars /\ v = concat (map t_value chars)) \/
  (exists t, l = [t] /\ is T_TWO_DOUBLE_QUOTE_STR t /\ v = t_value t).

(* the text of the keyword tokens is the keyword *)
Definition keyword_texts (l : list token) : Prop :=
  Forall (fun t => is T_INT_CURR_SYMBOL_STR t -> t_value t = B "int_curr_symbol") l /\
  Forall (fun t => is T_CURRENCY_SYMBOL_STR t \/ is T_MON_DECIMAL_POINT_STR t \/ is T_MON_THOUSANDS_SEP_STR t \/
                   is T_POSITIVE_SIGN_STR t \/ is T_NEGATIVE_SIGN_STR t -> t_value t <> B "int_curr_symbol") l.

(* n;n;...;n and the end of the line *)
Inductive grouped : list token -> list bytes -> Prop :=
| grouped_one : forall n e, is T_NUMBER n -> is T_EOL e -> grouped [n; e] [t_value n]
| grouped_more : forall n s l ns, is T_NUMBER n -> is T_semicolon s -> grouped l ns -> grouped (n :: s :: l) (t_value n :: ns).

(* the keyword a category begins with *)
Definition opens_category (t : token) : Prop :=
  is T_LC_CTYPE_STR t \/ is T_LC_COLLATE_STR t \/ is T_LC_MESSAGES_STR t \/ is T_LC_MONETARY_STR t \/
  is T_LC_NUMERIC_STR t \/ is T_LC_TIME_STR t.
