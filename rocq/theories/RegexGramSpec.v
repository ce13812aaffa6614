(* Specification vocabulary for C124-C126: the patterns ParseBre understands, as a grammar on runes. *)
From Verif Require Import GoBase RegexModel RegexSpec.

(* characters other than the closing one, or any character after a backslash (which is kept) *)
Inductive quoted (stop : N) : list N -> Prop :=
| q_nil : quoted stop []
| q_char : forall c l, c <> c_bslash -> c <> stop -> quoted stop l -> quoted stop (c :: l)
| q_pair : forall c l, quoted stop l -> quoted stop (c_bslash :: c :: l).

(* a decimal number, with or without leading zeros, that fits an int *)
Definition decimal (d : list N) : Z := Z.of_N (fold_left (fun v r => 10 * v + (r - 48))%N d 0%N).
Definition int_text (d : list N) : Prop := digits d /\ (decimal d <= max_int64)%Z.

(* one element *)
Inductive single : list N -> element -> Prop :=
| sg_plain : forall c, ~ In c [c_lbrack; c_lparen; c_rparen; c_dot] -> single [c] (Plain c)
| sg_any : single [c_dot] Wildcard
| sg_set : forall cs, quoted c_rbrack cs -> single ([c_lbrack] ++ cs ++ [c_rbrack]) (Bracket cs).

(* how often it may occur: at least, at most *)
Inductive repeated : list N -> Z -> Z -> Prop :=
| rp_once : repeated [] 1 1
| rp_star : repeated [c_star] 0 max_int64
| rp_exactly : forall d, int_text d -> repeated ([c_lbrace] ++ d ++ [c_rbrace]) (decimal d) (decimal d)
| rp_atleast : forall d, int_text d -> repeated ([c_lbrace] ++ d ++ [c_comma] ++ [c_rbrace]) (decimal d) max_int64
| rp_between : forall d d', int_text d -> int_text d' ->
    repeated ([c_lbrace] ++ d ++ [c_comma] ++ d' ++ [c_rbrace]) (decimal d) (decimal d').

(* a sequence of elements; parentheses are skipped where an element could begin; what follows an element is its
   repetition if it can be one *)
Inductive sequence : list N -> list dupl -> Prop :=
| sq_end : sequence [] []
| sq_paren : forall p l es, p = c_lparen \/ p = c_rparen -> sequence l es -> sequence (p :: l) es
| sq_item : forall t e r mn mx l es, single t e -> repeated r mn mx ->
    (r = [] -> hd 0%N l <> c_star /\ hd 0%N l <> c_lbrace) -> sequence l es ->
    sequence (t ++ r ++ l) ((e, {| cmin := mn; cmax := mx |}) :: es).

(* the anchors: a ^ at the beginning, then a $ at the end *)
Inductive pattern : list N -> bre -> Prop :=
| pt_none : forall l es, hd 0%N l <> c_caret -> last l 0%N <> c_dollar -> sequence l es ->
    pattern l {| anchorLeft := false; anchorRight := false; elements := es |}
| pt_left : forall l es, last l 0%N <> c_dollar -> sequence l es ->
    pattern ([c_caret] ++ l) {| anchorLeft := true; anchorRight := false; elements := es |}
| pt_right : forall l es, hd 0%N l <> c_caret -> sequence l es ->
    pattern (l ++ [c_dollar]) {| anchorLeft := false; anchorRight := true; elements := es |}
| pt_both : forall l es, sequence l es ->
    pattern ([c_caret] ++ l ++ [c_dollar]) {| anchorLeft := true; anchorRight := true; elements := es |}.
