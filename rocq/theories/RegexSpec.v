(* Specification vocabulary for C41-C45: the textbook meaning of a pattern. *)
From Verif Require Import GoBase Utf8Facts RegexModel.

Definition accepts (e : element) (r : N) : Prop :=
  match e with Plain c => r = c | Wildcard => True | Bracket cs => In r cs end.

(* a text matched by a list of repeated elements, completely *)
Inductive spells : list dupl -> list N -> Prop :=
| sp_nil : spells [] []
| sp_cons : forall e c es u v, Forall (accepts e) u ->
    (cmin c <= Z.of_nat (List.length u) <= cmax c)%Z -> spells es v -> spells ((e, c) :: es) (u ++ v).

(* the text contains a match, at its beginning / end if anchored *)
Definition contains_match (left right : bool) (es : list dupl) (s : list N) : Prop :=
  exists u m v, s = u ++ m ++ v /\ spells es m /\ (left = true -> u = []) /\ (right = true -> v = []).

(* literal patterns *)
Definition special : list N := [c_lbrack; c_lparen; c_rparen; c_dot; c_star; c_lbrace].
Definition literal (ps : list N) : Prop :=
  Forall valid_rune ps /\ (forall r, In r ps -> ~ In r special) /\ hd 0%N ps <> c_caret /\ last ps 0%N <> c_dollar.

(* elements for which the matcher is exact *)
Definition fixed_or_wild (d : dupl) : Prop := cmin (snd d) = cmax (snd d) \/ fst d = Wildcard.

(* ... or all the elements after it are optional *)
Inductive exact_elements : list dupl -> Prop :=
| ex_nil : exact_elements []
| ex_fixed : forall d es, fixed_or_wild d -> exact_elements es -> exact_elements (d :: es)
| ex_last : forall d es, Forall (fun o => cmin (snd o) = 0%Z) es -> exact_elements (d :: es).

(* ---- pattern texts ---- *)
Inductive element_text : element -> list N -> Prop :=
| et_plain : forall c, ~ In c [c_lbrack; c_lparen; c_rparen; c_dot; c_caret; c_dollar] -> element_text (Plain c) [c]
| et_wild : element_text Wildcard [c_dot]
| et_bracket : forall cs, ~ In c_rbrack cs -> ~ In c_bslash cs ->
    element_text (Bracket cs) (c_lbrack :: cs ++ [c_rbrack]).
(* decimal digits of a count *)
Definition dec_runes (m : Z) : list N := map N_of_ascii (itoa m).
Definition is_count (m : Z) : Prop := (0 <= m <= max_int64)%Z.
Inductive count_text : count -> list N -> Prop :=
| ct_one : count_text {| cmin := 1; cmax := 1 |} []
| ct_star : count_text {| cmin := 0; cmax := max_int64 |} [c_star]
| ct_exact : forall m, is_count m -> count_text {| cmin := m; cmax := m |} (c_lbrace :: dec_runes m ++ [c_rbrace])
| ct_atleast : forall m, is_count m ->
    count_text {| cmin := m; cmax := max_int64 |} (c_lbrace :: dec_runes m ++ [c_comma; c_rbrace])
| ct_between : forall m n, is_count m -> is_count n ->
    count_text {| cmin := m; cmax := n |} (c_lbrace :: dec_runes m ++ [c_comma] ++ dec_runes n ++ [c_rbrace]).
(* what may follow so that it is not read as part of the count or as the left anchor *)
Definition follows (ct rest : list N) : Prop :=
  hd 0%N rest <> c_caret /\ (ct = [] -> hd 0%N rest <> c_star /\ hd 0%N rest <> c_lbrace).
(* the pattern with one element more in front *)
Definition prepend (d : dupl) (r : res bre) : res bre :=
  match r with
  | Ok b => Ok {| anchorLeft := anchorLeft b; anchorRight := anchorRight b; elements := d :: elements b |}
  | Err e => Err e
  | Panic => Panic
  end.
(* what the braces may contain *)
Definition digits (l : list N) : Prop := l <> [] /\ Forall (fun r => (48 <= r <= 57)%N) l.
Inductive count_body : list N -> Prop :=
| cb_exact : forall m, digits m -> count_body m
| cb_atleast : forall m, digits m -> count_body (m ++ [c_comma])
| cb_between : forall m n, digits m -> digits n -> count_body (m ++ [c_comma] ++ n).
