(* Specification vocabulary for C46-C49. *)
From Verif Require Import GoBase NumFacts Utf8Facts.

(* ---- C46 ---- *)
Definition quoted (s : bytes) : bytes := "034"%char :: s ++ ["034"%char].
(* what the report shows for a category variable *)
Inductive shows (env : bytes -> bytes) (var : bytes) : bytes -> Prop :=
| sh_all : env (B "LC_ALL") <> [] -> shows env var (quoted (env (B "LC_ALL")))
| sh_own : env (B "LC_ALL") = [] -> env var <> [] -> shows env var (env var)
| sh_lang : env (B "LC_ALL") = [] -> env var = [] -> shows env var (quoted (env (B "LANG"))).
Definition categories : list bytes :=
  [B "LC_COLLATE"; B "LC_CTYPE"; B "LC_MESSAGES"; B "LC_MONETARY"; B "LC_NUMERIC"; B "LC_TIME"].
Definition assignment (var value : bytes) : bytes := var ++ B "=" ++ value ++ [nl].
Definition reports (env : bytes -> bytes) (out : bytes) : Prop :=
  exists values, Forall2 (shows env) categories values /\
  out = assignment (B "LANG") (quoted (env (B "LANG")))
        ++ concat (map (fun '(c, v) => assignment c v) (combine categories values))
        ++ assignment (B "LC_ALL") (env (B "LC_ALL")).
Definition variables : list bytes := B "LANG" :: categories ++ [B "LC_ALL"].

(* every percent sign written twice *)
Fixpoint doubled (s : bytes) : bytes :=
  match s with
  | [] => []
  | c :: r => if Ascii.eqb c "%" then c :: c :: doubled r else c :: doubled r
  end.

(* What fmt.Printf writes for a format without operands: flags, width, precision and verb of a directive. *)
Definition flag (c : ascii) : Prop := In c ["#"%char; "0"%char; "+"%char; "-"%char; " "%char].
Definition modifiers (s : bytes) : Prop :=
  exists flags width precision, s = flags ++ width ++ precision /\ Forall flag flags /\ Forall is_dec_digit width /\
    (precision = [] \/ exists ds, precision = B "." ++ ds /\ Forall is_dec_digit ds).
Definition verb (r : N) : Prop :=
  valid_rune r /\ forall c, flag c \/ is_dec_digit c \/ In c ["."%char; "*"%char; "["%char; "%"%char] -> r <> N_of_ascii c.
Inductive printed : bytes -> bytes -> Prop :=
| printed_end : printed [] []
| printed_char c f o : c <> "%"%char -> printed f o -> printed (c :: f) (c :: o)
| printed_percent m f o : modifiers m -> printed f o -> printed (B "%" ++ m ++ B "%" ++ f) (B "%" ++ o)
| printed_missing m r f o : modifiers m -> verb r -> printed f o ->
    printed (B "%" ++ m ++ encode_rune r ++ f) (B "%!" ++ encode_rune r ++ B "(MISSING)" ++ o)
| printed_unfinished m : modifiers m -> printed (B "%" ++ m) (B "%!(NOVERB)").

(* ---- C47, C48 ---- *)
Definition era_text (dir off start fin name fmt : bytes) : bytes :=
  dir ++ B ":" ++ off ++ B ":" ++ start ++ B ":" ++ fin ++ B ":" ++ name ++ B ":" ++ fmt.
Definition no_colon (s : bytes) : Prop := ~ In ":"%char s.
Definition int_text (s : bytes) (z : Z) : Prop := numeral s z /\ (min_int64 <= z <= max_int64)%Z.

(* ---- C49: the parts of a locale definition, as runes ---- *)
Inductive item :=
| Comment (text : list N)
| EscapeDir (sp word sp2 : list N)
| CommentDir (sp word sp2 : list N)
| Line (first : list N) (more : list (list N * list N * list N)).  (* continuation lines: space, text, space *)

Definition w_escape : list N := map N_of_ascii (B "escape_char").
Definition w_comment : list N := map N_of_ascii (B "comment_char").
Fixpoint continuation (ec : N) (more : list (list N * list N * list N)) : list (list N) :=
  match more with
  | [] => []
  | [(a, t, b)] => [a ++ t ++ b]
  | (a, t, b) :: m => (a ++ t ++ [ec] ++ b) :: continuation ec m
  end.
(* the text lines making up an item, when cc is the comment character and ec the escape character *)
Definition item_lines (cc ec : N) (i : item) : list (list N) :=
  match i with
  | Comment t => [cc :: t]
  | EscapeDir a w b => [w_escape ++ a ++ w ++ b]
  | CommentDir a w b => [w_comment ++ a ++ w ++ b]
  | Line first [] => [first]
  | Line first more => (first ++ [ec]) :: continuation ec more
  end.
(* characters in force after it *)
Definition next_cc (cc : N) (i : item) : N := match i with CommentDir _ w _ => hd 0%N w | _ => cc end.
Definition next_ec (ec : N) (i : item) : N := match i with EscapeDir _ w _ => hd 0%N w | _ => ec end.
Definition texts (more : list (list N * list N * list N)) : list N := concat (map (fun '(_, t, _) => t) more).
(* the logical lines that should be left *)
Definition item_output (i : item) : list (list N) :=
  match i with Line first more => [first ++ texts more] | CommentDir _ _ _ => [] | _ => [] end.
(* ... and those that are left: comment_char directives stay *)
Definition item_actual (i : item) : list (list N) :=
  match i with CommentDir a w b => [w_comment ++ a ++ w ++ b] | _ => item_output i end.

Definition space (r : N) : Prop := is_space_rune r = true.
Definition text_rune (r : N) : Prop := valid_rune r /\ r <> rune_error /\ r <> 10%N.
Definition trimmed (t : list N) : Prop :=
  match t with [] => True | r :: _ => ~ space r /\ ~ space (last t 0%N) end.
Definition ends_with (r : N) (l : list N) : Prop := exists l', l = l' ++ [r].
Definition begins_with (w l : list N) : Prop := exists l', l = w ++ l'.
Definition directive_ok (sp word sp2 : list N) : Prop :=
  sp <> [] /\ Forall space sp /\ Forall space sp2 /\ word <> [] /\ Forall (fun r => ~ space r) word.
(* two words, of which the first begins with w: what counts as a directive *)
Definition directive_line (w l : list N) : Prop :=
  exists rest a u b, l = w ++ rest ++ a ++ u ++ b /\ Forall (fun r => ~ space r) rest /\ directive_ok a u b.
(* the item stands for the lines it is written as *)
Definition item_ok (cc ec : N) (i : item) : Prop :=
  Forall (Forall text_rune) (item_lines cc ec i) /\
  match i with
  | Comment _ => True
  | EscapeDir a w b => directive_ok a w b /\ cc <> 101%N
  | CommentDir a w b => directive_ok a w b /\ cc <> 99%N /\ ~ ends_with ec (w ++ b)
  | Line first more =>
      let l := first ++ (if more then [] else [ec]) in
      hd rune_error l <> cc /\ ~ directive_line w_escape l /\ ~ directive_line w_comment l /\
      ~ ends_with ec (first ++ texts more) /\
      Forall (fun '(a, t, b) => Forall space a /\ Forall space b) more /\
      Forall (fun '(_, t, _) => trimmed (t ++ [ec])) (removelast more) /\
      match last more ([], [], []) with (_, t, _) => trimmed t end
  end.
Fixpoint items_ok (cc ec : N) (l : list item) : Prop :=
  match l with [] => True | i :: t => item_ok cc ec i /\ items_ok (next_cc cc i) (next_ec ec i) t end.
Fixpoint items_lines (cc ec : N) (l : list item) : list (list N) :=
  match l with [] => [] | i :: t => item_lines cc ec i ++ items_lines (next_cc cc i) (next_ec ec i) t end.
Definition as_text (lines : list (list N)) : bytes := join [nl] (map string_of_runes lines).
Definition terminated (lines : list (list N)) : bytes := flat_map (fun l => string_of_runes l ++ [nl]) lines.
Definition last_cc (cc : N) (l : list item) : N := fold_left next_cc l cc.
Definition last_ec (ec : N) (l : list item) : N := fold_left next_ec l ec.
