(* Model of the lexer of locale definitions: pkg/locale/localelex.go, on top of github.com/bbuck/go-lexer (the version
   go.mod names, v0.0.0-20150530; its source is not in the repository and is modelled from memory: lexer.go and
   rune_stack.go).

   A go-lexer keeps the source, the position where the current token starts and the position reached.  Here [cur] is the
   text between the two, reversed, and [rest] the text after them: the library never moves before the start of the
   current token.  The token channel is the list of the tokens sent.  Loops take fuel; running out of it is a result of
   its own.  The rune -1 (lexer.EOFRune) is None. *)
From Verif Require Import GoBase LocYaccModel LocaleModel.
Local Open Scope Z_scope.

(* ---- go-lexer ---- *)

(* lexer.L *)
Record lx := {
  cur : bytes;               (* source[start:position], reversed *)
  rest : bytes;              (* source[position:] *)
  rew : list (option N);     (* the stack of runes read since the last Emit *)
  sent : list token          (* the tokens sent, the last one first *)
}.

(* lexer.Next *)
Definition next (s : lx) : option N * lx :=
  match rest s with
  | [] => (None, {| cur := cur s; rest := []; rew := None :: rew s; sent := sent s |})
  | _ :: _ =>
      let '(r, n) := decode_rune (rest s) in
      (Some r, {| cur := rev (firstn n (rest s)) ++ cur s; rest := skipn n (rest s); rew := Some r :: rew s; sent := sent s |})
  end.

(* lexer.Rewind: back by the length of the rune's encoding (3 for the rune of an invalid byte), but not before the start *)
Definition rewind (s : lx) : lx :=
  match rew s with
  | Some r :: w =>
      let n := List.length (encode_rune r) in
      {| cur := skipn n (cur s); rest := rev (firstn n (cur s)) ++ rest s; rew := w; sent := sent s |}
  | None :: w => {| cur := cur s; rest := rest s; rew := w; sent := sent s |}
  | [] => s
  end.

(* lexer.Peek *)
Definition peek (s : lx) : option N * lx := let '(r, s1) := next s in (r, rewind s1).

(* lexer.Current *)
Definition current (s : lx) : bytes := rev (cur s).

(* lexer.Emit *)
Definition emit (t : Z) (s : lx) : lx :=
  {| cur := []; rest := rest s; rew := []; sent := {| t_type := t; t_value := current s |} :: sent s |}.

(* strings.ContainsRune of an ASCII string *)
Definition has (chars : bytes) (r : option N) : bool :=
  match r with
  | Some n => existsb (fun c => N.eqb (byte_val c) n) chars
  | None => false
  end.

(* lexer.Take; every round reads at least one byte, so |rest| + 1 rounds are enough *)
Fixpoint take_from (fuel : nat) (chars : bytes) (s : lx) : lx :=
  let '(r, s1) := next s in
  match fuel with
  | O => rewind s1
  | S f => if has chars r then take_from f chars s1 else rewind s1
  end.
Definition take (chars : bytes) (s : lx) : lx := take_from (S (List.length (rest s))) chars s.

(* How a piece of the lexer ends.  Panicked: lexer.Error with no ErrorHandler set (none ever is). *)
Inductive lres (A : Type) := Done (a : A) (s : lx) | Panicked (s : lx) | Unfinished (s : lx).
Arguments Done {A}. Arguments Panicked {A}. Arguments Unfinished {A}.
Definition bind {A C} (m : lres A) (f : A -> lx -> lres C) : lres C :=
  match m with
  | Done a s => f a s
  | Panicked s => Panicked s
  | Unfinished s => Unfinished s
  end.

(* ---- localelex.go ---- *)

(* localelex.go:14-18 *)
Definition upperChars : bytes := B "ABCDEFGHIJKLMNOPQRSTUVWXYZ_".
Definition lowerChars : bytes := B "abcdefghijklmnopqrstuvwxyz_".
Definition digits : bytes := B "0123456789".
Definition whiteSpace : bytes := [" "%char; tab].
Definition newLine : bytes := [nl; cr].

(* token types (y.go:60-149) *)
Definition CHAR : Z := 57347.
Definition NUMBER : Z := 57348.
Definition CHARSYMBOL : Z := 57351.
Definition OCTAL_CHAR : Z := 57352.
Definition HEX_CHAR : Z := 57353.
Definition DECIMAL_CHAR : Z := 57354.
Definition EXTENDED_REG_EXP : Z := 57357.
Definition EOL : Z := 57358.
Definition LC_CTYPE_STR : Z := 57362.
Definition LC_COLLATE_STR : Z := 57378.
Definition COLLATING_SYMBOL_STR : Z := 57379.
Definition COLLATING_ELEMENT_STR : Z := 57380.
Definition ORDER_START_STR : Z := 57381.
Definition FORWARD_STR : Z := 57382.
Definition BACKWARD_STR : Z := 57383.
Definition POSITION_STR : Z := 57384.
Definition END_STR : Z := 57387.
Definition LC_TIME_STR : Z := 57388.
Definition LC_NUMERIC_STR : Z := 57403.
Definition LC_MONETARY_STR : Z := 57406.
Definition LC_MESSAGES_STR : Z := 57427.
Definition FROM_STR : Z := 57430.
Definition ORDER_END_STR : Z := 57431.
Definition TWO_DOUBLE_QUOTE_STR : Z := 57435.
Definition DQUOTE : Z := 34.
Definition SEMI : Z := 59.

(* the rune is the ASCII character c *)
Definition at_char (c : ascii) (r : option N) : bool := has [c] r.

(* localelex.go:178-185 *)
Definition grabWhitespace (s : lx) : lres bool :=
  let s := take whiteSpace s in
  if beqb (current s) [] then Done false s else Done true (emit WHITESPACE s).

(* localelex.go:186-193 *)
Definition grabNewline (s : lx) : lres bool :=
  let s := take newLine s in
  if beqb (current s) [] then Done false s else Done true (emit EOL s).

(* localelex.go:199-203: as many Rewinds as there are runes in Current() *)
Fixpoint rewinds (n : nat) (s : lx) : lx := match n with O => s | S k => rewinds k (rewind s) end.

(* localelex.go:194-208 *)
Definition grabChar (s : lx) : lres bool :=
  let '(r, s) := next s in
  if negb (at_char "<" r) then Done false (rewind s)
  else
    let s := take (upperChars ++ lowerChars ++ B "-" ++ B "_" ++ digits) s in
    let '(r, s) := next s in
    if negb (at_char ">" r) then Done false (rewinds (List.length (runes_of (current s))) s)
    else Done true (emit CHARSYMBOL s).

(* localelex.go:210-220, 247-258, 260-271 and 354-365: items with semicolons between them *)
Fixpoint grabList (fuel : nat) (grab : lx -> lres bool) (ok : bool) (s : lx) : lres bool :=
  match fuel with
  | O => Unfinished s
  | S f =>
      bind (grab s) (fun b s =>
        if b then
          let '(r, s) := next s in
          if at_char ";" r then grabList f grab true (emit SEMI s) else Done true (rewind s)
        else Done ok s)
  end.

(* localelex.go:222-246 *)
Definition grabCharPair (s : lx) : lres bool :=
  let '(r, s) := next s in
  if negb (at_char "(" r) then Done false (rewind s)
  else
    bind (grabChar (emit 40 s)) (fun b s =>
      if negb b then Done false s
      else
        let '(r, s) := next s in
        if negb (at_char "," r) then Done false (rewind s)
        else
          bind (grabChar (emit 44 s)) (fun b s =>
            if negb b then Done false s
            else
              let '(r, s) := next s in
              if negb (at_char ")" r) then Done false (rewind s) else Done true (emit 41 s))).

(* localelex.go:272-284 *)
Definition grabInt (s : lx) : lres bool :=
  let s := take (B "-1234567890") s in
  let n := current s in
  if beqb n [] then Done false s
  else if beqb n (B "-") || ((2 <? List.length n)%nat && existsb (Ascii.eqb "-") (tl n)) then Panicked s
  else Done true (emit NUMBER s).

(* localelex.go:287-315; esc is the package variable escapeChar.  Its result is not used. *)
Definition grabEscapeInString (esc : N) (s : lx) : lres bool :=
  let '(r, s) := next s in
  if has (B ",;<>") r || match r with Some n => N.eqb n esc | None => false end then Done true (emit CHAR s)
  else if has digits r then Done true (emit OCTAL_CHAR (snd (next (snd (next s)))))
  else if at_char "d" r then
    let '(r, s) := next (snd (next (snd (next s)))) in
    Done true (emit DECIMAL_CHAR (if has digits r then s else rewind s))
  else if at_char "x" r then Done true (emit HEX_CHAR (snd (next (snd (next s)))))
  else Panicked s.

(* localelex.go:330-352: the loop *)
Fixpoint string_loop (fuel : nat) (esc : N) (escapeNext : bool) (s : lx) : lres bool :=
  match fuel with
  | O => Unfinished s
  | S f =>
      let '(r, s) := next s in
      if escapeNext then bind (grabEscapeInString esc (rewind s)) (fun _ s => string_loop f esc false s)
      else if at_char """" r then Done true (emit DQUOTE s)
      else if at_char nl r then Panicked s
      else if at_char "\" r then string_loop f esc true s
      else string_loop f esc false (emit CHAR s)
  end.

(* localelex.go:317-353 *)
Definition grabString (fuel : nat) (esc : N) (s : lx) : lres bool :=
  let '(r, s) := peek s in
  if negb (at_char """" r) then Done false s
  else
    let s := snd (next s) in
    let '(r, s) := peek s in
    if at_char """" r then Done true (emit TWO_DOUBLE_QUOTE_STR (snd (next s)))
    else string_loop fuel esc false (emit DQUOTE s).

(* localelex.go:371-373: read until a double quote *)
Fixpoint to_quote (fuel : nat) (s : lx) : lres unit :=
  match fuel with
  | O => Unfinished s
  | S f => let '(r, s) := next s in if at_char """" r then Done tt s else to_quote f s
  end.

(* localelex.go:366-379 *)
Definition grabMsg (fuel : nat) (s : lx) : lres bool :=
  let '(r, s) := next s in
  if negb (at_char """" r) then Done false (rewind s)
  else
    bind (to_quote fuel (emit DQUOTE s)) (fun _ s =>
      let s := emit EXTENDED_REG_EXP (rewind s) in
      Done true (emit DQUOTE (snd (next s)))).

(* localelex.go:171-176 *)
Definition must (m : lres bool) : lres unit :=
  bind m (fun b s => if b then Done tt s else Panicked s).

(* the grab functions a keyword can have (localelex.go:20-23); grabCharList, grabCharPairList, grabIntList and
   grabStringList (localelex.go:210-220, 247-258, 260-270, 354-365) are the same loop over their items *)
Inductive grabber := GCharList | GCharPairList | GIntList | GInt | GString | GStringList | GMsg.
Definition grab (fuel : nat) (esc : N) (g : grabber) (s : lx) : lres bool :=
  match g with
  | GCharList => grabList fuel grabChar false s
  | GCharPairList => grabList fuel grabCharPair false s
  | GIntList => grabList fuel grabInt false s
  | GInt => grabInt s
  | GString => grabString fuel esc s
  | GStringList => grabList fuel (grabString fuel esc) false s
  | GMsg => grabMsg fuel s
  end.

(* localelex.go:27-43 *)
Definition ctypeMap : list (bytes * (Z * grabber)) := [
  (B "upper", (57364, GCharList)); (B "lower", (57365, GCharList)); (B "alpha", (57366, GCharList));
  (B "digit", (57367, GCharList)); (B "alnum", (57375, GCharList)); (B "space", (57370, GCharList));
  (B "cntrl", (57374, GCharList)); (B "punct", (57368, GCharList)); (B "graph", (57372, GCharList));
  (B "print", (57371, GCharList)); (B "xdigit", (57369, GCharList)); (B "blank", (57373, GCharList));
  (B "charclass", (57363, GStringList)); (B "toupper", (57376, GCharPairList)); (B "tolower", (57377, GCharPairList))].
(* localelex.go:46-61 *)
Definition timeMap : list (bytes * (Z * grabber)) := [
  (B "abday", (57399, GStringList)); (B "day", (57400, GStringList)); (B "abmon", (57401, GStringList));
  (B "mon", (57402, GStringList)); (B "d_t_fmt", (57395, GString)); (B "d_fmt", (57396, GString));
  (B "t_fmt", (57397, GString)); (B "am_pm", (57394, GStringList)); (B "t_fmt_ampm", (57398, GString));
  (B "era", (57389, GStringList)); (B "era_d_fmt", (57390, GString)); (B "era_t_fmt", (57391, GString));
  (B "era_d_t_fmt", (57393, GString)); (B "alt_digits", (57392, GStringList))].
(* localelex.go:64-68 *)
Definition numericMap : list (bytes * (Z * grabber)) := [
  (B "decimal_point", (57404, GString)); (B "thousands_sep", (57405, GString)); (B "grouping", (57433, GInt))].
(* localelex.go:71-93 *)
Definition monetaryMap : list (bytes * (Z * grabber)) := [
  (B "int_curr_symbol", (57424, GString)); (B "currency_symbol", (57425, GString));
  (B "mon_decimal_point", (57423, GString)); (B "mon_thousands_sep", (57426, GString));
  (B "mon_grouping", (57432, GIntList)); (B "positive_sign", (57422, GString)); (B "negative_sign", (57421, GString));
  (B "int_frac_digits", (57413, GInt)); (B "frac_digits", (57414, GInt)); (B "p_cs_precedes", (57412, GInt));
  (B "p_sep_by_space", (57415, GInt)); (B "n_cs_precedes", (57411, GInt)); (B "n_sep_by_space", (57416, GInt));
  (B "p_sign_posn", (57410, GInt)); (B "n_sign_posn", (57417, GInt)); (B "int_p_cs_precedes", (57409, GInt));
  (B "int_p_sep_by_space", (57418, GInt)); (B "int_n_cs_precedes", (57408, GInt));
  (B "int_n_sep_by_space", (57419, GInt)); (B "int_p_sign_posn", (57407, GInt)); (B "int_n_sign_posn", (57420, GInt))].
(* localelex.go:96-99 *)
Definition msgMap : list (bytes * (Z * grabber)) := [(B "yesexpr", (57429, GMsg)); (B "noexpr", (57428, GMsg))].

(* a map lookup *)
Fixpoint look_up {A} (k : bytes) (m : list (bytes * A)) : option A :=
  match m with
  | [] => None
  | (x, v) :: m' => if beqb k x then Some v else look_up k m'
  end.

(* the arguments getsGenericCategory is called with (localelex.go:138-156) *)
Record category := { c_name : bytes; c_tok : Z; c_defs : list (bytes * (Z * grabber)) }.
Definition categories : list category := [
  {| c_name := B "LC_CTYPE"; c_tok := LC_CTYPE_STR; c_defs := ctypeMap |};
  {| c_name := B "LC_MONETARY"; c_tok := LC_MONETARY_STR; c_defs := monetaryMap |};
  {| c_name := B "LC_NUMERIC"; c_tok := LC_NUMERIC_STR; c_defs := numericMap |};
  {| c_name := B "LC_TIME"; c_tok := LC_TIME_STR; c_defs := timeMap |};
  {| c_name := B "LC_MESSAGES"; c_tok := LC_MESSAGES_STR; c_defs := msgMap |}].

(* the state functions: sInit, sCategory, the closure of getsGenericCategory, sCollateCategory, sCollateOrderStart,
   sCollateOrder *)
Inductive lstate := SInit | SCategory | SGeneric (c : category) | SCollate | SOrderStart | SOrder.

(* localelex.go:131-164 *)
Definition sCategory (s : lx) : lres (option lstate) :=
  let s := take (upperChars ++ B "_") s in
  let header := current s in
  let found :=
    if beqb header (B "LC_COLLATE") then Some (LC_COLLATE_STR, SCollate)
    else option_map (fun c => (c_tok c, SGeneric c)) (find (fun c => beqb header (c_name c)) categories) in
  match found with
  | None => Done None s
  | Some (typ, st) => bind (must (grabNewline (take whiteSpace (emit typ s)))) (fun _ s => Done (Some st) s)
  end.

(* localelex.go:455-487 *)
Definition sGeneric (fuel : nat) (esc : N) (c : category) (s : lx) : lres (option lstate) :=
  bind (grabWhitespace s) (fun _ s =>
  let s := take (upperChars ++ lowerChars ++ B "_") s in
  let word := current s in
  if beqb word (B "END") then
    bind (must (grabWhitespace (emit END_STR s))) (fun _ s =>
    let s := take upperChars s in
    if negb (beqb (current s) (c_name c)) then Panicked s
    else
      bind (grabWhitespace (emit (c_tok c) s)) (fun _ s =>
      bind (must (grabNewline s)) (fun _ s => Done (Some SCategory) s)))
  else
    match look_up word (c_defs c) with
    | Some (typ, g) =>
        bind (must (grabWhitespace (emit typ s))) (fun _ s =>
        bind (must (grab fuel esc g s)) (fun _ s =>
        bind (must (grabNewline s)) (fun _ s => Done (Some (SGeneric c)) s)))
    | None => Panicked s
    end).

(* localelex.go:381-422 *)
Definition sCollate (fuel : nat) (esc : N) (s : lx) : lres (option lstate) :=
  bind (grabWhitespace s) (fun _ s =>
  let s := take (upperChars ++ lowerChars ++ B "_") s in
  let word := current s in
  if beqb word (B "END") then
    bind (must (grabWhitespace (emit END_STR s))) (fun _ s =>
    let s := take upperChars s in
    if negb (beqb (current s) (B "LC_COLLATE")) then Panicked s
    else bind (grabNewline (emit LC_COLLATE_STR s)) (fun _ s => Done (Some SCategory) s))
  else if beqb word (B "order_start") then Done (Some SOrderStart) (emit ORDER_START_STR s)
  else if beqb word (B "collating-element") then
    bind (must (grabWhitespace (emit COLLATING_ELEMENT_STR s))) (fun _ s =>
    bind (must (grabChar s)) (fun _ s =>
    bind (must (grabWhitespace s)) (fun _ s =>
    let s := take (B "from") s in
    if negb (beqb (current s) (B "from")) then Panicked s
    else
      bind (must (grabWhitespace (emit FROM_STR s))) (fun _ s =>
      bind (must (grabString fuel esc s)) (fun _ s =>
      bind (grabWhitespace s) (fun _ s =>
      bind (must (grabNewline s)) (fun _ s => Done (Some SCollate) s)))))))
  else if beqb word (B "collating-symbol") then
    bind (must (grabWhitespace (emit COLLATING_SYMBOL_STR s))) (fun _ s =>
    bind (must (grabString fuel esc s)) (fun _ s =>
    bind (grabWhitespace s) (fun _ s =>
    bind (must (grabNewline s)) (fun _ s => Done (Some SCollate) s))))
  else Done (Some SCollate) s).

(* localelex.go:424-439 *)
Definition sOrderStart (s : lx) : lres (option lstate) :=
  bind (grabWhitespace s) (fun _ s =>
  let s := take lowerChars s in
  let word := current s in
  if beqb word [] then bind (must (grabNewline s)) (fun _ s => Done (Some SOrder) s)
  else if beqb word (B "forward") then Done (Some SOrderStart) (emit FORWARD_STR s)
  else if beqb word (B "backward") then Done (Some SOrderStart) (emit BACKWARD_STR s)
  else if beqb word (B "position") then Done (Some SOrderStart) (emit POSITION_STR s)
  else Done (Some SOrderStart) s).

(* localelex.go:441-453 *)
Definition sOrder (s : lx) : lres (option lstate) :=
  bind (grabChar s) (fun b s =>
  if negb b then
    let s := take lowerChars s in
    if negb (beqb (current s) (B "order_end")) then Panicked s
    else bind (must (grabNewline (emit ORDER_END_STR s))) (fun _ s => Done (Some SCollate) s)
  else bind (must (grabNewline s)) (fun _ s => Done (Some SOrder) s)).

(* one state function; localelex.go:126-129 is sInit *)
Definition call (fuel : nat) (esc : N) (st : lstate) (s : lx) : lres (option lstate) :=
  match st with
  | SInit => Done (Some SCategory) s
  | SCategory => sCategory s
  | SGeneric c => sGeneric fuel esc c s
  | SCollate => sCollate fuel esc s
  | SOrderStart => sOrderStart s
  | SOrder => sOrder s
  end.

(* lexer.run: the channel is closed when a state function returns nil.  fuel bounds both the number of calls and the
   rounds of each loop within a call. *)
Fixpoint lex_run (k fuel : nat) (esc : N) (st : lstate) (s : lx) : lres unit :=
  match k with
  | O => Unfinished s
  | S k' =>
      bind (call fuel esc st s) (fun o s =>
        match o with
        | None => Done tt s
        | Some st' => lex_run k' fuel esc st' s
        end)
  end.
Definition lex (fuel : nat) (esc : N) (source : bytes) : lres unit :=
  lex_run fuel fuel esc SInit {| cur := []; rest := source; rew := []; sent := [] |}.

(* the tokens sent, in order *)
Definition tokens_of {A} (r : lres A) : list token :=
  match r with Done _ s | Panicked s | Unfinished s => rev (sent s) end.

(* What NewLexer (localelex.go:544-552) followed by yyParse does to the package variable def.  The lexer runs in its own
   goroutine; a panic in either ends the program.  The parser takes tokens in the order sent and returns successfully
   only when the channel is closed, so the interleaving does not matter for how things end. *)
Inductive verdict :=
| Accepted (d : definition)
| Crashed                     (* a panic: NewLexer's, the lexer's or the parser's *)
| Refused (n : Z)             (* Parse returns n <> 0 *)
| StillRunning.               (* not decided within the fuel *)
Definition parse_text (fuel : nat) (d : definition) (input : bytes) : verdict :=
  match removeComments input with
  | Ok (source, esc) =>
      let r := lex fuel esc source in
      match r with
      | Panicked _ => Crashed
      | Done _ _ =>
          match yyParse fuel true d (tokens_of r) with
          | Some (Returns n, d') => if n =? 0 then Accepted d' else Refused n
          | Some (Waits, _) | None => StillRunning
          | Some _ => Crashed
          end
      | Unfinished _ =>
          match yyParse fuel false d (tokens_of r) with
          | Some (Returns n, d') => if n =? 0 then Accepted d' else Refused n
          | Some (Waits, _) | None => StillRunning
          | Some _ => Crashed
          end
      end
  | _ => Crashed
  end.
