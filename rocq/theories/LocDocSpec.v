(* Locale definitions as text: what a well-formed one looks like and what it says.  Independent of the lexer and the
   parser.  The forms are those of the LC_ categories in POSIX's localedef source that this code supports. *)
From Verif Require Import GoBase Utf8Facts.
Local Open Scope Z_scope.

(* ---- the text between quotes ---- *)
Inductive glyph :=
| Single (r : N)                                  (* a character as it is *)
| Escaped (c : ascii)                             (* \c *)
| Octal (a b c : ascii)                           (* \abc *)
| Decimal (a b : ascii) (c : option ascii)        (* \dab or \dabc *)
| Hex (a b : ascii).                              (* \xab *)
Definition write_glyph (g : glyph) : bytes :=
  match g with
  | Single r => encode_rune r
  | Escaped c => ["\"%char; c]
  | Octal a b c => ["\"%char; a; b; c]
  | Decimal a b c => "\"%char :: "d"%char :: a :: b :: match c with Some x => [x] | None => [] end
  | Hex a b => ["\"%char; "x"%char; a; b]
  end.
Definition written (s : list glyph) : bytes := flat_map write_glyph s.

(* the byte or the character it stands for *)
Definition digit_value (c : ascii) : N :=
  let n := byte_val c in (if n <? 58 then n - 48 else if n <? 71 then n - 55 else n - 87)%N.
Definition number_in (base : N) (ds : list ascii) : N := fold_left (fun n c => (n * base + digit_value c)%N) ds 0%N.
Definition meaning (g : glyph) : bytes :=
  match g with
  | Single r => encode_rune r
  | Escaped c => [c]
  | Octal a b c => [ascii_of_N (number_in 8 [a; b; c])]
  | Decimal a b c => [ascii_of_N (number_in 10 (a :: b :: match c with Some x => [x] | None => [] end))]
  | Hex a b => [ascii_of_N (number_in 16 [a; b])]
  end.
Definition meant (s : list glyph) : bytes := flat_map meaning s.

(* well formed.  Escapes begin with a backslash, whatever escape_char says; esc is the character it names (the backslash
   if there is no such line): that one may be escaped, besides , ; < and > *)
Definition octal_digit (c : ascii) : Prop := In c (B "01234567").
Definition decimal_digit (c : ascii) : Prop := In c (B "0123456789").
Definition hex_digit (c : ascii) : Prop := In c (B "0123456789ABCDEFabcdef").
Definition glyph_ok (esc : N) (g : glyph) : Prop :=
  match g with
  | Single r => valid_rune r /\ r <> 34%N /\ r <> 10%N /\ r <> 92%N
  | Escaped c => (In c (B ",;<>") \/ byte_val c = esc) /\ (byte_val c < 128)%N /\ c <> nl
  | Octal a b c => octal_digit a /\ octal_digit b /\ octal_digit c /\ byte_val a <> esc
  | Decimal a b c => decimal_digit a /\ decimal_digit b /\ (forall x, c = Some x -> decimal_digit x) /\ esc <> 100%N
  | Hex a b => hex_digit a /\ hex_digit b /\ esc <> 120%N
  end.
(* no digit after a decimal escape of two digits: it would be its third *)
Definition clear_of (g : glyph) (s : list glyph) : Prop :=
  match g, s with
  | Decimal _ _ None, Single r :: _ => ~ (48 <= r <= 57)%N
  | _, _ => True
  end.
Fixpoint apart (s : list glyph) : Prop :=
  match s with
  | g :: s' => clear_of g s' /\ apart s'
  | [] => True
  end.
Definition text_ok (esc : N) (s : list glyph) : Prop := Forall (glyph_ok esc) s /\ apart s.

(* ---- values ---- *)
Inductive value :=
| Text (s : list glyph)                   (* "s" *)
| Texts (l : list (list glyph))           (* "s";"s" *)
| Number (z : Z)                          (* 2 *)
| Numbers (l : list Z)                    (* 3;2 *)
| Chars (l : list bytes)                  (* <A>;<B> *)
| Pairs (l : list (bytes * bytes))        (* (<a>,<A>);(<b>,<B>) *)
| Regexp (s : bytes).                     (* "s" *)

Definition in_quotes (s : bytes) : bytes := """"%char :: s ++ [""""%char].
Definition bracketed (n : bytes) : bytes := "<"%char :: n ++ [">"%char].
Definition pair_text (p : bytes * bytes) : bytes := "("%char :: bracketed (fst p) ++ ","%char :: bracketed (snd p) ++ [")"%char].
Definition write_value (v : value) : bytes :=
  match v with
  | Text s => in_quotes (written s)
  | Texts l => join (B ";") (map (fun s => in_quotes (written s)) l)
  | Regexp s => in_quotes s
  | Number z => itoa z
  | Numbers l => join (B ";") (map itoa l)
  | Chars l => join (B ";") (map bracketed l)
  | Pairs l => join (B ";") (map pair_text l)
  end.

(* characters other than a quote, a newline and a backslash *)
Definition plain_text (s : bytes) : Prop :=
  exists rs, s = string_of_runes rs /\ Forall (fun r => valid_rune r /\ r <> 34%N /\ r <> 10%N /\ r <> 92%N) rs.
Definition int64 (z : Z) : Prop := min_int64 <= z <= max_int64.
Definition symbol_name (n : bytes) : Prop :=
  Forall (fun c => In c (B "ABCDEFGHIJKLMNOPQRSTUVWXYZabcdefghijklmnopqrstuvwxyz0123456789_-")) n.

(* ---- categories and their keywords ---- *)
Inductive lc := Ctype | Monetary | Numeric | Time | Messages.
Definition lc_name (c : lc) : bytes :=
  match c with
  | Ctype => B "LC_CTYPE" | Monetary => B "LC_MONETARY" | Numeric => B "LC_NUMERIC" | Time => B "LC_TIME"
  | Messages => B "LC_MESSAGES"
  end.

Inductive shape := a_text | a_full_text | full_texts | a_number | some_numbers | some_symbols | some_pairs | a_regexp.
Definition keywords : list (lc * shape * list bytes) := [
  (Ctype, some_symbols, [B "upper"; B "lower"; B "alpha"; B "digit"; B "alnum"; B "space"; B "cntrl"; B "punct"; B "graph";
     B "print"; B "xdigit"; B "blank"]);
  (Ctype, some_pairs, [B "toupper"; B "tolower"]);
  (Monetary, a_text, [B "int_curr_symbol"; B "currency_symbol"; B "mon_decimal_point"; B "mon_thousands_sep";
     B "positive_sign"; B "negative_sign"]);
  (Monetary, some_numbers, [B "mon_grouping"]);
  (Monetary, a_number, [B "int_frac_digits"; B "frac_digits"; B "p_cs_precedes"; B "p_sep_by_space"; B "n_cs_precedes";
     B "n_sep_by_space"; B "p_sign_posn"; B "n_sign_posn"; B "int_p_cs_precedes"; B "int_p_sep_by_space";
     B "int_n_cs_precedes"; B "int_n_sep_by_space"; B "int_p_sign_posn"; B "int_n_sign_posn"]);
  (Numeric, a_text, [B "decimal_point"; B "thousands_sep"]);
  (Numeric, a_number, [B "grouping"]);
  (Time, full_texts, [B "abday"; B "day"; B "abmon"; B "mon"; B "am_pm"; B "era"; B "alt_digits"]);
  (Time, a_full_text, [B "d_t_fmt"; B "d_fmt"; B "t_fmt"; B "t_fmt_ampm"; B "era_d_fmt"; B "era_t_fmt"; B "era_d_t_fmt"]);
  (Messages, a_regexp, [B "yesexpr"; B "noexpr"])].

Definition fits (esc : N) (sh : shape) (v : value) : Prop :=
  match sh, v with
  | a_text, Text s => text_ok esc s
  | a_full_text, Text s => text_ok esc s /\ s <> []
  | full_texts, Texts l => l <> [] /\ Forall (fun s => text_ok esc s /\ s <> []) l
  | a_number, Number z => int64 z
  | some_numbers, Numbers l => l <> [] /\ Forall int64 l
  | some_symbols, Chars l => l <> [] /\ Forall symbol_name l
  | some_pairs, Pairs l => l <> [] /\ Forall (fun p => symbol_name (fst p) /\ symbol_name (snd p)) l
  | a_regexp, Regexp s => ~ In """"%char s /\ ~ In nl s
  | _, _ => False
  end.

(* ---- entries, categories, definitions ---- *)
Record entry := { e_key : bytes; e_gap : bytes; e_value : value }.
Definition write_entry (e : entry) : bytes := e_key e ++ e_gap e ++ write_value (e_value e).
Definition blanks (s : bytes) : Prop := s <> [] /\ Forall (fun c => c = " "%char \/ c = tab) s.
Definition entry_ok (esc : N) (c : lc) (e : entry) : Prop :=
  blanks (e_gap e) /\ exists sh ks, In (c, sh, ks) keywords /\ In (e_key e) ks /\ fits esc sh (e_value e).

Inductive part :=
| Category (c : lc) (entries : list entry)
| Collation (direction : option (bytes * bytes)) (order : list bytes).   (* the direction: blanks and a word *)
Definition part_lines (p : part) : list bytes :=
  match p with
  | Category c entries => lc_name c :: map write_entry entries ++ [B "END " ++ lc_name c]
  | Collation dir order =>
      B "LC_COLLATE" :: (B "order_start" ++ match dir with Some (g, w) => g ++ w | None => [] end) :: map bracketed order
      ++ [B "order_end"; B "END LC_COLLATE"]
  end.
Definition part_ok (esc : N) (p : part) : Prop :=
  match p with
  | Category c entries => entries <> [] /\ Forall (entry_ok esc c) entries
  | Collation dir order =>
      match dir with Some (g, w) => blanks g /\ In w [B "forward"; B "backward"; B "position"] | None => True end /\
      order <> [] /\ Forall symbol_name order
  end.

(* ---- files: the lines of the parts with comment lines and empty lines ---- *)
Definition comment (l : bytes) : Prop := exists s, l = "#"%char :: s /\ ~ In nl s.
Inductive after : list bytes -> list bytes -> Prop :=
| after_end : after [] []
| after_line : forall l ls f, after ls f -> after (l :: ls) (l :: f)
| after_blank : forall ls f, after ls f -> after ls ([] :: f)
| after_comment : forall c ls f, comment c -> after ls f -> after ls (c :: f).
(* no empty line before the first category *)
Definition laid_out (ls file : list bytes) : Prop :=
  exists cs l ls' f, ls = l :: ls' /\ Forall comment cs /\ file = cs ++ l :: f /\ after ls' f.
Definition file_text (file : list bytes) : bytes := flat_map (fun l => l ++ [nl]) file.

Definition definition_of (doc : list part) (text : bytes) : Prop :=
  Forall (part_ok 92) doc /\ exists file, laid_out (flat_map part_lines doc) file /\ text = file_text file.

(* ---- what it says ---- *)
Definition entries_of (p : part) : list entry := match p with Category Monetary l => l | _ => [] end.
Definition texts_of (k : bytes) (doc : list part) : list (list glyph) :=
  flat_map (fun e => match e_value e with Text s => if beqb (e_key e) k then [s] else [] | _ => [] end)
    (flat_map entries_of doc).
Definition numbers_of (k : bytes) (doc : list part) : list (list Z) :=
  flat_map (fun e => match e_value e with Numbers l => if beqb (e_key e) k then [l] else [] | _ => [] end)
    (flat_map entries_of doc).
