(* Model of pkg/ed/ed.peg.go: the generated parser and Execute, and of the way ProcessCommands
   (pkg/ed/ed.go) cuts its input into commands.
   The generated rules are closures over a position and a token index, both restored when a rule fails.
   Here a rule is an expression, and matching one gives the new position and the tokens it added.  No rule
   of the grammar refers to itself, directly or not, so each rule is a definition using the earlier ones.
   Simplified: only the tokens Execute looks at (captured text and actions) are kept, and so the text of a
   syntax error, which mentions the longest token, is a parameter of the input loop. *)
From Verif Require Import GoBase EdModel.
Local Open Scope nat_scope.

(* ---- the expressions of the generator ---- *)
Inductive pexp :=
| PChr (c : N)                 (* ed.peg.go:831: if buffer[position] != rune(c) { goto fail }; position++ *)
| PRange (lo hi : N)           (* ed.peg.go:848: if c := buffer[position]; c < lo || c > hi { goto fail } *)
| PDot                         (* ed.peg.go:581-587 *)
| PSeq (a b : pexp)
| PAlt (a b : pexp)            (* ed.peg.go:684-763: restore and try the next one *)
| PStar (a : pexp)             (* ed.peg.go:645-654 *)
| POpt (a : pexp)              (* ed.peg.go:771-780 *)
| PNot (a : pexp)              (* ed.peg.go:1054-1061 *)
| PText (a : pexp)             (* ed.peg.go:1050-1073: add(rulePegText, begin) after the contents *)
| PAct (n : nat).              (* ed.peg.go:2234-2580: add(ruleActionN, position) *)
(* e+ is generated as e followed by the loop of e*, ed.peg.go:1466-1482 *)
Definition PPlus (a : pexp) : pexp := PSeq a (PStar a).
(* a character written in the grammar *)
Definition chr (c : ascii) : pexp := PChr (byte_val c).
Definition rng (a b : ascii) : pexp := PRange (byte_val a) (byte_val b).

(* the tokens: captured text (begin, end) and actions *)
Inductive token := TText (b e : nat) | TAct (n : nat).
(* the position and the runes from it on, with the tokens added; or failure; or no end *)
Inductive pres := POk (pos : nat) (rest : list N) (toks : list token) | PFail | PHang.

(* the loop generated for e*: it goes on as long as the body matches, and so for ever once the body
   matches without moving *)
Fixpoint star_loop (body : nat -> list N -> pres) (fuel : nat) (pos : nat) (rest : list N) : pres :=
  match fuel with
  | O => PHang
  | S k =>
      match body pos rest with
      | POk p r t =>
          if p =? pos then PHang
          else match star_loop body k p r with POk p' r' t' => POk p' r' (t ++ t') | x => x end
      | PFail => POk pos rest []
      | PHang => PHang
      end
  end.
(* The end of [rest] stands for the end symbol 1114112 that Init appends (ed.peg.go:549-552): no rune of a
   string, no character of the grammar and in no range. *)
Fixpoint pmatch (e : pexp) (pos : nat) (rest : list N) : pres :=
  match e with
  | PChr c =>
      match rest with r :: t => if N.eqb r c then POk (S pos) t [] else PFail | [] => PFail end
  | PRange lo hi =>
      match rest with
      | r :: t => if (N.leb lo r && N.leb r hi)%bool then POk (S pos) t [] else PFail
      | [] => PFail
      end
  | PDot => match rest with _ :: t => POk (S pos) t [] | [] => PFail end
  | PSeq a b =>
      match pmatch a pos rest with
      | POk p r t => match pmatch b p r with POk p' r' t' => POk p' r' (t ++ t') | x => x end
      | x => x
      end
  | PAlt a b => match pmatch a pos rest with PFail => pmatch b pos rest | x => x end
  | PStar a => star_loop (pmatch a) (S (List.length rest)) pos rest
  | POpt a => match pmatch a pos rest with PFail => POk pos rest [] | x => x end
  | PNot a => match pmatch a pos rest with POk _ _ _ => PFail | PFail => POk pos rest [] | PHang => PHang end
  | PText a => match pmatch a pos rest with POk p r t => POk p r (t ++ [TText pos p]) | x => x end
  | PAct n => POk pos rest [TAct n]
  end.

(* ---- the rules ---- *)
Declare Scope peg_scope.
Delimit Scope peg_scope with peg.
Notation "a ;; b" := (PSeq a b) (at level 61, right associativity) : peg_scope.
Notation "a / b" := (PAlt a b) (at level 40, left associativity) : peg_scope.
Local Open Scope peg_scope.

(* ed.peg.go:2185-2232 *)
Definition r_sp := PPlus (chr " " / chr tab).
(* ed.peg.go:2169-2183 *)
Definition r_newLine := chr nl.
(* ed.peg.go:2136-2167 *)
Definition r_destC := (chr "m" ;; PAct 45) / (chr "t" ;; PAct 46).
(* ed.peg.go:2073-2134 *)
Definition r_rangeC :=
  (chr "d" ;; PAct 40) / (chr "j" ;; PAct 41) / (chr "l" ;; PAct 42) / (chr "n" ;; PAct 43) / (chr "p" ;; PAct 44).
(* ed.peg.go:2040-2071 *)
Definition r_addTextC := (chr "a" ;; PAct 38) / (chr "i" ;; PAct 39).
(* ed.peg.go:2021-2038 *)
Definition r_changeTextC := chr "c" ;; PAct 37.
(* ed.peg.go:2002-2019 *)
Definition r_addrC := chr "=" ;; PAct 36.
(* ed.peg.go:1957-2000 *)
Definition r_param := PPlus (PNot (chr nl) ;; PDot).
(* ed.peg.go:1914-1955 *)
Definition r_paramC := (chr "e" ;; PAct 33) / (chr "E" ;; PAct 34) / (chr "f" ;; PAct 35).
(* ed.peg.go:1876-1912 *)
Definition r_paramCmd := (r_paramC ;; r_sp ;; PText r_param ;; PAct 32) / r_paramC.
(* ed.peg.go:1838-1874 *)
Definition r_offset := (chr "+" / chr "-") ;; PStar (rng "0" "9").
(* ed.peg.go:1765-1836 *)
Definition r_bareCmd :=
  (chr "h" ;; PAct 26) / (chr "H" ;; PAct 27) / (chr "P" ;; PAct 28) / (chr "q" ;; PAct 29) / (chr "Q" ;; PAct 30) /
  (chr "u" ;; PAct 31).
(* ed.peg.go:1668-1763 *)
Definition r_back_regex := PPlus ((chr "\" ;; chr "?") / (PNot (chr nl / chr "?") ;; PDot)).
(* ed.peg.go:1571-1666 *)
Definition r_basic_regex := PPlus ((chr "\" ;; chr "/") / (PNot (chr nl / chr "/") ;; PDot)).
(* ed.peg.go:1545-1569 *)
Definition r_regexReverseAddr := chr "?" ;; r_back_regex ;; chr "?" ;; PAct 25.
(* ed.peg.go:1519-1543 *)
Definition r_regexAddr := chr "/" ;; r_basic_regex ;; chr "/" ;; PAct 24.
(* ed.peg.go:1496-1517 *)
Definition r_markAddr := chr "'" ;; rng "a" "z" ;; PAct 23.
(* ed.peg.go:1462-1494 *)
Definition r_literalAddr := PText (PPlus (rng "0" "9")) ;; PAct 22.
(* ed.peg.go:1405-1460 *)
Definition r_addr :=
  r_literalAddr / r_markAddr / r_regexAddr / r_regexReverseAddr / (chr "." ;; PAct 20) / (chr "$" ;; PAct 21).
(* ed.peg.go:1373-1403 *)
Definition r_addrO := PText (r_addr ;; POpt r_offset) ;; PAct 19.
(* ed.peg.go:1335-1371 *)
Definition r_endAddr := PStar r_sp ;; r_addrO ;; PStar r_sp ;; PAct 18.
(* ed.peg.go:1297-1333 *)
Definition r_startAddr := PStar r_sp ;; r_addrO ;; PStar r_sp ;; PAct 17.
(* ed.peg.go:1262-1295 *)
Definition r_addrCmd := (PText r_startAddr ;; r_addrC ;; PAct 16) / r_addrC.
(* ed.peg.go:1142-1260; ed.peg:73-81 has sp* in several places where the generated rule has nothing *)
Definition r_range :=
  (r_startAddr ;; chr "," ;; r_endAddr) / (r_startAddr ;; chr "," ;; PAct 9) / (chr "," ;; r_endAddr ;; PAct 10) /
  (r_startAddr ;; chr ";" ;; r_endAddr) / (r_startAddr ;; chr ";" ;; PAct 11) / (chr ";" ;; r_endAddr ;; PAct 12) /
  (r_startAddr ;; PAct 13) / (chr "," ;; PAct 14) / (chr ";" ;; PAct 15).
(* ed.peg.go:1107-1140 *)
Definition r_rangeCmd_of (range : pexp) := POpt range ;; PStar r_sp ;; r_rangeC.
(* ed.peg.go:1087-1105 *)
Definition r_textTerm := chr nl ;; chr ".".
(* ed.peg.go:1046-1085 *)
Definition r_text := PText (PStar (PNot r_textTerm ;; PDot)) ;; r_textTerm ;; PAct 8.
(* ed.peg.go:1028-1044 *)
Definition r_nullCmd := POpt r_startAddr.
(* ed.peg.go:1002-1026 *)
Definition r_shellCmd := chr "!" ;; PText r_param ;; PAct 7.
(* ed.peg.go:939-1000 *)
Definition r_writeCmd_of (range : pexp) :=
  (POpt range ;; chr "w" ;; r_sp ;; PText r_param ;; PAct 5) / (POpt range ;; chr "w" ;; PAct 6).
(* ed.peg.go:900-937 *)
Definition r_readCmd := POpt r_startAddr ;; chr "r" ;; r_sp ;; PText r_param ;; PAct 4.
(* ed.peg.go:865-898 *)
Definition r_destCmd_of (range : pexp) := POpt range ;; r_destC ;; PText r_addrO ;; PAct 3.
(* ed.peg.go:828-863 *)
Definition r_markCmd := POpt r_startAddr ;; chr "k" ;; PText (rng "a" "z") ;; PAct 2.
(* ed.peg.go:797-826 *)
Definition r_addTextCmd := POpt r_startAddr ;; r_addTextC ;; r_newLine ;; r_text.
(* ed.peg.go:766-795 *)
Definition r_changeTextCmd_of (range : pexp) := POpt range ;; r_changeTextC ;; r_newLine ;; r_text.
(* ed.peg.go:681-764 *)
Definition r_cmd_of (range : pexp) :=
  r_bareCmd / r_paramCmd / r_rangeCmd_of range / r_addrCmd / r_changeTextCmd_of range / r_addTextCmd /
  r_markCmd / r_destCmd_of range / r_readCmd / r_writeCmd_of range / r_shellCmd / r_nullCmd.
(* ed.peg.go:640-679 *)
Definition r_e_of (range : pexp) := PStar r_sp ;; r_cmd_of range ;; PStar r_sp ;; r_newLine ;; PAct 1.
(* ed.peg.go:606-638 *)
Definition r_first_of (range : pexp) := PStar (r_e_of range) ;; PNot PDot ;; PAct 0.
(* the grammar of ed.peg.go *)
Definition r_first := r_first_of r_range.

(* ed.peg:73-81: the rule the generated one was made from, as it is now *)
Definition src_range :=
  (r_startAddr ;; chr "," ;; r_endAddr) / (r_startAddr ;; chr "," ;; PStar r_sp ;; PAct 9) / (chr "," ;; r_endAddr ;; PStar r_sp ;; PAct 10) /
  (r_startAddr ;; chr ";" ;; r_endAddr) / (r_startAddr ;; chr ";" ;; PStar r_sp ;; PAct 11) / (chr ";" ;; r_endAddr ;; PStar r_sp ;; PAct 12) /
  (r_startAddr ;; PStar r_sp ;; PAct 13) / (PStar r_sp ;; chr "," ;; PStar r_sp ;; PAct 14) / (PStar r_sp ;; chr ";" ;; PStar r_sp ;; PAct 15).
(* the grammar of ed.peg *)
Definition src_first := r_first_of src_range.
Close Scope peg_scope.

(* Init and Parse (ed.peg.go:541-570): the tokens, None for a syntax error *)
Definition Parse_with (g : pexp) (buf : bytes) : out (option (list token)) :=
  match pmatch g 0 (runes_of buf) with
  | POk _ _ t => Val (Some t)
  | PFail => Val None
  | PHang => Hangs
  end.
Definition Parse (buf : bytes) : out (option (list token)) := Parse_with r_first buf.

(* ---- Execute ---- *)
(* what Execute does besides changing the parser: send a command, or print on standard output *)
Inductive pevent := ESend (c : command) | EPrint (s : bytes).
(* begin and end of the last captured text, curCmd, curAddr, and what was done (latest first) *)
Record pstate := { p_begin : nat; p_end : nat; p_cmd : command; p_addr : address; p_done : list pevent }.
(* a new Parser (ed.go:230) entering Execute (ed.peg.go:407) *)
Definition zero_pstate : pstate :=
  {| p_begin := 0; p_end := 0; p_cmd := zero_command; p_addr := zero_address; p_done := [] |}.
(* s[b:e] of a string *)
Definition slice {A} (s : list A) (b e : nat) : list A := firstn (e - b) (skipn b s).
(* p.curCmd.f = v for the fields of a command, p.curAddr.f = v for those of an address *)
Definition set_cmd (s : pstate) (c : command) : pstate :=
  {| p_begin := p_begin s; p_end := p_end s; p_cmd := c; p_addr := p_addr s; p_done := p_done s |}.
Definition set_addr (s : pstate) (a : address) : pstate :=
  {| p_begin := p_begin s; p_end := p_end s; p_cmd := p_cmd s; p_addr := a; p_done := p_done s |}.
Definition did (s : pstate) (e : pevent) : pstate :=
  {| p_begin := p_begin s; p_end := p_end s; p_cmd := p_cmd s; p_addr := p_addr s; p_done := e :: p_done s |}.
Definition with_typ (s : pstate) (t : cmdType) : pstate :=
  let c := p_cmd s in
  set_cmd s {| c_typ := t; c_start := c_start c; c_end := c_end c; c_dest := c_dest c; c_text := c_text c; c_params := c_params c |}.
Definition with_start (s : pstate) (a : address) : pstate :=
  let c := p_cmd s in
  set_cmd s {| c_typ := c_typ c; c_start := a; c_end := c_end c; c_dest := c_dest c; c_text := c_text c; c_params := c_params c |}.
Definition with_end (s : pstate) (a : address) : pstate :=
  let c := p_cmd s in
  set_cmd s {| c_typ := c_typ c; c_start := c_start c; c_end := a; c_dest := c_dest c; c_text := c_text c; c_params := c_params c |}.
Definition with_dest (s : pstate) (a : address) : pstate :=
  let c := p_cmd s in
  set_cmd s {| c_typ := c_typ c; c_start := c_start c; c_end := c_end c; c_dest := a; c_text := c_text c; c_params := c_params c |}.
Definition with_text (s : pstate) (t : bytes) : pstate :=
  let c := p_cmd s in
  set_cmd s {| c_typ := c_typ c; c_start := c_start c; c_end := c_end c; c_dest := c_dest c; c_text := t; c_params := c_params c |}.
Definition with_params (s : pstate) (l : list bytes) : pstate :=
  let c := p_cmd s in
  set_cmd s {| c_typ := c_typ c; c_start := c_start c; c_end := c_end c; c_dest := c_dest c; c_text := c_text c; c_params := l |}.
Definition addr_typ (s : pstate) (t : addressType) : pstate :=
  set_addr s {| a_typ := t; a_text := a_text (p_addr s); a_offset := a_offset (p_addr s) |}.
Definition retext (a : address) (t : bytes) : address :=
  {| a_typ := a_typ a; a_text := t; a_offset := a_offset a |}.

(* The actions, ed.peg.go:409-541.  buffer[begin:end] slices the bytes of the input with indices that count
   runes; there are never fewer bytes than runes, so the slice expression does not panic. *)
Definition act (buffer : bytes) (n : nat) (s : pstate) : pstate :=
  let buf := slice buffer (p_begin s) (p_end s) in
  match n with
  | 1 => set_cmd (did s (ESend (p_cmd s))) zero_command
  | 2 => with_params (with_typ s ctmark) [buf]
  | 3 => set_addr (with_dest s (p_addr s)) zero_address
  | 4 => with_text (with_typ s ctread) buf
  | 5 => with_text (with_typ s ctwrite) buf
  | 6 => with_typ s ctwrite
  | 7 => with_text (with_typ s ctshell) buf
  | 8 => did (with_text s buf) (EPrint (B "t " ++ buf ++ [nl]))
  | 9 => with_end s (c_start (p_cmd s))
  | 10 => with_start s aFirst
  | 11 => with_end s (c_start (p_cmd s))
  | 12 => with_start s aCur
  | 13 => with_end s (c_start (p_cmd s))
  | 14 => with_end (with_start s aFirst) aLast
  | 15 => with_end (with_start s aCur) aLast
  | 16 => with_start s (retext (c_start (p_cmd s)) buf)
  | 17 => set_addr (with_start s (p_addr s)) zero_address
  | 18 => set_addr (with_end s (p_addr s)) zero_address
  | 19 => set_addr s (retext (p_addr s) buf)
  | 20 => addr_typ s lCurrent
  | 21 => addr_typ s lLast
  | 22 => addr_typ s lNum
  | 23 => addr_typ s lMark
  | 24 => addr_typ s lRegex
  | 25 => addr_typ s lRegexReverse
  | 26 => with_typ s cthelp
  | 27 => with_typ s cthelpMode
  | 28 => with_typ s ctprompt
  | 29 => with_typ s ctquit
  | 30 => with_typ s ctquitForce
  | 31 => with_typ s ctundo
  | 32 => with_params s [buf]
  | 33 => with_typ s ctedit
  | 34 => with_typ s cteditForce
  | 35 => with_typ s ctfilename
  | 36 => with_typ s ctlineNumber
  | 37 => with_typ s ctchange
  | 38 => with_typ s ctappend
  | 39 => with_typ s ctinsert
  | 40 => with_typ s ctdelete
  | 41 => with_typ s ctjoin
  | 42 => with_typ s ctlist
  | 43 => with_typ s ctnumber
  | 44 => with_typ s ctprint
  | 45 => with_typ s ctmove
  | 46 => with_typ s ctcopy
  | _ => s
  end.
(* one token, ed.peg.go:408-413 *)
Definition exec1 (buffer : bytes) (s : pstate) (t : token) : pstate :=
  match t with
  | TText b e => {| p_begin := b; p_end := e; p_cmd := p_cmd s; p_addr := p_addr s; p_done := p_done s |}
  | TAct n => act buffer n s
  end.
(* ed.peg.go:406-545: what is done, in order *)
Definition Execute (buffer : bytes) (toks : list token) : list pevent :=
  rev (p_done (fold_left (exec1 buffer) toks zero_pstate)).

(* ---- ProcessCommands: cutting the input into commands ---- *)
(* the expression of ed.go:18 as a sequence of classes, each any number of times, at most once or once *)
Inductive item := Many (p : ascii -> bool) | Maybe (p : ascii -> bool) | Once (p : ascii -> bool).
Fixpoint seq_match (l : list item) : bytes -> bool :=
  match l with
  | [] => fun s => match s with [] => true | _ => false end
  | Many p :: r =>
      fix loop (s : bytes) : bool :=
        seq_match r s || match s with c :: t => p c && loop t | [] => false end
  | Maybe p :: r => fun s => seq_match r s || match s with c :: t => p c && seq_match r t | [] => false end
  | Once p :: r => fun s => match s with c :: t => p c && seq_match r t | [] => false end
  end%bool.
(* \s of package regexp: [\t\n\f\r ] *)
Definition re_space (c : ascii) : bool :=
  (Ascii.eqb c tab || Ascii.eqb c nl || Ascii.eqb c "012" || Ascii.eqb c cr || Ascii.eqb c " ")%bool.
(* [0-9.$] *)
Definition re_addr (c : ascii) : bool := (in_range 48 57 c || Ascii.eqb c "." || Ascii.eqb c "$")%bool.
(* ed.go:18: ^\s*[0-9.$]*\s*,?\s*[0-9.$]*\s*[aic]\s*$ ; the classes contain only ASCII characters, so
   matching bytes is matching runes *)
Definition multlineCmdStart (s : bytes) : bool :=
  seq_match [Many re_space; Many re_addr; Many re_space; Maybe (fun c => Ascii.eqb c ","); Many re_space;
             Many re_addr; Many re_space;
             Once (fun c => Ascii.eqb c "a" || Ascii.eqb c "i" || Ascii.eqb c "c")%bool; Many re_space] s.

(* ed.go:221-226: the lines up to and with ".", and the lines left *)
Fixpoint until_dot (lines : list bytes) : list bytes * list bytes :=
  match lines with
  | [] => ([], [])
  | l :: r => if beqb l (B ".") then ([l], r) else let '(a, b) := until_dot r in (l :: a, b)
  end.
(* ed.go:216-227, 230: the Buffer of every parser, from the lines scanned *)
Fixpoint buffers_from (fuel : nat) (lines : list bytes) : list bytes :=
  match fuel, lines with
  | O, _ => []
  | _, [] => []
  | S k, l :: r =>
      if multlineCmdStart l then
        let '(a, b) := until_dot r in (join [nl] (l :: a) ++ [nl]) :: buffers_from k b
      else (l ++ [nl]) :: buffers_from k r
  end.
Definition buffers (lines : list bytes) : list bytes := buffers_from (List.length lines) lines.

(* What the reading goroutine does with one Buffer (ed.go:230-239): report a syntax error, or execute.
   [perr] is err.Error(), given in EdErrModel.v; the theorems hold for any. *)
Inductive revent := RError (msg : bytes) | RSend (c : command) | RPrint (s : bytes).
Definition of_pevent (e : pevent) : revent := match e with ESend c => RSend c | EPrint s => RPrint s end.
Definition handle (perr : bytes -> bytes) (buf : bytes) : out (list revent) :=
  match Parse buf with
  | Val None => Val [RError (B "?" ++ perr buf ++ [nl])]
  | Val (Some toks) => Val (map of_pevent (Execute buf toks))
  | Crashes => Crashes
  | Hangs => Hangs
  end.
