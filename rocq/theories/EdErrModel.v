(* Model of the syntax errors of pkg/ed/ed.peg.go: the token that got furthest ([max]), which add keeps
   while the rules are tried, and the text of the error.
   Here the rules carry their names; [bare] forgets them and gives back the rules of EdPegModel.v. *)
From Verif Require Import GoBase EdModel EdPegModel.
Local Open Scope nat_scope.

(* ---- the expressions of the generator, with the names of the rules ---- *)
Inductive nexp :=
| NChr (c : N)
| NRange (lo hi : N)
| NDot
| NSeq (a b : nexp)
| NAlt (a b : nexp)
| NStar (a : nexp)
| NOpt (a : nexp)
| NNot (a : nexp)
| NText (a : nexp)              (* ed.peg.go:1050-1073: add(rulePegText, begin) after the contents *)
| NAct (n : nat)
| NRule (name : bytes) (a : nexp). (* ed.peg.go:645-679: add(rule, begin) after the contents of a rule *)
(* the expression without the names *)
Fixpoint bare (e : nexp) : pexp :=
  match e with
  | NChr c => PChr c
  | NRange lo hi => PRange lo hi
  | NDot => PDot
  | NSeq a b => PSeq (bare a) (bare b)
  | NAlt a b => PAlt (bare a) (bare b)
  | NStar a => PStar (bare a)
  | NOpt a => POpt (bare a)
  | NNot a => PNot (bare a)
  | NText a => PText (bare a)
  | NAct n => PAct n
  | NRule _ a => bare a
  end.

(* ed.peg.go:200-203: token32; the rule is given by its name in rul3s (ed.peg.go:109-198).
   Simplified: the positions, uint32 in the program, are natural numbers; a command is shorter than 4 GiB. *)
Record named := { t_rule : bytes; t_begin : nat; t_end : nat }.
(* ed.peg.go:544: max = token32{} *)
Definition no_token : named := {| t_rule := B "Unknown"; t_begin := 0; t_end := 0 |}.
(* ed.peg.go:572-578: what add does to max *)
Definition add (rule : bytes) (begin position : nat) (max : named) : named :=
  if (negb (begin =? position) && (t_end max <? position))%bool
  then {| t_rule := rule; t_begin := begin; t_end := position |} else max.

Inductive nres := NOk (pos : nat) (rest : list N) | NFail | NHang.
(* as star_loop; max is kept when a rule fails *)
Fixpoint nstar_loop (body : named -> nat -> list N -> nres * named) (fuel : nat) (max : named) (pos : nat) (rest : list N)
  : nres * named :=
  match fuel with
  | O => (NHang, max)
  | S k =>
      match body max pos rest with
      | (NOk p r, m) => if p =? pos then (NHang, m) else nstar_loop body k m p r
      | (NFail, m) => (NOk pos rest, m)
      | (NHang, m) => (NHang, m)
      end
  end.
(* the rules of ed.peg.go:606-2580 as in pmatch, with max *)
Fixpoint nmatch (e : nexp) (max : named) (pos : nat) (rest : list N) : nres * named :=
  match e with
  | NChr c => (match rest with r :: t => if N.eqb r c then NOk (S pos) t else NFail | [] => NFail end, max)
  | NRange lo hi =>
      (match rest with
       | r :: t => if (N.leb lo r && N.leb r hi)%bool then NOk (S pos) t else NFail
       | [] => NFail
       end, max)
  | NDot => (match rest with _ :: t => NOk (S pos) t | [] => NFail end, max)
  | NSeq a b => match nmatch a max pos rest with (NOk p r, m) => nmatch b m p r | x => x end
  | NAlt a b => match nmatch a max pos rest with (NFail, m) => nmatch b m pos rest | x => x end
  | NStar a => nstar_loop (nmatch a) (S (List.length rest)) max pos rest
  | NOpt a => match nmatch a max pos rest with (NFail, m) => (NOk pos rest, m) | x => x end
  | NNot a =>
      match nmatch a max pos rest with
      | (NOk _ _, m) => (NFail, m)
      | (NFail, m) => (NOk pos rest, m)
      | x => x
      end
  | NText a => match nmatch a max pos rest with (NOk p r, m) => (NOk p r, add (B "PegText") pos p m) | x => x end
  | NAct n => (NOk pos rest, add (B "Action" ++ itoa (Z.of_nat n)) pos pos max)
  | NRule name a => match nmatch a max pos rest with (NOk p r, m) => (NOk p r, add name pos p m) | x => x end
  end.

(* ---- the rules ---- *)
Definition nchr (c : ascii) : nexp := NChr (byte_val c).
Definition nrng (a b : ascii) : nexp := NRange (byte_val a) (byte_val b).
Definition NPlus (a : nexp) : nexp := NSeq a (NStar a).
Declare Scope npeg_scope.
Delimit Scope npeg_scope with npeg.
Notation "a ;; b" := (NSeq a b) (at level 61, right associativity) : npeg_scope.
Notation "a / b" := (NAlt a b) (at level 40, left associativity) : npeg_scope.
Local Open Scope npeg_scope.
(* ed.peg.go:2185-2232 *)
Definition n_sp := NRule (B "sp") (NPlus (nchr " " / nchr tab)).
(* ed.peg.go:2169-2183 *)
Definition n_newLine := NRule (B "newLine") (nchr nl).
(* ed.peg.go:2136-2167 *)
Definition n_destC := NRule (B "destC") ((nchr "m" ;; NAct 45) / (nchr "t" ;; NAct 46)).
(* ed.peg.go:2073-2134 *)
Definition n_rangeC := NRule (B "rangeC")
  ((nchr "d" ;; NAct 40) / (nchr "j" ;; NAct 41) / (nchr "l" ;; NAct 42) / (nchr "n" ;; NAct 43) / (nchr "p" ;; NAct 44)).
(* ed.peg.go:2040-2071 *)
Definition n_addTextC := NRule (B "addTextC") ((nchr "a" ;; NAct 38) / (nchr "i" ;; NAct 39)).
(* ed.peg.go:2021-2038 *)
Definition n_changeTextC := NRule (B "changeTextC") (nchr "c" ;; NAct 37).
(* ed.peg.go:2002-2019 *)
Definition n_addrC := NRule (B "addrC") (nchr "=" ;; NAct 36).
(* ed.peg.go:1957-2000 *)
Definition n_param := NRule (B "param") (NPlus (NNot (nchr nl) ;; NDot)).
(* ed.peg.go:1914-1955 *)
Definition n_paramC := NRule (B "paramC") ((nchr "e" ;; NAct 33) / (nchr "E" ;; NAct 34) / (nchr "f" ;; NAct 35)).
(* ed.peg.go:1876-1912 *)
Definition n_paramCmd := NRule (B "paramCmd") ((n_paramC ;; n_sp ;; NText n_param ;; NAct 32) / n_paramC).
(* ed.peg.go:1838-1874 *)
Definition n_offset := NRule (B "offset") ((nchr "+" / nchr "-") ;; NStar (nrng "0" "9")).
(* ed.peg.go:1765-1836 *)
Definition n_bareCmd := NRule (B "bareCmd")
  ((nchr "h" ;; NAct 26) / (nchr "H" ;; NAct 27) / (nchr "P" ;; NAct 28) / (nchr "q" ;; NAct 29) / (nchr "Q" ;; NAct 30) /
   (nchr "u" ;; NAct 31)).
(* ed.peg.go:1668-1763 *)
Definition n_back_regex := NRule (B "back_regex")
  (NPlus ((nchr "\" ;; nchr "?") / (NNot (nchr nl / nchr "?") ;; NDot))).
(* ed.peg.go:1571-1666 *)
Definition n_basic_regex := NRule (B "basic_regex")
  (NPlus ((nchr "\" ;; nchr "/") / (NNot (nchr nl / nchr "/") ;; NDot))).
(* ed.peg.go:1545-1569 *)
Definition n_regexReverseAddr := NRule (B "regexReverseAddr") (nchr "?" ;; n_back_regex ;; nchr "?" ;; NAct 25).
(* ed.peg.go:1519-1543 *)
Definition n_regexAddr := NRule (B "regexAddr") (nchr "/" ;; n_basic_regex ;; nchr "/" ;; NAct 24).
(* ed.peg.go:1496-1517 *)
Definition n_markAddr := NRule (B "markAddr") (nchr "'" ;; nrng "a" "z" ;; NAct 23).
(* ed.peg.go:1462-1494 *)
Definition n_literalAddr := NRule (B "literalAddr") (NText (NPlus (nrng "0" "9")) ;; NAct 22).
(* ed.peg.go:1405-1460 *)
Definition n_addr := NRule (B "addr")
  (n_literalAddr / n_markAddr / n_regexAddr / n_regexReverseAddr / (nchr "." ;; NAct 20) / (nchr "$" ;; NAct 21)).
(* ed.peg.go:1373-1403 *)
Definition n_addrO := NRule (B "addrO") (NText (n_addr ;; NOpt n_offset) ;; NAct 19).
(* ed.peg.go:1335-1371 *)
Definition n_endAddr := NRule (B "endAddr") (NStar n_sp ;; n_addrO ;; NStar n_sp ;; NAct 18).
(* ed.peg.go:1297-1333 *)
Definition n_startAddr := NRule (B "startAddr") (NStar n_sp ;; n_addrO ;; NStar n_sp ;; NAct 17).
(* ed.peg.go:1262-1295 *)
Definition n_addrCmd := NRule (B "addrCmd") ((NText n_startAddr ;; n_addrC ;; NAct 16) / n_addrC).
(* ed.peg.go:1142-1260 *)
Definition n_range := NRule (B "range")
  ((n_startAddr ;; nchr "," ;; n_endAddr) / (n_startAddr ;; nchr "," ;; NAct 9) / (nchr "," ;; n_endAddr ;; NAct 10) /
   (n_startAddr ;; nchr ";" ;; n_endAddr) / (n_startAddr ;; nchr ";" ;; NAct 11) / (nchr ";" ;; n_endAddr ;; NAct 12) /
   (n_startAddr ;; NAct 13) / (nchr "," ;; NAct 14) / (nchr ";" ;; NAct 15)).
(* ed.peg.go:1107-1140 *)
Definition n_rangeCmd := NRule (B "rangeCmd") (NOpt n_range ;; NStar n_sp ;; n_rangeC).
(* ed.peg.go:1087-1105 *)
Definition n_textTerm := NRule (B "textTerm") (nchr nl ;; nchr ".").
(* ed.peg.go:1046-1085 *)
Definition n_text := NRule (B "text") (NText (NStar (NNot n_textTerm ;; NDot)) ;; n_textTerm ;; NAct 8).
(* ed.peg.go:1028-1044 *)
Definition n_nullCmd := NRule (B "nullCmd") (NOpt n_startAddr).
(* ed.peg.go:1002-1026 *)
Definition n_shellCmd := NRule (B "shellCmd") (nchr "!" ;; NText n_param ;; NAct 7).
(* ed.peg.go:939-1000 *)
Definition n_writeCmd := NRule (B "writeCmd")
  ((NOpt n_range ;; nchr "w" ;; n_sp ;; NText n_param ;; NAct 5) / (NOpt n_range ;; nchr "w" ;; NAct 6)).
(* ed.peg.go:900-937 *)
Definition n_readCmd := NRule (B "readCmd") (NOpt n_startAddr ;; nchr "r" ;; n_sp ;; NText n_param ;; NAct 4).
(* ed.peg.go:865-898 *)
Definition n_destCmd := NRule (B "destCmd") (NOpt n_range ;; n_destC ;; NText n_addrO ;; NAct 3).
(* ed.peg.go:828-863 *)
Definition n_markCmd := NRule (B "markCmd") (NOpt n_startAddr ;; nchr "k" ;; NText (nrng "a" "z") ;; NAct 2).
(* ed.peg.go:797-826 *)
Definition n_addTextCmd := NRule (B "addTextCmd") (NOpt n_startAddr ;; n_addTextC ;; n_newLine ;; n_text).
(* ed.peg.go:766-795 *)
Definition n_changeTextCmd := NRule (B "changeTextCmd") (NOpt n_range ;; n_changeTextC ;; n_newLine ;; n_text).
(* ed.peg.go:681-764 *)
Definition n_cmd := NRule (B "cmd")
  (n_bareCmd / n_paramCmd / n_rangeCmd / n_addrCmd / n_changeTextCmd / n_addTextCmd /
   n_markCmd / n_destCmd / n_readCmd / n_writeCmd / n_shellCmd / n_nullCmd).
(* ed.peg.go:640-679 *)
Definition n_e := NRule (B "e") (NStar n_sp ;; n_cmd ;; NStar n_sp ;; n_newLine ;; NAct 1).
(* ed.peg.go:606-638 *)
Definition n_first := NRule (B "first") (NStar n_e ;; NNot NDot ;; NAct 0).
Close Scope npeg_scope.

(* ed.peg.go:559-570: nil, or the token of the error *)
Definition parse_token (buf : bytes) : out (option named) :=
  match nmatch n_first no_token 0 (runes_of buf) with
  | (NOk _ _, _) => Val None
  | (NFail, m) => Val (Some m)
  | (NHang, _) => Hangs
  end.

(* ---- the text of the error ---- *)
(* ed.peg.go:12 *)
Definition endSymbol : N := 1114112.
(* ed.peg.go:547-551: the runes of the command and endSymbol, which no string has a rune equal to *)
Definition peg_buffer (buf : bytes) : list N := runes_of buf ++ [endSymbol].
(* ed.peg.go:334-338: line and symbol; a map of them *)
Definition textPosition : Type := (nat * nat).
Definition position_map : Type := list (nat * textPosition).
Definition look_up (t : position_map) (i : nat) : textPosition :=
  match find (fun x => fst x =? i) t with Some (_, p) => p | None => (0, 0) end.
(* ed.peg.go:353-357: the positions after those equal to i *)
Fixpoint skip_equal (i : nat) (l : list nat) : list nat :=
  match l with [] => [] | p :: r => if i =? p then skip_equal i r else l end.
(* ed.peg.go:345-360: from the i-th rune on, with positions[j:]; positions[j] is out of range when none is left *)
Fixpoint translate (buffer : list N) (i line symbol : nat) (positions : list nat) (t : position_map) : out position_map :=
  match buffer with
  | [] => Val t
  | c :: r =>
      let '(line, symbol) := if N.eqb c (byte_val nl) then (S line, 0) else (line, S symbol) in
      match positions with
      | [] => Crashes
      | p :: more =>
          if i =? p then
            match skip_equal i more with
            | [] => Val ((p, (line, symbol)) :: t)
            | rest => translate r (S i) line symbol rest ((p, (line, symbol)) :: t)
            end
          else translate r (S i) line symbol positions t
      end
  end.
(* ed.peg.go:340-363; sort.Ints of the two positions *)
Definition sort2 (a b : nat) : list nat := if a <=? b then [a; b] else [b; a].
Definition translatePositions (buffer : list N) (a b : nat) : out position_map :=
  translate buffer 0 1 0 (sort2 a b) [].
(* ed.peg.go:370-392; [quote] is strconv.Quote.  e.p.buffer[begin:end] panics unless begin <= end <= len.
   Pretty is never set. *)
Definition error_text (quote : bytes -> bytes) (buf : bytes) (max : named) : out bytes :=
  match translatePositions (peg_buffer buf) (t_begin max) (t_end max) with
  | Val t =>
      let '(l1, s1) := look_up t (t_begin max) in
      let '(l2, s2) := look_up t (t_end max) in
      if ((t_begin max <=? t_end max) && (t_end max <=? List.length (peg_buffer buf)))%bool then
        Val ([nl] ++ B "parse error near " ++ t_rule max ++ B " (line " ++ itoa (Z.of_nat l1) ++ B " symbol " ++ itoa (Z.of_nat s1) ++
             B " - line " ++ itoa (Z.of_nat l2) ++ B " symbol " ++ itoa (Z.of_nat s2) ++ B "):" ++ [nl] ++
             quote (string_of_runes (slice (peg_buffer buf) (t_begin max) (t_end max))) ++ [nl])
      else Crashes
  | Crashes => Crashes
  | Hangs => Hangs
  end.
(* ed.go:230-236: what is written for this command if it is rejected *)
Definition error_report (quote : bytes -> bytes) (buf : bytes) : out (option bytes) :=
  match parse_token buf with
  | Val None => Val None
  | Val (Some m) =>
      match error_text quote buf m with
      | Val msg => Val (Some (B "?" ++ msg ++ [nl]))
      | Crashes => Crashes
      | Hangs => Hangs
      end
  | Crashes => Crashes
  | Hangs => Hangs
  end.
(* err.Error() for the input loop of EdLoopModel.v, whose [perr] it is *)
Definition perr_text (quote : bytes -> bytes) (buf : bytes) : bytes :=
  match parse_token buf with
  | Val (Some m) => match error_text quote buf m with Val msg => msg | _ => [] end
  | _ => []
  end.
