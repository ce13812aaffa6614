(* Specification vocabulary for C132 and C133: places in a command, and the report of a syntax error. *)
From Verif Require Import GoBase EdModel EdPegModel EdPegSpec.

(* the line and the column of the i-th character, both counted from 1 *)
Definition is_nl (r : N) : bool := N.eqb r (byte_val nl).
Definition line_of (rs : list N) (i : nat) : nat := S (List.length (filter is_nl (firstn i rs))).
(* the part of a text after its last newline *)
Fixpoint last_line (rs : list N) : list N :=
  match rs with [] => [] | r :: t => if existsb is_nl rs then last_line t else rs end.
Definition column_of (rs : list N) (i : nat) : nat := S (List.length (last_line (firstn i rs))).
(* the i-th character is a newline *)
Definition newline_at (rs : list N) (i : nat) : Prop := nth_error rs i = Some (byte_val nl).

(* The text of a report: "?", a newline, the name of a rule, two places, and a quoted text. *)
Definition report (name : bytes) (l1 c1 l2 c2 : nat) (quoted : bytes) : bytes :=
  B "?" ++ [nl] ++ B "parse error near " ++ name ++
  B " (line " ++ itoa (Z.of_nat l1) ++ B " symbol " ++ itoa (Z.of_nat c1) ++
  B " - line " ++ itoa (Z.of_nat l2) ++ B " symbol " ++ itoa (Z.of_nat c2) ++ B "):" ++ [nl] ++ quoted ++ [nl; nl].
(* [l] and [c] are the line and the column of the i-th character; those of a newline are given as the beginning of
   the line after it *)
Definition placed (rs : list N) (i l c : nat) : Prop :=
  newline_at rs i /\ l = S (line_of rs i) /\ c = 0%nat \/ ~ newline_at rs i /\ l = line_of rs i /\ c = column_of rs i.

(* the characters a line that is a command can begin with: letters of commands, beginnings of addresses, separators,
   blanks, and the end of the line *)
Definition beginning (c : N) : Prop :=
  exists x, c = byte_val x /\ In x (B "hHPqQueEfdjlnp=caikmtrw!,;0123456789'/?.$ " ++ [tab; nl]).

(* what the rules of the grammar are called, and what is taken for the text of a command ("PegText") *)
Definition rule_names : list (bytes * pexp) := [
  (B "first", r_first); (B "e", r_e_of r_range); (B "cmd", r_cmd_of r_range); (B "changeTextCmd", r_changeTextCmd_of r_range);
  (B "addTextCmd", r_addTextCmd); (B "markCmd", r_markCmd); (B "destCmd", r_destCmd_of r_range); (B "readCmd", r_readCmd);
  (B "writeCmd", r_writeCmd_of r_range); (B "shellCmd", r_shellCmd); (B "nullCmd", r_nullCmd); (B "text", r_text);
  (B "textTerm", r_textTerm); (B "rangeCmd", r_rangeCmd_of r_range); (B "range", r_range); (B "addrCmd", r_addrCmd);
  (B "startAddr", r_startAddr); (B "endAddr", r_endAddr); (B "addrO", r_addrO); (B "addr", r_addr); (B "literalAddr", r_literalAddr);
  (B "markAddr", r_markAddr); (B "regexAddr", r_regexAddr); (B "regexReverseAddr", r_regexReverseAddr); (B "basic_regex", r_basic_regex);
  (B "back_regex", r_back_regex); (B "bareCmd", r_bareCmd); (B "offset", r_offset); (B "paramCmd", r_paramCmd); (B "paramC", r_paramC);
  (B "param", r_param); (B "addrC", r_addrC); (B "changeTextC", r_changeTextC); (B "addTextC", r_addTextC); (B "rangeC", r_rangeC);
  (B "destC", r_destC); (B "newLine", r_newLine); (B "sp", r_sp);
  (B "PegText", r_param); (B "PegText", r_addrO); (B "PegText", PRange (byte_val "a") (byte_val "z"));
  (B "PegText", PSeq r_addr (POpt r_offset)); (B "PegText", r_startAddr); (B "PegText", PSeq (PRange (byte_val "0") (byte_val "9")) (PStar (PRange (byte_val "0") (byte_val "9"))));
  (B "PegText", PStar (PSeq (PNot r_textTerm) PDot))].
(* the rule [a] matches the characters from the b-th up to the e-th *)
Definition matches (a : pexp) (rs : list N) (b e : nat) : Prop := exists rest toks, pmatch a b (skipn b rs) = POk e rest toks.
