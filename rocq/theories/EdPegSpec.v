(* Specification vocabulary for C61-C63 and C77-C85: ed command lines as they are written. *)
From Verif Require Import GoBase NumFacts EdModel EdPegModel.

(* the commands sent, in order *)
Fixpoint sent (l : list pevent) : list command :=
  match l with [] => [] | ESend c :: r => c :: sent r | EPrint _ :: r => sent r end.
(* The parser accepts [buf] and sends exactly these commands. *)
Definition parsed (buf : bytes) (cmds : list command) : Prop :=
  exists toks, Parse buf = Val (Some toks) /\ sent (Execute buf toks) = cmds.
(* The parser rejects [buf]. *)
Definition rejected (buf : bytes) : Prop := Parse buf = Val None.

Definition ascii_only (s : bytes) : Prop := Forall (fun c => (byte_val c < 128)%N) s.
Definition blanks (s : bytes) : Prop := Forall (fun c => c = " "%char \/ c = tab) s.
Definition digits (s : bytes) : Prop := Forall is_dec_digit s.

(* ---- addresses ---- *)
Inductive base := Num (ds : bytes) | Dot | Dollar | Regex (re : bytes) | Mark (c : ascii) | Back (re : bytes).
Definition base_text (b : base) : bytes :=
  match b with
  | Num ds => ds
  | Dot => B "."
  | Dollar => B "$"
  | Regex re => B "/" ++ re ++ B "/"
  | Mark c => ["'"%char; c]
  | Back re => B "?" ++ re ++ B "?"
  end.
Definition base_typ (b : base) : addressType :=
  match b with Num _ => lNum | Dot => lCurrent | Dollar => lLast | Regex _ => lRegex | Mark _ => lMark
  | Back _ => lRegexReverse end.
(* an expression between delimiters d: no newline, and no d without a backslash before it *)
Inductive expression (d : ascii) : bytes -> Prop :=
| expr_end : expression d []
| expr_char c r : c <> nl -> c <> d -> (c = "\"%char -> r <> [] /\ forall t, r <> d :: t) -> expression d r -> expression d (c :: r)
| expr_escaped r : expression d r -> expression d ("\"%char :: d :: r).
(* a number is not empty; an expression between slashes or question marks is not empty; a mark is a lower case
   letter *)
Definition base_ok (b : base) : Prop :=
  match b with
  | Num ds => digits ds /\ ds <> []
  | Regex re => re <> [] /\ ascii_only re /\ expression "/" re
  | Back re => re <> [] /\ ascii_only re /\ expression "?" re
  | Mark c => (97 <= byte_val c <= 122)%N
  | _ => True
  end.
(* an offset: nothing, or a sign and digits *)
Definition offset_ok (o : bytes) : Prop :=
  o = [] \/ exists s ks, o = s :: ks /\ (s = "+"%char \/ s = "-"%char) /\ digits ks.
(* an address as written *)
Record waddr := { w_base : base; w_off : bytes }.
Definition waddr_ok (a : waddr) : Prop := base_ok (w_base a) /\ offset_ok (w_off a).
Definition waddr_text (a : waddr) : bytes := base_text (w_base a) ++ w_off a.
(* the address it is read as *)
Definition read_as (a : waddr) : address :=
  {| a_typ := base_typ (w_base a); a_text := waddr_text a; a_offset := 0 |}.
Definition plain (b : base) : waddr := {| w_base := b; w_off := [] |}.

(* ---- ranges ---- *)
(* at most two addresses around a comma or a semicolon, with blanks around the second address and before
   the separator *)
Inductive wrange :=
| NoAddress
| OneAddress (a : waddr)
| Both (a : waddr) (b1 : bytes) (s : ascii) (b2 : bytes) (b : waddr)
| LeftOnly (a : waddr) (b1 : bytes) (s : ascii)
| RightOnly (s : ascii) (b2 : bytes) (b : waddr)
| Neither (s : ascii).
Definition separator (s : ascii) : Prop := s = ","%char \/ s = ";"%char.
Definition wrange_ok (r : wrange) : Prop :=
  match r with
  | NoAddress => True
  | OneAddress a => waddr_ok a
  | Both a b1 s b2 b => waddr_ok a /\ blanks b1 /\ separator s /\ blanks b2 /\ waddr_ok b
  | LeftOnly a b1 s => waddr_ok a /\ blanks b1 /\ separator s
  | RightOnly s b2 b => separator s /\ blanks b2 /\ waddr_ok b
  | Neither s => separator s
  end.
Definition wrange_text (r : wrange) : bytes :=
  match r with
  | NoAddress => []
  | OneAddress a => waddr_text a
  | Both a b1 s b2 b => waddr_text a ++ b1 ++ [s] ++ b2 ++ waddr_text b
  | LeftOnly a b1 s => waddr_text a ++ b1 ++ [s]
  | RightOnly s b2 b => [s] ++ b2 ++ waddr_text b
  | Neither s => [s]
  end.
(* POSIX: a comma alone is 1,$ and a semicolon alone is .;$ ; a missing first address is 1 before a comma
   and . before a semicolon; a missing second address is the first one *)
Definition implied (s : ascii) : address := if Ascii.eqb s "," then aFirst else aCur.
Definition wrange_start (r : wrange) : address :=
  match r with
  | NoAddress => zero_address
  | OneAddress a | Both a _ _ _ _ | LeftOnly a _ _ => read_as a
  | RightOnly s _ _ | Neither s => implied s
  end.
Definition wrange_end (r : wrange) : address :=
  match r with
  | NoAddress => zero_address
  | OneAddress a | LeftOnly a _ _ => read_as a
  | Both _ _ _ _ b | RightOnly _ _ b => read_as b
  | Neither _ => aLast
  end.
(* the range ends in an address: blanks may follow it before any command *)
Definition closed (r : wrange) : Prop :=
  match r with LeftOnly _ _ _ | Neither _ | NoAddress => False | _ => True end.

(* the commands that take a range and nothing else *)
Definition range_letter (c : ascii) (t : cmdType) : Prop :=
  In (c, t) [("d"%char, ctdelete); ("j"%char, ctjoin); ("l"%char, ctlist); ("n"%char, ctnumber); ("p"%char, ctprint)].
Definition the_command (t : cmdType) (a b : address) (text : bytes) (ps : list bytes) : command :=
  {| c_typ := t; c_start := a; c_end := b; c_dest := zero_address; c_text := text; c_params := ps |}.

(* ---- text ---- *)
(* lines that can be typed: at least one, none with a newline in it, none of them "." *)
Definition typed_lines (ls : list bytes) : Prop := ls <> [] /\ forall l, In l ls -> ~ In nl l /\ l <> B ".".
(* no line after the first begins with a dot *)
Definition dotless (ls : list bytes) : Prop := forall l r, In l (tl ls) -> l <> "."%char :: r.
(* the commands that take text, and what they are *)
Definition text_letter (x : ascii) : Prop := x = "a"%char \/ x = "i"%char \/ x = "c"%char.
Definition text_typ (x : ascii) : cmdType := if Ascii.eqb x "a" then ctappend else if Ascii.eqb x "i" then ctinsert else ctchange.
(* the range allowed before the command, and the second address it is left with *)
Definition text_range (x : ascii) (r : wrange) : Prop :=
  match x with
  | "c"%char => True
  | _ => match r with NoAddress | OneAddress _ => True | _ => False end
  end.
Definition text_end (x : ascii) (r : wrange) : address := if Ascii.eqb x "c" then wrange_end r else zero_address.

(* a line that is a command: a range command, or w without a file name *)
Inductive command_line : bytes -> command -> Prop :=
  | range_line : forall lead r gap x t trail, blanks lead -> wrange_ok r -> blanks gap -> (r = NoAddress -> gap = []) ->
      range_letter x t -> blanks trail ->
      command_line (lead ++ wrange_text r ++ gap ++ [x] ++ trail) (the_command t (wrange_start r) (wrange_end r) [] [])
  | write_line : forall lead r gap trail, blanks lead -> wrange_ok r -> blanks gap -> (~ closed r -> gap = []) -> blanks trail ->
      command_line (lead ++ wrange_text r ++ gap ++ B "w" ++ trail) (the_command ctwrite (wrange_start r) (wrange_end r) [] []).

(* ---- the other commands ---- *)
(* the commands that take no address *)
Definition bare_letter (c : ascii) (t : cmdType) : Prop :=
  In (c, t) [("h"%char, cthelp); ("H"%char, cthelpMode); ("P"%char, ctprompt); ("q"%char, ctquit); ("Q"%char, ctquitForce);
             ("u"%char, ctundo)].
(* the commands that take a file name and no address *)
Definition file_letter (c : ascii) (t : cmdType) : Prop :=
  In (c, t) [("e"%char, ctedit); ("E"%char, cteditForce); ("f"%char, ctfilename)].
(* a file name as written: not empty, not begun by a blank, on one line *)
Definition file_name (f : bytes) : Prop := ~ In nl f /\ exists c t, f = c :: t /\ c <> " "%char /\ c <> tab.
