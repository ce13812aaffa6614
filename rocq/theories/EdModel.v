(* Model of pkg/ed: address.go, command.go, ed.go (editing; the parser is in EdPegModel.v, the two
   goroutines of ProcessCommands in EdLoopModel.v). *)
From Verif Require Import GoBase PieceTableModel.
Local Open Scope Z_scope.

(* ---- address.go ---- *)
(* address.go:9-18 *)
Inductive addressType := lNull | lCurrent | lLast | lNum | lOffset | lRegex | lRegexReverse | lMark.
(* address.go:20-24 *)
Record address := { a_typ : addressType; a_text : bytes; a_offset : Z }.
(* the zero value address{} *)
Definition zero_address : address := {| a_typ := lNull; a_text := []; a_offset := 0 |}.
(* address.go:63-66 *)
Definition aCur : address := {| a_typ := lCurrent; a_text := B "."; a_offset := 0 |}.
Definition aFirst : address := {| a_typ := lNum; a_text := B "1"; a_offset := 0 |}.
Definition aLast : address := {| a_typ := lLast; a_text := B "$"; a_offset := 0 |}.
Definition aCurPlusOne : address := {| a_typ := lCurrent; a_text := B "."; a_offset := 1 |}.

(* ---- command.go ---- *)
(* command.go:16-47 *)
Inductive cmdType :=
| ctnull | ctappend | ctchange | ctdelete | ctedit | cteditForce | ctfilename | ctglobal | ctinteractive
| cthelp | cthelpMode | ctinsert | ctjoin | ctmark | ctlist | ctmove | ctnumber | ctprint | ctprompt
| ctquit | ctquitForce | ctread | ctsubstitute | ctcopy | ctundo | ctglobalInverse | ctinteractiveInverse
| ctwrite | ctlineNumber | ctshell.
(* command.go:4-11 *)
Record command := { c_typ : cmdType; c_start : address; c_end : address; c_dest : address;
                    c_text : bytes; c_params : list bytes }.
(* the zero value Command{} *)
Definition zero_command : command :=
  {| c_typ := ctnull; c_start := zero_address; c_end := zero_address; c_dest := zero_address;
     c_text := []; c_params := [] |}.
(* the numeric value of a cmdType: iota, command.go:17-46 *)
Definition cmd_index (t : cmdType) : nat :=
  match t with
  | ctnull => 0 | ctappend => 1 | ctchange => 2 | ctdelete => 3 | ctedit => 4 | cteditForce => 5
  | ctfilename => 6 | ctglobal => 7 | ctinteractive => 8 | cthelp => 9 | cthelpMode => 10 | ctinsert => 11
  | ctjoin => 12 | ctmark => 13 | ctlist => 14 | ctmove => 15 | ctnumber => 16 | ctprint => 17
  | ctprompt => 18 | ctquit => 19 | ctquitForce => 20 | ctread => 21 | ctsubstitute => 22 | ctcopy => 23
  | ctundo => 24 | ctglobalInverse => 25 | ctinteractiveInverse => 26 | ctwrite => 27 | ctlineNumber => 28
  | ctshell => 29
  end%nat.
(* address.go:67-98 *)
Definition defaultAddresses : list (address * address) :=
  [(aCurPlusOne, aCurPlusOne); (aCur, aCur); (aCur, aCur); (aCur, aCur); (aCur, aCur); (aCur, aCur);
   (aCur, aCur); (aCur, aLast); (aCur, aLast); (aCur, aCur); (aCur, aCur); (aCur, aCur);
   (aCur, aCurPlusOne); (aCur, aCur); (aCur, aCur); (aCur, aCur); (aCur, aCur); (aCur, aCur);
   (aCur, aCur); (aCur, aCur); (aCur, aCur); (aLast, aLast); (aCur, aCur); (aCur, aCur);
   (aCur, aCur); (aCur, aLast); (aCur, aLast); (aCur, aLast); (aLast, aLast); (aCur, aCur)].
(* a.typ == lNull, address.go:102 and 104 *)
Definition is_null (a : address) : bool := match a_typ a with lNull => true | _ => false end.
(* address.go:100-109 *)
Definition setDefaultAddresses (cmd : command) : command :=
  if is_null (c_start cmd) then
    let d := nth (cmd_index (c_typ cmd)) defaultAddresses (zero_address, zero_address) in
    {| c_typ := c_typ cmd; c_start := fst d;
       c_end := if is_null (c_end cmd) then snd d else c_end cmd;
       c_dest := c_dest cmd; c_text := c_text cmd; c_params := c_params cmd |}
  else cmd.

(* ---- ed.go ---- *)
(* How a call ends: a value, a run-time panic (which ends the program), or never. *)
Inductive out (A : Type) := Val (a : A) | Crashes | Hangs.
Arguments Val {A}. Arguments Crashes {A}. Arguments Hangs {A}.
Definition obind {A C} (o : out A) (f : A -> out C) : out C :=
  match o with Val a => f a | Crashes => Crashes | Hangs => Hangs end.
Definition of_res {A} (r : res A) : out A := match r with Ok a => Val a | _ => Crashes end.

(* ed.go:25-30; the field modified is never used *)
Record itor := { e_pt : piece_table; e_filename : bytes; e_current : Z }.
(* &Itor{} (cmd/ed/main.go:12) *)
Definition zero_itor : itor := {| e_pt := zero_table; e_filename := []; e_current := 0 |}.
(* ed.go:33-37 *)
Definition NewEditor : itor := {| e_pt := new_piece_table [] false 0; e_filename := []; e_current := 0 |}.
(* ed.pt = pt, ed.currentLine = n *)
Definition set_pt (ed : itor) (pt : piece_table) : itor :=
  {| e_pt := pt; e_filename := e_filename ed; e_current := e_current ed |}.
Definition set_current (ed : itor) (n : Z) : itor :=
  {| e_pt := e_pt ed; e_filename := e_filename ed; e_current := n |}.

(* ed.go:160-176: the lines, and how many were appended before a trailing empty one was cut off *)
Definition text_lines (s : bytes) : out (list bytes * nat) :=
  let '(lines, toolong) := scan_lines s in
  if toolong then Crashes
  else match rev lines with
       | [] :: r => Val (rev r, List.length lines)
       | _ => Val (lines, List.length lines)
       end.
(* ed.go:160-176 *)
Definition getLines (ed : itor) : out (list bytes * nat) :=
  obind (of_res (pt_string (e_pt ed))) text_lines.

(* the sum computed by the loops ed.go:149-151 and 154-156 *)
Definition sum_lines (ls : list bytes) : Z := fold_right (fun l n => Z.of_nat (List.length l) + 1 + n) 0 ls.
(* ed.go:145-158 on the lines *)
Definition line_addr (lines : list bytes) (num : Z) : Z :=
  if Z.of_nat (List.length lines) <? num then sum_lines lines
  else sum_lines (firstn (Z.to_nat (num - 1)) lines).
(* ed.go:145-158 *)
Definition getLineAddr (ed : itor) (num : Z) : out Z :=
  obind (getLines ed) (fun '(lines, _) => Val (line_addr lines num)).

Section Runtime.
(* regexp.CompilePOSIX: None = error, Some = Match *)
Variable compile : bytes -> option (bytes -> bool).
(* capacity of a []string to which n strings were appended one by one: depends on the Go release *)
Variable capacity : nat -> nat.

(* ed.go:105-108: the slice expression is checked against the capacity; the elements between the length
   and the capacity are empty strings *)
Definition Print (ed : itor) (start fin : Z) : out bytes :=
  obind (getLines ed) (fun '(lines, n) =>
    let s := wrap64 (start - 1) in
    if (0 <=? s) && (s <=? fin) && (fin <=? Z.of_nat (capacity n))
    then Val (join [nl] (firstn (Z.to_nat (fin - s)) (skipn (Z.to_nat s) (lines ++ repeat [] (capacity n - List.length lines)))))
    else Crashes).

(* ed.go:110-117 from line i on, [k] lines *)
Fixpoint number_lines (lines : list bytes) (i : Z) (k : nat) : out bytes :=
  match k with
  | O => Val []
  | S k' =>
      if (1 <=? i) && (i <=? Z.of_nat (List.length lines))
      then obind (number_lines lines (i + 1) k')
             (fun r => Val (itoa i ++ [tab] ++ nth (Z.to_nat (i - 1)) lines [] ++ [nl] ++ r))
      else Crashes
  end.
(* ed.go:110-117; simplified: the loop runs end-start+1 times, so no line number wraps around (end is at
   most max_int64 and the loop panics at the first line outside the buffer) *)
Definition number (ed : itor) (start fin : Z) : out bytes :=
  obind (getLines ed) (fun '(lines, _) => number_lines lines start (Z.to_nat (fin + 1 - start))).

(* ed.go:120-127 *)
Definition String_ (ed : itor) : out bytes :=
  obind (of_res (pt_string (e_pt ed))) (fun s =>
    match rev s with
    | [] => Crashes
    | c :: _ => if Ascii.eqb c nl then Val s else Val (s ++ [nl])
    end).

(* PieceTable.Insert (piece_table.go:113-150) on ed.pt *)
Definition insert_at (ed : itor) (text : bytes) (at_ : Z) : out itor :=
  match pt_insert (e_pt ed) text at_ with
  | (pt, Returned) => Val (set_pt ed pt)
  | (_, Panics) => Crashes
  end.
(* ed.go:129-132 *)
Definition insertBeforeLine (ed : itor) (lineNum : Z) (text : bytes) : out itor :=
  obind (getLineAddr ed lineNum) (fun at_ => insert_at ed (text ++ [nl]) at_).

(* ed.go:136-142; the error is always nil *)
Definition Delete (ed : itor) (start fin : Z) : out itor :=
  obind (getLineAddr ed start) (fun realStart =>
  obind (getLineAddr ed (wrap64 (fin + 1))) (fun realEnd =>
    Val (set_pt ed (pt_delete (e_pt ed) (realEnd - realStart) realStart)))).

(* ed.go:187-195; the loop is followed for [fuel] rounds.  After one round per line it repeats itself
   (EdProofs.search_hangs), so running out of fuel is never ending. *)
Fixpoint search (matches : bytes -> bool) (lines : list bytes) (current n : Z) (fuel : nat) : out (Z * bool) :=
  match fuel with
  | O => Hangs
  | S f =>
      if (1 <=? n) && (n <=? Z.of_nat (List.length lines)) then
        if matches (nth (Z.to_nat (n - 1)) lines []) then Val (n, true)
        else if n =? current then Val (-1, false)
        else search matches lines current (Z.rem n (Z.of_nat (List.length lines)) + 1) f
      else Crashes
  end.
(* ed.go:178-197 *)
Definition regexMatch (ed : itor) (re : bytes) : out (Z * bool) :=
  obind (getLines ed) (fun '(lines, _) =>
    match compile re with
    | None => Val (-1, false)
    | Some matches =>
        match lines with
        | [] => Crashes                     (* integer divide by zero *)
        | _ => search matches lines (e_current ed) (Z.rem (e_current ed) (Z.of_nat (List.length lines)) + 1)
                 (List.length lines)
        end
    end).

(* strconv.ParseUint(s, 10, 64) after the first byte: None = ErrSyntax; a value of 2^64 or more stops
   the scan at once with ErrRange, here the value 2^64 *)
Fixpoint uint_value (acc : N) (b : bytes) : option N :=
  match b with
  | [] => Some acc
  | c :: r =>
      match digit_of c with
      | None => None
      | Some d => if (2 ^ 64 <=? 10 * acc + d)%N then Some (2 ^ 64)%N else uint_value (10 * acc + d) r
      end
  end.
(* the value of strconv.Atoi when the error is ignored (ed.go:264): 0 for ErrSyntax, the nearest int for
   ErrRange *)
Definition atoi_value (t : bytes) : Z :=
  let unsigned d := match d with [] => None | _ => uint_value 0 d end in
  match t with
  | [] => 0
  | c :: r =>
      if Ascii.eqb c "-" then match unsigned r with Some n => Z.max min_int64 (- Z.of_N n) | None => 0 end
      else match unsigned (if Ascii.eqb c "+" then r else t) with
           | Some n => Z.min max_int64 (Z.of_N n)
           | None => 0
           end
  end.
(* strings.Trim(s, "/") *)
Fixpoint trim_slash_left (s : bytes) : bytes :=
  match s with c :: r => if Ascii.eqb c "/" then trim_slash_left r else s | [] => [] end.
Definition trim_slash (s : bytes) : bytes := rev (trim_slash_left (rev (trim_slash_left s))).
(* ed.go:258-284 *)
Definition addrLine (ed : itor) (a : address) : out Z :=
  obind (match a_typ a with
         | lCurrent => Val (e_current ed)
         | lNum => Val (atoi_value (a_text a))
         | lLast => obind (getLines ed) (fun '(lines, _) => Val (Z.of_nat (List.length lines)))
         | lRegex => obind (regexMatch ed (trim_slash (a_text a))) (fun '(n, _) => Val n)
         | _ => Crashes
         end) (fun line => Val (wrap64 (line + a_offset a))).

(* ed.go:286-294 *)
Definition linesIn (s : bytes) : Z := 1 + Z.of_nat (List.length (filter (N.eqb 10) (runes_of s))).

(* ---- files ---- *)
(* the regular files and their contents; simplified: no permissions, links or directories *)
Definition files := bytes -> option bytes.
(* the files after [name] is given contents, or removed *)
Definition upd (fs : files) (name : bytes) (c : option bytes) : files :=
  fun n => if beqb n name then c else fs n.
(* which system calls fail, and how many bytes each write call stores *)
Record faults := { f_stat : bool; f_open : bool; f_chunks : list nat; f_write : bool; f_close : bool;
                   f_rename : bool; f_remove : bool; f_reopen : bool; f_fstat : bool }.
Variable errtext : bytes.    (* err.Error() of a failed system call *)

(* ed.go:80-102: the error message, or None for success *)
Definition Edit (fs : files) (o : faults) (ed : itor) (filename : bytes) : out (itor * option bytes) :=
  match fs filename with
  | None => Val (ed, Some errtext)
  | Some content =>
      if f_reopen o then Val (ed, Some errtext)
      else if f_fstat o then Val (ed, Some errtext)
      else
        let pt := new_piece_table content true (Z.of_nat (List.length content)) in
        let ed1 := {| e_pt := pt; e_filename := filename; e_current := e_current ed |} in
        obind (getLines ed1) (fun '(lines, _) => Val (set_current ed1 (Z.of_nat (List.length lines)), None))
  end.

(* the states of the files while [data] is written with the given chunk sizes; the last is the final one *)
Fixpoint write_states (fs : files) (name written data : bytes) (chunks : list nat) : list files :=
  match chunks with
  | [] => []
  | k :: ks => let w := written ++ firstn k data in
               upd fs name (Some w) :: write_states fs name w (skipn k data) ks
  end.
(* ioutil.WriteFile(name, data, mode): open with O_CREATE|O_TRUNC, write, close.  The states of the files
   after each system call (oldest first), and whether it succeeded. *)
Definition WriteFile (fs : files) (o : faults) (name data : bytes) : list files * bool :=
  if f_open o then ([], false)
  else
    let opened := upd fs name (Some []) in
    if f_write o then (opened :: write_states fs name [] data (f_chunks o), false)
    else (opened :: write_states fs name [] data (f_chunks o) ++ [upd fs name (Some data)], negb (f_close o)).
(* the files after a number of system calls *)
Definition final (fs : files) (states : list files) : files := last states fs.
(* os.Remove *)
Definition remove (fs : files) (o : faults) (name : bytes) : files :=
  if f_remove o then fs else upd fs name None.

(* ed.go:54 *)
Definition swp (name : bytes) : bytes := name ++ B ".swp".
(* ed.go:48-77: the states of the files after each system call, then the editor and the error if any *)
Definition Write (fs : files) (o : faults) (ed : itor) : list files * out (itor * option bytes) :=
  match pt_string (e_pt ed) with
  | Ok data =>
      let ed1 := set_pt ed (pt_close (e_pt ed)) in
      let tmp := swp (e_filename ed) in
      if f_stat o || match fs (e_filename ed) with None => true | _ => false end
      then ([], Val (ed1, Some errtext))
      else
        let '(states, ok) := WriteFile fs o tmp data in
        let fs1 := final fs states in
        if negb ok then (states ++ [remove fs1 o tmp], Val (ed1, Some errtext))
        else if f_rename o then (states ++ [remove fs1 o tmp], Val (ed1, Some errtext))
        else
          let fs2 := upd (upd fs1 (e_filename ed) (fs1 tmp)) tmp None in
          (states ++ [fs2], Edit fs2 o ed1 (e_filename ed))
  | _ => ([], Crashes)
  end.

(* ed.go:296-357: the states the files go through, the editor and the reply *)
Definition processCommand (fs : files) (o : faults) (ed : itor) (cmd0 : command)
  : out (list files * itor * bytes) :=
  let cmd := setDefaultAddresses cmd0 in
  let line a := addrLine ed a in
  let reply r := Val ([], ed, r) in
  match c_typ cmd with
  | ctedit =>
      obind (Edit fs o ed (match c_params cmd with f :: _ => f | [] => [] end)) (fun '(ed', e) =>
        Val ([], ed', match e with Some m => m | None => [] end))
  | ctprint =>
      obind (line (c_start cmd)) (fun s => obind (line (c_end cmd)) (fun e => obind (Print ed s e) reply))
  | ctnumber =>
      obind (line (c_start cmd)) (fun s => obind (line (c_end cmd)) (fun e => obind (number ed s e) reply))
  | ctnull =>
      obind (line (c_start cmd)) (fun n =>
        let ed' := set_current ed n in obind (Print ed' n n) (fun r => Val ([], ed', r)))
  | ctwrite =>
      let '(states, r) := Write fs o ed in
      obind r (fun '(ed', e) =>
        Val (states, ed', match e with Some m => B "?" ++ m | None => [] end))
  | ctdelete =>
      obind (line (c_start cmd)) (fun s => obind (line (c_end cmd)) (fun e =>
      obind (Delete ed s e) (fun ed1 =>
      obind (addrLine ed1 (c_start cmd)) (fun n => Val ([], set_current ed1 n, [])))))
  | ctappend =>
      obind (line (c_start cmd)) (fun s0 =>
        let s := wrap64 (s0 + 1) in
        obind (insertBeforeLine ed s (c_text cmd)) (fun ed1 =>
          Val ([], set_current ed1 (wrap64 (s + linesIn (c_text cmd))), [])))
  | ctinsert =>
      obind (line (c_start cmd)) (fun s =>
        obind (insertBeforeLine ed s (c_text cmd)) (fun ed1 => Val ([], ed1, [])))
  | ctchange =>
      obind (line (c_start cmd)) (fun s => obind (line (c_end cmd)) (fun e =>
      obind (Delete ed s e) (fun ed1 =>
      obind (addrLine ed1 (c_start cmd)) (fun s1 =>
      obind (insertBeforeLine ed1 s1 (c_text cmd)) (fun ed2 =>
      obind (addrLine ed2 (c_start cmd)) (fun s2 =>
        Val ([], set_current ed2 (wrap64 (s2 + linesIn (c_text cmd))), [])))))))
  | ctlineNumber => obind (line (c_start cmd)) (fun n => reply (itoa n))
  | _ => reply (B "? (NYI)")
  end.

(* The command loop of ProcessCommands on the commands it receives (ed.go:247-255): what it writes, and
   how it ends.  [o k] are the system call failures during the k-th command.  The debugging output on
   standard output (ed.go:55, 248) is not included here; see EdLoopModel.v. *)
Fixpoint command_loop (fs : files) (o : nat -> faults) (k : nat) (ed : itor) (cmds : list command)
  : list bytes * out (files * itor) :=
  match cmds with
  | [] => ([], Val (fs, ed))
  | c :: r =>
      match c_typ c with
      | ctquit => ([], Val (fs, ed))
      | _ =>
          match processCommand fs (o k) ed c with
          | Val (states, ed', reply) =>
              let '(w, e) := command_loop (final fs states) o (S k) ed' r in ((reply ++ [nl]) :: w, e)
          | Crashes => ([], Crashes)
          | Hangs => ([], Hangs)
          end
      end
  end.
End Runtime.
