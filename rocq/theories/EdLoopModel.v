(* Model of the two goroutines of ProcessCommands (pkg/ed/ed.go:207-256) and of cmd/ed/main.go.
   The reading goroutine scans and parses commands, reports syntax errors and sends commands over an
   unbuffered channel; the command loop receives them, executes them and replies.  Both write to the same
   output, and either may run at any time. *)
From Verif Require Import GoBase PieceTableModel EdModel EdPegModel.

(* ---- what is printed for debugging on standard output ---- *)
(* the numeric value of an addressType: iota, address.go:10-17 *)
Definition addr_index (t : addressType) : Z :=
  match t with
  | lNull => 0 | lCurrent => 1 | lLast => 2 | lNum => 3 | lOffset => 4 | lRegex => 5 | lRegexReverse => 6 | lMark => 7
  end.
(* %v of an address (address.go:20-24) *)
Definition show_addr (a : address) : bytes :=
  B "{" ++ itoa (addr_index (a_typ a)) ++ B " " ++ a_text a ++ B " " ++ itoa (a_offset a) ++ B "}".
(* ed.go:248: fmt.Println("cmd", cmd) of a Command (command.go:4-11) *)
Definition show_cmd (c : command) : bytes :=
  B "cmd {" ++ itoa (Z.of_nat (cmd_index (c_typ c))) ++ B " " ++ show_addr (c_start c) ++ B " " ++ show_addr (c_end c) ++ B " " ++
  show_addr (c_dest c) ++ B " " ++ c_text c ++ B " [" ++ join (B " ") (c_params c) ++ B "]}" ++ [nl].
(* ed.go:55 *)
Definition write_note (ed : itor) : bytes :=
  B "f is '" ++ e_filename ed ++ B "', tmp is '" ++ swp (e_filename ed) ++ B "'" ++ [nl].
(* what executing a command prints besides its reply: Write's note, after the buffer was read (ed.go:49-55) *)
Definition notes (ed : itor) (c : command) : list bytes :=
  match c_typ c, pt_string (e_pt ed) with ctwrite, Ok _ => [write_note ed] | _, _ => [] end.

(* ---- the reading goroutine ---- *)
(* ed.go:212-244: everything it does with this input, in order; then it closes the channel.  Parsing
   always ends with a value (C78).  Simplified: reading the input does not fail. *)
Definition reads (perr : bytes -> bytes) (input : bytes) : list revent :=
  let '(lines, toolong) := scan_lines input in
  flat_map (fun b => match handle perr b with Val l => l | _ => [] end) (buffers lines) ++
  (if toolong then [RPrint (B "Err: bufio.Scanner: token too long" ++ [nl])] else []).

(* ---- the two together ---- *)
(* where the command loop is: waiting for a command; about to print the one received, to execute it, or to
   write its reply; or in a command that never ends *)
Inductive consumer := Idle | Got (c : command) | Busy (c : command) | Answer (r : bytes) | Stuck.
(* the program runs, has ended (the command loop returned, and main with it), or was ended by a panic *)
Inductive status := Running | Finished | Crashed.
(* what reaches the output: syntax errors, replies, and debugging text *)
Inductive output := OError (s : bytes) | OReply (s : bytes) | ODebug (s : bytes).
(* what the reader still has to do, the command loop, files and editor, the number of commands executed,
   the output so far *)
Record loop := { l_todo : list revent; l_cons : consumer; l_fs : files; l_ed : itor; l_k : nat;
                 l_out : list output; l_status : status }.
Definition after_read (s : loop) (todo : list revent) (out : list output) : loop :=
  {| l_todo := todo; l_cons := l_cons s; l_fs := l_fs s; l_ed := l_ed s; l_k := l_k s; l_out := l_out s ++ out; l_status := l_status s |}.
Definition after_cons (s : loop) (c : consumer) (out : list output) : loop :=
  {| l_todo := l_todo s; l_cons := c; l_fs := l_fs s; l_ed := l_ed s; l_k := l_k s; l_out := l_out s ++ out; l_status := l_status s |}.
Definition ends (s : loop) (st : status) : loop :=
  {| l_todo := l_todo s; l_cons := l_cons s; l_fs := l_fs s; l_ed := l_ed s; l_k := l_k s; l_out := l_out s; l_status := st |}.
(* the command has been executed *)
Definition executed (s : loop) (fs : files) (ed : itor) (r : bytes) (out : list output) : loop :=
  {| l_todo := l_todo s; l_cons := Answer r; l_fs := fs; l_ed := ed; l_k := S (l_k s); l_out := l_out s ++ out; l_status := l_status s |}.

Section Loop.
Variable compile : bytes -> option (bytes -> bool).
Variable capacity : nat -> nat.
Variable errtext : bytes.
Variable o : nat -> faults.      (* the system call failures during the k-th command *)

(* one step of either goroutine *)
Inductive step : loop -> loop -> Prop :=
(* ed.go:235 *)
| st_error s m t : l_status s = Running -> l_todo s = RError m :: t -> step s (after_read s t [OError m])
(* ed.peg.go, Action8; ed.go:242 *)
| st_print s m t : l_status s = Running -> l_todo s = RPrint m :: t -> step s (after_read s t [ODebug m])
(* ed.peg.go, Action1, and ed.go:247: both meet at the unbuffered channel *)
| st_send s c t : l_status s = Running -> l_todo s = RSend c :: t -> l_cons s = Idle ->
    step s (after_cons (after_read s t []) (Got c) [])
(* ed.go:244 and 247: the channel is closed and the command loop ends *)
| st_closed s : l_status s = Running -> l_todo s = [] -> l_cons s = Idle -> step s (ends s Finished)
(* ed.go:248-252 *)
| st_quit s c : l_status s = Running -> l_cons s = Got c -> c_typ c = ctquit ->
    step s (ends (after_cons s Idle [ODebug (show_cmd c)]) Finished)
| st_show s c : l_status s = Running -> l_cons s = Got c -> c_typ c <> ctquit ->
    step s (after_cons s (Busy c) [ODebug (show_cmd c)])
(* ed.go:253 *)
| st_run s c states ed' r : l_status s = Running -> l_cons s = Busy c ->
    processCommand compile capacity errtext (l_fs s) (o (l_k s)) (l_ed s) c = Val (states, ed', r) ->
    step s (executed s (final (l_fs s) states) ed' r (map ODebug (notes (l_ed s) c)))
| st_crash s c : l_status s = Running -> l_cons s = Busy c ->
    processCommand compile capacity errtext (l_fs s) (o (l_k s)) (l_ed s) c = Crashes ->
    step s (ends (after_cons s Idle (map ODebug (notes (l_ed s) c))) Crashed)
| st_hang s c : l_status s = Running -> l_cons s = Busy c ->
    processCommand compile capacity errtext (l_fs s) (o (l_k s)) (l_ed s) c = Hangs ->
    step s (after_cons s Stuck (map ODebug (notes (l_ed s) c)))
(* ed.go:254 *)
| st_reply s r : l_status s = Running -> l_cons s = Answer r -> step s (after_cons s Idle [OReply (r ++ [nl])]).

(* any number of steps *)
Inductive steps : loop -> loop -> Prop :=
| steps_refl s : steps s s
| steps_step s s' s'' : step s s' -> steps s' s'' -> steps s s''.

(* ed.go:209-245: the start of ProcessCommands *)
Definition begin (fs : files) (ed : itor) (todo : list revent) : loop :=
  let s ed st := {| l_todo := todo; l_cons := Idle; l_fs := fs; l_ed := ed; l_k := 0; l_out := []; l_status := st |} in
  match getLines ed with
  | Val (lines, _) => s (set_current ed (Z.of_nat (List.length lines))) Running
  | _ => s ed Crashed
  end.
(* cmd/ed/main.go:11-30: the input with the command that opens the file named on the command line.
   Simplified: w.Close() at the end is not modelled. *)
Definition main_input (edit : option bytes) (input : bytes) : bytes :=
  match edit with Some f => B "e " ++ f ++ [nl] ++ input | None => input end.
Definition main (perr : bytes -> bytes) (fs : files) (edit : option bytes) (input : bytes) : loop :=
  begin fs zero_itor (reads perr (main_input edit input)).
End Loop.
