(* Model of cmd/head/main.go. *)
From Verif Require Import GoBase.

(* What reading to the end gives: the bytes, then the read error if any. *)
Definition stream := (bytes * option bytes)%type.

(* The environment.  [opens f]: what os.Open(f) followed by reading gives, None if it cannot be opened.
   [stdin_at i]: what is still unread on standard input when the operand at position i is "-" (an
   earlier "-" consumes an amount that depends on the scanner's reads, so this is left open). *)
Record world := { opens : bytes -> option stream; stdin_at : nat -> stream }.

(* cmd/head/main.go:11-14 *)
Record settings := { numLines : Z; filenames : list bytes }.

(* cmd/head/main.go:27-38 *)
Fixpoint parse_args (args : list bytes) (s : settings) : res settings :=
  match args with
  | [] => Ok s
  | a :: r =>
      if beqb a (B "-n") then
        match r with
        | [] => Panic                              (* line 30: args[i] out of range *)
        | v :: r' =>
            match atoi v with
            | None => Err (B "strconv.Atoi")       (* lines 31-33; the error text is not modelled *)
            | Some n => parse_args r' {| numLines := n; filenames := filenames s |}
            end
        end
      else parse_args r {| numLines := numLines s; filenames := filenames s ++ [a] |}
  end.

(* cmd/head/main.go:16-45 *)
Definition parse_settings (args : list bytes) : res settings :=
  let s := {| numLines := 10; filenames := [] |} in
  match args with
  | [] => Ok s
  | _ => match parse_args args s with
         | Ok s => Ok (match filenames s with
                       | [] => {| numLines := numLines s; filenames := [B "-"] |}
                       | _ => s
                       end)
         | e => e
         end
  end.

(* cmd/head/main.go:67-75 on the input cut at its newlines: the output, and whether it panicked.
   [k] is numLines - j.  bufio.Scanner: a line of 65536 bytes or more stops the scan with an error;
   a read error is only met when no complete line is buffered, after which the unterminated rest
   is still returned as a line. *)
Fixpoint head_segs (segs : list bytes) (rerr : bool) (k : Z) : bytes * bool :=
  match segs with
  | [] => ([], rerr)
  | [s] =>
      if (max_token <=? N.of_nat (List.length s))%N then ([], true)
      else match s with
           | [] => ([], rerr)
           | _ => (if (0 <? k)%Z then drop_cr s ++ [nl] else [], rerr)
           end
  | s :: r =>
      if (max_token <=? N.of_nat (List.length s))%N then ([], true)
      else if (0 <? k)%Z then
        let '(o, p) := head_segs r rerr (k - 1) in (drop_cr s ++ [nl] ++ o, p)
      else ([], false)
  end.

Definition head_file (c : stream) (k : Z) : bytes * bool :=
  head_segs (split_on nl (fst c)) (match snd c with Some _ => true | None => false end) k.

(* cmd/head/main.go:50-66: header, then open *)
Definition header (many : bool) (i : nat) (f : bytes) : bytes :=
  if many then (if 0 <? i then [nl] else []) ++ B "==> " ++ f ++ B " <==" ++ [nl] else [].
Definition open (w : world) (i : nat) (f : bytes) : option stream :=
  if beqb f (B "-") then Some (stdin_at w i) else opens w f.

(* cmd/head/main.go:47-78, from position i on *)
Fixpoint process_from (w : world) (many : bool) (k : Z) (i : nat) (fs : list bytes) : run_result :=
  match fs with
  | [] => {| out := []; errout := []; fin := Exit 0 |}
  | f :: r =>
      match open w i f with
      | None => {| out := header many i f; errout := []; fin := Panicked |}
      | Some c =>
          let '(o, p) := head_file c k in
          if p then {| out := header many i f ++ o; errout := []; fin := Panicked |}
          else let rr := process_from w many k (S i) r in
               {| out := header many i f ++ o ++ out rr; errout := errout rr; fin := fin rr |}
      end
  end.

(* cmd/head/main.go:80-86.  Output is written as it is produced (os.Stdout is unbuffered); write
   errors and the panic trace on standard error are not modelled. *)
Definition head_main (w : world) (args : list bytes) : run_result :=
  match parse_settings args with
  | Ok s => process_from w (1 <? List.length (filenames s)) (numLines s) 0 (filenames s)
  | _ => {| out := []; errout := []; fin := Panicked |}
  end.
