(* Model of /repo/cmd/cmp/main.go *)
From Verif Require Import GoBase.

(* main.go:10-15 *)
Record settings := { writeAll : bool; silent : bool; file1 : bytes; file2 : bytes }.
Definition no_settings : settings := {| writeAll := false; silent := false; file1 := []; file2 := [] |}.

(* main.go:17-37; Err carries the error text *)
Fixpoint parse_settings_from (s : settings) (args : list bytes) : res settings :=
  match args with
  | [] => Ok s
  | a :: r =>
      if beqb a (B "-l") then
        parse_settings_from {| writeAll := true; silent := silent s; file1 := file1 s; file2 := file2 s |} r
      else if beqb a (B "-s") then
        parse_settings_from {| writeAll := writeAll s; silent := true; file1 := file1 s; file2 := file2 s |} r
      else if beqb (file1 s) [] then
        parse_settings_from {| writeAll := writeAll s; silent := silent s; file1 := a; file2 := file2 s |} r
      else if beqb (file2 s) [] then
        parse_settings_from {| writeAll := writeAll s; silent := silent s; file1 := file1 s; file2 := a |} r
      else Err (B "too many files: " ++ a)
  end.
Definition parse_settings (args : list bytes) : res settings := parse_settings_from no_settings args.

(* What a bufio.Reader delivers: bytes, then io.EOF (None) or another error. *)
Definition stream : Type := bytes * option bytes.

(* The world cmp runs in: what os.Open gives for a name (None = error), and what is read from standard
   input.  If both operands are "-" the two bufio.Readers take turns reading blocks from the same
   descriptor; [both] says what each of them then sees. *)
Record world := { opens : bytes -> option stream; stdin : stream; both : stream * stream }.

(* main.go:39-44 and 47-56 *)
Definition open (w : world) (f : bytes) : option stream :=
  if beqb f (B "-") then Some (stdin w) else opens w f.
Definition open_both (w : world) (s : settings) : res (stream * stream) :=
  match open w (file1 s) with
  | None => Err (B "could not open " ++ file1 s)
  | Some s1 =>
      match open w (file2 s) with
      | None => Err (B "could not open " ++ file2 s)
      | Some s2 =>
          if beqb (file1 s) (B "-") && beqb (file2 s) (B "-") then Ok (both w) else Ok (s1, s2)
      end
  end.

(* main.go:110 and 115 *)
Definition fail2 (outs : bytes) (msg : bytes) : run_result :=
  {| out := outs; errout := B "Error: " ++ msg; fin := Exit 2 |}.
(* main.go:88 and 95 *)
Definition eof_on (outs : bytes) (name : bytes) : run_result :=
  {| out := outs; errout := B "cmp: EOF on " ++ name ++ [nl]; fin := Exit 1 |}.

(* main.go:61-101: i, l count bytes and lines from 1 (Go int; overflow at 2^63 bytes not modelled) *)
Fixpoint cmp_loop (s : settings) (b1 b2 : bytes) (e1 e2 : option bytes) (i l : nat) (outs : bytes) : run_result :=
  match b1, b2 with
  | c1 :: r1, c2 :: r2 =>
      let l' := if Ascii.eqb c1 nl then S l else l in
      if Ascii.eqb c1 c2 then cmp_loop s r1 r2 e1 e2 (S i) l' outs
      else
        let outs' :=
          if silent s then outs
          else outs ++
            (if writeAll s then ntoa i ++ B " " ++ octal c1 ++ B " " ++ octal c2 ++ [nl]
             else file1 s ++ B " " ++ file2 s ++ B " differ: char " ++ ntoa i ++ B ", line " ++ ntoa l ++ [nl]) in
        if writeAll s then cmp_loop s r1 r2 e1 e2 (S i) l' outs'
        else {| out := outs'; errout := []; fin := Exit 1 |}
  | [], _ =>
      match e1, b2, e2 with
      | None, [], None => {| out := outs; errout := []; fin := Exit 0 |}
      | None, _, _ => eof_on outs (file1 s)
      | Some e, _, _ => fail2 outs (B "Error reading " ++ file1 s ++ B ": " ++ e)
      end
  | _ :: _, [] =>
      match e2 with
      | None => eof_on outs (file2 s)
      | Some e => fail2 outs (B "Error reading " ++ file2 s ++ B ": " ++ e)
      end
  end.

(* main.go:46-104 *)
Definition cmp (w : world) (s : settings) : run_result :=
  match open_both w s with
  | Ok ((b1, e1), (b2, e2)) => cmp_loop s b1 b2 e1 e2 1 1 []
  | Err m => fail2 [] m
  | Panic => fail2 [] []
  end.

(* main.go:106-118 *)
Definition cmp_main (w : world) (args : list bytes) : run_result :=
  match parse_settings args with
  | Ok s => cmp w s
  | Err m => fail2 [] m
  | Panic => fail2 [] []
  end.
