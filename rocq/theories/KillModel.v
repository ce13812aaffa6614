(* Model of cmd/kill/main.go. *)
From Verif Require Import GoBase.

(* cmd/kill/main.go:12-21 *)
Definition signal_map : list (bytes * Z) :=
  [(B "0", 0); (B "HUP", 1); (B "INT", 2); (B "QUIT", 3); (B "ABRT", 6); (B "KILL", 9);
   (B "ALRM", 14); (B "TERM", 15)]%Z.
Definition lookup (name : bytes) : option Z :=
  option_map snd (find (fun p => beqb (fst p) name) signal_map).

(* strings.ToUpper, as far as a comparison with ASCII text can tell: U+0131 and U+017F are the
   only non-ASCII runes whose upper case is ASCII; other non-ASCII runes are left alone here
   (Go maps them to non-ASCII runes). *)
Definition upper_rune (r : N) : N :=
  if ((97 <=? r) && (r <=? 122))%N then (r - 32)%N
  else if (r =? 305)%N then 73%N else if (r =? 383)%N then 83%N else r.
Definition to_upper (b : bytes) : bytes := string_of_runes (map upper_rune (runes_of b)).

(* How the argument loop ended: (signal, pid), an exit 2 with a message, or a panic. *)
Inductive parsed := Parsed (signal pid : Z) | Bad (msg : bytes) | Crash.

(* cmd/kill/main.go:35-60; -l only sets an unused variable *)
Fixpoint parse_args (args : list bytes) (signal pid : Z) : parsed :=
  match args with
  | [] => Parsed signal pid
  | a :: r =>
      if beqb a (B "-l") then parse_args r signal pid
      else if beqb a (B "-s") then
        match r with
        | [] => Crash                                         (* os.Args[i] out of range *)
        | n :: r' =>
            match lookup (to_upper n) with
            | Some s => parse_args r' s pid
            | None => Bad (a ++ B " is not a valid signal name - check kill -l for help" ++ [nl])
            end
        end
      else match a with
           | [] => Crash                                      (* a[0] out of range *)
           | c :: t =>
               if Ascii.eqb c "-" then
                 match atoi t with
                 | Some s => parse_args r s pid
                 | None => Bad (a ++ B " isn't a number, bro...")
                 end
               else
                 match atoi a with
                 | Some p => parse_args r signal p
                 | None => Bad (B "expected a PID here..., got " ++ a)
                 end
           end
  end.

(* What a run did, with the signals it sent as kill(2) calls (pid, signal). *)
Record kill_result := { run : run_result; signals : list (Z * Z) }.

(* os.Process.Kill on Unix: Signal(SIGKILL); pid -1 and 0 are refused without a system call.
   [kill_err p]: the error the kernel answers to kill(p, 9) with, if any. *)
Definition process_kill (kill_err : Z -> option bytes) (pid : Z) : list (Z * Z) * option bytes :=
  if (pid =? -1)%Z then ([], Some (B "os: process already released"))
  else if (pid =? 0)%Z then ([], Some (B "os: process not initialized"))
  else ([(pid, 9%Z)], kill_err pid).

(* cmd/kill/main.go:28-77, errorMsg (23-26) being the message and exit status 2; os.FindProcess (line 66) always succeeds on Unix *)
Definition kill_main (kill_err : Z -> option bytes) (args : list bytes) : kill_result :=
  match parse_args args 15 0 with
  | Crash => {| run := {| out := []; errout := []; fin := Panicked |}; signals := [] |}
  | Bad m => {| run := {| out := []; errout := m; fin := Exit 2 |}; signals := [] |}
  | Parsed signal pid =>
      let sending := B "sending " ++ itoa signal ++ B " to " ++ itoa pid ++ [nl] in
      match process_kill kill_err pid with
      | (k, Some e) =>
          {| run := {| out := sending;
                       errout := B "couldn't send signal " ++ itoa signal ++ B " to " ++ itoa pid ++ B ", " ++ e;
                       fin := Exit 2 |}; signals := k |}
      | (k, None) =>
          {| run := {| out := sending ++ B "vim-go" ++ [nl]; errout := []; fin := Exit 0 |}; signals := k |}
      end
  end.
