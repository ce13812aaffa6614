(* Model of cmd/cut/main.go. *)
From Verif Require Import GoBase.

(* cmd/cut/main.go:25-43 *)
Definition check_args (fields bs chars delim : bytes) (split suppress : bool) : res unit :=
  let one (b : bytes) : nat := match b with [] => 0 | _ => 1 end in
  let modes := one fields + one bs + one chars in
  if 0 <? modes then Err (B "only specify one of -f, -b, and -c")
  else if modes =? 0 then Err (B "gotta specify at least one of -f, -b, and -c")
  else Ok tt.

(* The values the options have after flag.Parse (cmd/cut/main.go:46-52); the standard library's
   flag package is not modelled, an unset option has its default. *)
Record options := { optFields : bytes; optBytes : bytes; optChars : bytes; optDelim : bytes;
                    optNoSplit : bool; optSuppress : bool }.

(* cmd/cut/main.go:54-63 *)
Definition cut_main (o : options) : run_result :=
  match check_args (optFields o) (optBytes o) (optChars o) (optDelim o) (optNoSplit o) (optSuppress o) with
  | Err e => {| out := []; errout := B "Error: " ++ e; fin := Exit 1 |}
  | Panic => {| out := []; errout := []; fin := Panicked |}
  | Ok _ => {| out := []; errout := []; fin := Exit 0 |}
  end.
