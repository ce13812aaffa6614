(* Model of the command line of cmd/cut: flag.Parse of Go's standard library with the flags of cmd/cut/main.go:46-51, and
   main as a whole.  The package flag is modelled from memory of its source (FlagSet.parseOne, FlagSet.Parse with
   ExitOnError), which is not in /repo.  What is taken as a parameter: [quote], the verb %q; [usage], the text of Usage, which
   names the program; [help_status], the status after -h and -help, which is 2 up to Go 1.14 and 0 from Go 1.15 on. *)
From Verif Require Import GoBase CutModel.

(* the flags of cmd/cut/main.go:46-51 *)
Inductive flag_name := F | FB | FC | FD | FN | FS.
(* flag.go: the map f.formal *)
Definition formal (name : bytes) : option flag_name :=
  if beqb name (B "f") then Some F else if beqb name (B "b") then Some FB else if beqb name (B "c") then Some FC
  else if beqb name (B "d") then Some FD else if beqb name (B "n") then Some FN else if beqb name (B "s") then Some FS else None.
(* flag.go: boolFlag; the flags n and s are made by flag.Bool *)
Definition is_bool (f : flag_name) : bool := match f with FN | FS => true | _ => false end.

(* cmd/cut/main.go:46-51: the defaults *)
Definition defaults : options :=
  {| optFields := []; optBytes := []; optChars := []; optDelim := [tab]; optNoSplit := false; optSuppress := false |}.
(* flag.go: stringValue.Set *)
Definition set_string (f : flag_name) (v : bytes) (o : options) : options :=
  match f with
  | F => {| optFields := v; optBytes := optBytes o; optChars := optChars o; optDelim := optDelim o; optNoSplit := optNoSplit o; optSuppress := optSuppress o |}
  | FB => {| optFields := optFields o; optBytes := v; optChars := optChars o; optDelim := optDelim o; optNoSplit := optNoSplit o; optSuppress := optSuppress o |}
  | FC => {| optFields := optFields o; optBytes := optBytes o; optChars := v; optDelim := optDelim o; optNoSplit := optNoSplit o; optSuppress := optSuppress o |}
  | FD => {| optFields := optFields o; optBytes := optBytes o; optChars := optChars o; optDelim := v; optNoSplit := optNoSplit o; optSuppress := optSuppress o |}
  | _ => o
  end.
(* flag.go: boolValue.Set *)
Definition set_bool (f : flag_name) (v : bool) (o : options) : options :=
  match f with
  | FN => {| optFields := optFields o; optBytes := optBytes o; optChars := optChars o; optDelim := optDelim o; optNoSplit := v; optSuppress := optSuppress o |}
  | FS => {| optFields := optFields o; optBytes := optBytes o; optChars := optChars o; optDelim := optDelim o; optNoSplit := optNoSplit o; optSuppress := v |}
  | _ => o
  end.
(* strconv.ParseBool *)
Definition parse_bool (v : bytes) : option bool :=
  if existsb (beqb v) [B "1"; B "t"; B "T"; B "true"; B "TRUE"; B "True"] then Some true
  else if existsb (beqb v) [B "0"; B "f"; B "F"; B "false"; B "FALSE"; B "False"] then Some false else None.

(* flag.go, parseOne: the loop that looks for = from the second byte of the name on *)
Fixpoint at_equals (b : bytes) : bytes * option bytes :=
  match b with
  | [] => ([], None)
  | c :: r => if Ascii.eqb c "=" then ([], Some r) else let '(n, v) := at_equals r in (c :: n, v)
  end.
Definition name_value (b : bytes) : bytes * option bytes :=
  match b with
  | [] => ([], None)
  | c :: r => let '(n, v) := at_equals r in (c :: n, v)
  end.

Inductive parsed :=
| Parsed (o : options) (operands : list bytes)
| Failed (message : bytes)       (* f.failf, then os.Exit(2) *)
| Help.                          (* ErrHelp *)
Section Line.
Variable quote : bytes -> bytes.
(* flag.go: FlagSet.Parse, calling parseOne until it says false *)
Fixpoint parse_flags (args : list bytes) (o : options) : parsed :=
  match args with
  | [] => Parsed o []
  | s :: rest =>
      match s with
      | c :: (c1 :: r1) as t =>
          if negb (Ascii.eqb c "-") then Parsed o args
          else
            let minus2 := Ascii.eqb c1 "-" in
            if minus2 && match r1 with [] => true | _ => false end then Parsed o rest
            else
              let word := if minus2 then r1 else c1 :: r1 in
              match word with
              | [] => Failed (B "bad flag syntax: " ++ s)
              | w :: _ =>
                  if Ascii.eqb w "-" || Ascii.eqb w "=" then Failed (B "bad flag syntax: " ++ s)
                  else
                    let '(name, value) := name_value word in
                    match formal name with
                    | None =>
                        if beqb name (B "help") || beqb name (B "h") then Help
                        else Failed (B "flag provided but not defined: -" ++ name)
                    | Some f =>
                        if is_bool f
                        then
                          match value with
                          | Some v =>
                              match parse_bool v with
                              | Some x => parse_flags rest (set_bool f x o)
                              | None => Failed (B "invalid boolean value " ++ quote v ++ B " for -" ++ name ++ B ": parse error")
                              end
                          | None => parse_flags rest (set_bool f true o)
                          end
                        else
                          match value with
                          | Some v => parse_flags rest (set_string f v o)
                          | None =>
                              match rest with
                              | v :: rest' => parse_flags rest' (set_string f v o)
                              | [] => Failed (B "flag needs an argument: -" ++ name)
                              end
                          end
                    end
              end
      | _ => Parsed o args
      end
  end.

(* cmd/cut/main.go:45-64 main *)
Definition cut_program (usage : bytes) (help_status : Z) (args : list bytes) : run_result :=
  match parse_flags args defaults with
  | Parsed o _ => cut_main o
  | Failed m => {| out := []; errout := m ++ nl :: usage; fin := Exit 2 |}
  | Help => {| out := []; errout := usage; fin := Exit help_status |}
  end.
End Line.
