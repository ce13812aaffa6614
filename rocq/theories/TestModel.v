(* Model of cmd/test/main.go and cmd/test/tests.go. *)
From Verif Require Import GoBase.

(* os.FileInfo: the mode word and the size *)
Record file_info := { mode : N; size : Z }.
(* The file system: what os.Stat and os.Lstat answer, None for an error. *)
Record world := { stat : bytes -> option file_info; lstat : bytes -> option file_info }.

(* A Go result (bool, error): the Boolean and whether the error is non-nil. *)
Definition result := (bool * option bytes)%type.

(* os.FileMode constants (Go standard library) *)
Definition bit (n : N) : N := N.shiftl 1 n.
Definition ModeDir := bit 31.
Definition ModeSymlink := bit 27.
Definition ModeDevice := bit 26.
Definition ModeNamedPipe := bit 25.
Definition ModeSocket := bit 24.
Definition ModeSetuid := bit 23.
Definition ModeSetgid := bit 22.
Definition ModeCharDevice := bit 21.
Definition ModeIrregular := bit 19.
Definition ModeType := fold_left N.lor
  [ModeSymlink; ModeNamedPipe; ModeSocket; ModeDevice; ModeCharDevice; ModeIrregular] ModeDir.
(* os.FileMode.IsDir, IsRegular (Go standard library) *)
Definition IsDir (m : N) : bool := negb (N.land m ModeDir =? 0)%N.
Definition IsRegular (m : N) : bool := (N.land m ModeType =? 0)%N.

(* cmd/test/tests.go:9 *)
Definition prefix_test := world -> bytes -> result.
(* cmd/test/tests.go:11-19 *)
Definition modeIs (fm : N) : prefix_test := fun w p =>
  match stat w p with
  | None => (false, None)
  | Some fi => ((N.land (mode fi) fm =? fm)%N, None)
  end.
(* cmd/test/tests.go:21-29 *)
Definition info (f : file_info -> bool) : prefix_test := fun w p =>
  match stat w p with
  | None => (false, None)
  | Some fi => (f fi, None)
  end.
(* cmd/test/tests.go:31-35 *)
Definition noerr (f : bytes -> bool) : prefix_test := fun _ p => (f p, None).
(* cmd/test/tests.go:37-39 *)
Definition nyi : prefix_test := fun _ _ => (false, Some (B "NYI")).
(* cmd/test/tests.go:40-46 *)
Definition isLink : prefix_test := fun w p =>
  match lstat w p with
  | None => (false, None)
  | Some fi => ((N.land (mode fi) ModeSymlink =? ModeSymlink)%N, None)
  end.

(* cmd/test/tests.go:48-67 *)
Definition flag_map : list (ascii * prefix_test) :=
  [("a"%char, modeIs ModeDevice);
   ("c"%char, modeIs ModeCharDevice);
   ("d"%char, info (fun i => IsDir (mode i)));
   ("e"%char, info (fun _ => true));
   ("f"%char, info (fun i => IsRegular (mode i)));
   ("g"%char, modeIs ModeSetgid);
   ("h"%char, isLink);
   ("L"%char, isLink);
   ("n"%char, noerr (fun i => negb (beqb i [])));
   ("p"%char, modeIs ModeNamedPipe);
   ("r"%char, nyi);
   ("S"%char, modeIs ModeSocket);
   ("s"%char, info (fun i => (0 <? size i)%Z));
   ("t"%char, nyi);
   ("u"%char, modeIs ModeSetuid);
   ("w"%char, nyi);
   ("x"%char, nyi);
   ("z"%char, noerr (fun i => beqb i []))].
Definition flag_lookup (c : ascii) : option prefix_test :=
  option_map snd (find (fun p => Ascii.eqb (fst p) c) flag_map).

(* cmd/test/tests.go:69 *)
Definition infix_test := bytes -> bytes -> result.
(* cmd/test/tests.go:71-83; the error text of strconv.Atoi is not modelled *)
Definition numcmp (cmp : Z -> Z -> bool) : infix_test := fun a b =>
  match atoi a with
  | None => (false, Some (B "strconv.Atoi"))
  | Some an =>
      match atoi b with
      | None => (false, Some (B "strconv.Atoi"))
      | Some bn => (cmp an bn, None)
      end
  end.
(* cmd/test/tests.go:85-94 *)
Definition infix_map : list (bytes * infix_test) :=
  [(B "=", fun a b => (beqb a b, None));
   (B "!=", fun a b => (negb (beqb a b), None));
   (B "-eq", numcmp (fun a b => a =? b)%Z);
   (B "-ne", numcmp (fun a b => negb (a =? b))%Z);
   (B "-gt", numcmp (fun a b => b <? a)%Z);
   (B "-ge", numcmp (fun a b => b <=? a)%Z);
   (B "-lt", numcmp (fun a b => a <? b)%Z);
   (B "-le", numcmp (fun a b => a <=? b)%Z)].
Definition infix_lookup (o : bytes) : option infix_test :=
  option_map snd (find (fun p => beqb (fst p) o) infix_map).

(* cmd/test/main.go:37-41: the prefix test an argument names, if any *)
Definition prefix_of (a : bytes) : option prefix_test :=
  match a with
  | [d; c] => if Ascii.eqb d "-" then flag_lookup c else None
  | _ => None
  end.

(* cmd/test/main.go:21-50 *)
Fixpoint parse (w : world) (args : list bytes) : result :=
  match args with
  | [] => (false, None)
  | [a] => (negb (beqb a []), None)
  | arg :: ((a1 :: r) as rest) =>
      if beqb arg (B "!") then let '(ok, err) := parse w rest in (negb ok, err)
      else if beqb arg [] then (false, None)
      else match prefix_of arg with
           | Some f => f w a1
           | None =>
               match r with
               | [a2] => match infix_lookup a1 with
                         | Some f => f arg a2
                         | None => (false, Some (B "idk what to do about this"))
                         end
               | _ => (false, Some (B "idk what to do about this"))
               end
           end
  end.

(* cmd/test/main.go:8-17 *)
Definition test_main (w : world) (args : list bytes) : run_result :=
  match parse w args with
  | (_, Some e) => {| out := []; errout := B "Error: " ++ e ++ [nl]; fin := Exit 2 |}
  | (true, None) => {| out := []; errout := []; fin := Exit 0 |}
  | (false, None) => {| out := []; errout := []; fin := Exit 1 |}
  end.
