(* Specification vocabulary for C34, C35. *)
From Verif Require Import GoBase NumFacts KillModel.

(* POSIX names and numbers of signals *)
Definition posix_signals : list (bytes * Z) :=
  [(B "0", 0); (B "HUP", 1); (B "INT", 2); (B "QUIT", 3); (B "ABRT", 6); (B "KILL", 9);
   (B "ALRM", 14); (B "TERM", 15)]%Z.
(* [t] is the name [s] with any of its capital letters in lower case.  Unicode has two more small
   letters whose capitals are in ASCII: the dotless i (C4 B1 in UTF-8) and the long s (C5 BF). *)
Inductive in_any_case : bytes -> bytes -> Prop :=
| case_nil : in_any_case [] []
| case_same : forall c t s, in_any_case t s -> in_any_case (c :: t) (c :: s)
| case_lower : forall c d t s, (65 <= byte_val c <= 90)%N -> byte_val d = (byte_val c + 32)%N ->
    in_any_case t s -> in_any_case (d :: t) (c :: s)
| case_dotless : forall t s, in_any_case t s ->
    in_any_case (ascii_of_N 196 :: ascii_of_N 177 :: t) ("I"%char :: s)
| case_long_s : forall t s, in_any_case t s ->
    in_any_case (ascii_of_N 197 :: ascii_of_N 191 :: t) ("S"%char :: s).
(* a name given in any case *)
Definition names_signal (t : bytes) (n : Z) : Prop :=
  exists s, In (s, n) posix_signals /\ in_any_case t s.

(* pieces of a valid command line and what they mean *)
Inductive item := ListOpt | Name (t : bytes) (n : Z) | Number (t : bytes) (n : Z) | Pid (t : bytes) (p : Z).
Definition is_int64 (z : Z) : Prop := (min_int64 <= z <= max_int64)%Z.
Definition item_ok (i : item) : Prop :=
  match i with
  | ListOpt => True
  | Name t n => names_signal t n
  | Number t n => numeral t n /\ is_int64 n
  | Pid t p => numeral t p /\ is_int64 p /\ hd nl t <> "-"%char
  end.
Definition render (l : list item) : list bytes :=
  flat_map (fun i => match i with
                     | ListOpt => [B "-l"]
                     | Name t _ => [B "-s"; t]
                     | Number t _ => [B "-" ++ t]
                     | Pid t _ => [t]
                     end) l.
(* the signal asked for (15 by default) and the pid named last (0 if none) *)
Definition wanted (l : list item) : Z :=
  fold_left (fun acc i => match i with Name _ n => n | Number _ n => n | _ => acc end) l 15%Z.
Definition last_pid (l : list item) : Z :=
  fold_left (fun acc i => match i with Pid _ p => p | _ => acc end) l 0%Z.

(* what cannot continue a valid command line, and the complaint about it *)
Inductive bad_tail : list bytes -> bytes -> Prop :=
| bad_name : forall t r, (forall n, ~ names_signal t n) ->
    bad_tail (B "-s" :: t :: r) (B "-s is not a valid signal name - check kill -l for help" ++ [nl])
| bad_number : forall t r, B "-" ++ t <> B "-l" -> B "-" ++ t <> B "-s" ->
    (forall n, numeral t n -> ~ is_int64 n) ->
    bad_tail ((B "-" ++ t) :: r) (B "-" ++ t ++ B " isn't a number, bro...")
| bad_pid : forall t r, t <> [] -> hd nl t <> "-"%char ->
    (forall n, numeral t n -> ~ is_int64 n) -> bad_tail (t :: r) (B "expected a PID here..., got " ++ t).
(* what the program cannot cope with: -s without a name, an empty argument *)
Inductive crash_tail : list bytes -> Prop :=
| crash_s : crash_tail [B "-s"]
| crash_empty : forall r, crash_tail ([] :: r).
