(* Model of pkg/flag: flag.go and parse.go. *)
From Verif Require Import GoBase.

(* ---- strconv.ParseInt(s, 0, 64) (Go 1.12, the version of go.mod: no underscores, no 0b/0o) ---- *)
Definition digit36 (c : ascii) : option N :=
  let v := byte_val c in
  if ((48 <=? v) && (v <=? 57))%N then Some (v - 48)%N
  else if ((97 <=? v) && (v <=? 122))%N then Some (v - 87)%N
  else if ((65 <=? v) && (v <=? 90))%N then Some (v - 55)%N
  else None.
Fixpoint base_val (base acc : N) (b : bytes) : option N :=
  match b with
  | [] => Some acc
  | c :: r => match digit36 c with
              | Some d => if (d <? base)%N then base_val base (base * acc + d) r else None
              | None => None
              end
  end.
(* strconv.ParseUint(s, 0, 64) without the range check, which ParseInt's own check subsumes *)
Definition parse_uint (b : bytes) : option N :=
  match b with
  | [] => None
  | c :: r =>
      if Ascii.eqb c "0" then
        match r with
        | [] => Some 0%N
        | x :: r' =>
            if Ascii.eqb x "x" || Ascii.eqb x "X" then
              match r' with [] => None | _ => base_val 16 0 r' end
            else base_val 8 0 r
        end
      else base_val 10 0 b
  end.
Definition parse_int (b : bytes) : option Z :=
  match b with
  | [] => None
  | c :: r =>
      let z := if Ascii.eqb c "-" then option_map (fun n => - Z.of_N n)%Z (parse_uint r)
               else if Ascii.eqb c "+" then option_map Z.of_N (parse_uint r)
               else option_map Z.of_N (parse_uint b) in
      match z with
      | Some z => if in_int64 z then Some z else None
      | None => None
      end
  end.

(* A write through a flag's destination pointer.  Pointers are numbers; the state of the variables
   after a run is the initial one changed by the writes in order. *)
Inductive write := WBool (dest : nat) | WInt (dest : nat) (z : Z) | WStr (dest : nat) (s : bytes).

(* pkg/flag/parse.go:9-14; the maps as association lists, the latest registration first *)
Record parser := { bools : list (N * nat); strings : list (N * nat); ints : list (N * nat) }.
Definition new_parser : parser := {| bools := []; strings := []; ints := [] |}.
(* pkg/flag/parse.go:85-90 *)
Definition BoolVar (p : parser) (addr : nat) (name : N) : parser :=
  {| bools := (name, addr) :: bools p; strings := strings p; ints := ints p |}.
(* pkg/flag/parse.go:93-98 *)
Definition IntVar (p : parser) (addr : nat) (name : N) : parser :=
  {| bools := bools p; strings := strings p; ints := (name, addr) :: ints p |}.
(* pkg/flag/parse.go:101-106 *)
Definition StringVar (p : parser) (addr : nat) (name : N) : parser :=
  {| bools := bools p; strings := (name, addr) :: strings p; ints := ints p |}.
(* map lookup *)
Definition assoc (c : N) (l : list (N * nat)) : option nat :=
  option_map snd (find (fun p => N.eqb (fst p) c) l).

(* pkg/flag/flag.go:28-35: ErrNonInt; the execute methods of bool and string flags (25-27, 37-39) only assign *)
Definition err_non_int : bytes := B "strconv.ParseInt".
(* pkg/flag/parse.go:63 *)
Definition err_unknown : bytes := B "man what's happening".

Inductive bundle_result :=
| BDone (rest : list bytes) (ws : list write)
| BErr (e : bytes) (ws : list write)
| BPanic (ws : list write).

(* pkg/flag/parse.go:52-62: apply flag c to its value *)
Definition apply_value (p : parser) (c : N) (value : bytes) (ws : list write) : list write + bytes :=
  match assoc c (strings p) with
  | Some a => inl (ws ++ [WStr a value])
  | None =>
      match assoc c (ints p) with
      | Some a => match parse_int value with
                  | Some z => inl (ws ++ [WInt a z])
                  | None => inr err_non_int
                  end
      | None => inr err_unknown
      end
  end.

(* pkg/flag/parse.go:38-64: the loop over the runes of arg[1:]; [rest] is p.Input[i+1:] *)
Fixpoint parse_bundle (p : parser) (arg : bytes) (l : list (nat * N)) (rest : list bytes) (ws : list write)
  : bundle_result :=
  match l with
  | [] => BDone rest ws
  | (j, c) :: t =>
      match assoc c (bools p) with
      | Some a => parse_bundle p arg t rest (ws ++ [WBool a])
      | None =>
          match skipn (j + 2) arg with
          | [] =>
              match rest with
              | [] => BPanic ws                        (* p.Input[i] out of range *)
              | value :: rest' =>
                  match apply_value p c value ws with
                  | inl ws' => parse_bundle p arg t rest' ws'
                  | inr e => BErr e ws
                  end
              end
          | value =>
              match apply_value p c value ws with
              | inl ws' => parse_bundle p arg t rest ws'
              | inr e => BErr e ws
              end
          end
      end
  end.

Inductive outcome := Positional (l : list bytes) | Fail (e : bytes) | Crash | OutOfFuel.

(* pkg/flag/parse.go:29-31: a non-option *)
Definition non_option (arg : bytes) : bool :=
  match arg with
  | [] => true
  | c :: r => negb (Ascii.eqb c "-") || match r with [] => true | _ => false end
  end.

(* pkg/flag/parse.go:25-82, from p.Input[i:] on *)
Fixpoint parse_from (fuel : nat) (p : parser) (input : list bytes) (ws : list write) : list write * outcome :=
  match input with
  | [] => (ws, Positional [])
  | arg :: rest =>
      match fuel with
      | O => (ws, OutOfFuel)
      | S fuel =>
          if non_option arg then (ws, Positional input)
          else if beqb arg (B "--") then (ws, Positional rest)
          else match parse_bundle p arg (range_runes (skipn 1 arg)) rest ws with
               | BDone rest' ws' => parse_from fuel p rest' ws'
               | BErr e ws' => (ws', Fail e)
               | BPanic ws' => (ws', Crash)
               end
      end
  end.

(* pkg/flag/parse.go:21-82.  [input] None is a nil Input, replaced by [os_args] = os.Args[1:]. *)
Definition parse (p : parser) (input : option (list bytes)) (os_args : list bytes) : list write * outcome :=
  let args := match input with Some l => l | None => os_args end in
  parse_from (List.length args) p args [].
