(* Model of the Go run-time and standard-library facilities that fwip/posix-utils calls.
   These are NOT part of /repo: they are the modelled environment (trusted base, see DESIGN.md).
   Each definition names the Go function it stands for. *)
From Coq Require Export Ascii String.
From Coq Require Export NArith ZArith Lia Bool Arith List.
From Coq Require Export ZifyBool ZifyNat ZifyN.
Export ListNotations.
Open Scope list_scope.
#[global] Arguments Z.add : simpl never.
#[global] Arguments Z.sub : simpl never.
#[global] Arguments Z.mul : simpl never.
#[global] Arguments Z.opp : simpl never.
#[global] Arguments Z.of_nat : simpl never.
#[global] Arguments N.add : simpl never.
#[global] Arguments N.mul : simpl never.
#[global] Arguments N.sub : simpl never.

(* A Go string / []byte: a list of 8-bit bytes. *)
Definition bytes := list ascii.

(* String literal -> bytes. *)
Definition B (s : string) : bytes := list_ascii_of_string s.
Arguments B s%string.

Definition nl : ascii := "010"%char.   (* '\n' *)
Definition cr : ascii := "013"%char.   (* '\r' *)
Definition tab : ascii := "009"%char.  (* '\t' *)

Definition byte_val (c : ascii) : N := N_of_ascii c.

(* Go == on bytes / strings. *)
Fixpoint beqb (a b : bytes) : bool :=
  match a, b with
  | [], [] => true
  | x :: a', y :: b' => Ascii.eqb x y && beqb a' b'
  | _, _ => false
  end.

(* Outcome of a Go function that may return an error or panic. *)
Inductive res (A : Type) : Type :=
| Ok (a : A)
| Err (msg : bytes)
| Panic.
Arguments Ok {A}. Arguments Err {A}. Arguments Panic {A}.

Definition rbind {A B'} (r : res A) (f : A -> res B') : res B' :=
  match r with Ok a => f a | Err m => Err m | Panic => Panic end.

(* How a command-line program ended: os.Exit / return from main, or an uncaught panic
   (which the Go run-time turns into exit status 2 with a trace on stderr). *)
Inductive ending := Exit (n : Z) | Panicked.

(* What a run of a command-line program did. *)
Record run_result := { out : bytes; errout : bytes; fin : ending }.

(* ---- decimal and octal formatting: strconv.Itoa, fmt %d, fmt %o ---- *)
Fixpoint uint_bytes (u : Decimal.uint) : bytes :=
  match u with
  | Decimal.Nil => []
  | Decimal.D0 u => "0"%char :: uint_bytes u
  | Decimal.D1 u => "1"%char :: uint_bytes u
  | Decimal.D2 u => "2"%char :: uint_bytes u
  | Decimal.D3 u => "3"%char :: uint_bytes u
  | Decimal.D4 u => "4"%char :: uint_bytes u
  | Decimal.D5 u => "5"%char :: uint_bytes u
  | Decimal.D6 u => "6"%char :: uint_bytes u
  | Decimal.D7 u => "7"%char :: uint_bytes u
  | Decimal.D8 u => "8"%char :: uint_bytes u
  | Decimal.D9 u => "9"%char :: uint_bytes u
  end.

Definition utoa (n : N) : bytes := uint_bytes (N.to_uint n).

(* strconv.Itoa and fmt.Sprintf("%d", z) *)
Definition itoa (z : Z) : bytes :=
  if (z <? 0)%Z then "-"%char :: utoa (Z.to_N (- z)) else utoa (Z.to_N z).

Definition ntoa (n : nat) : bytes := itoa (Z.of_nat n).

(* fmt.Sprintf("%o", b) for a byte *)
Definition digit_char (d : N) : ascii := ascii_of_N (48 + d).
Definition octal (c : ascii) : bytes :=
  let v := byte_val c in
  if (v <? 8)%N then [digit_char v]
  else if (v <? 64)%N then [digit_char (v / 8); digit_char (v mod 8)]
  else [digit_char (v / 64); digit_char (v / 8 mod 8); digit_char (v mod 8)].

(* ---- strconv.Atoi: optional sign, decimal digits, int64 range ---- *)
Definition digit_of (c : ascii) : option N :=
  let v := byte_val c in
  if ((48 <=? v) && (v <=? 57))%N then Some (v - 48)%N else None.

Fixpoint dec_val (acc : N) (b : bytes) : option N :=
  match b with
  | [] => Some acc
  | c :: r => match digit_of c with
              | Some d => dec_val (10 * acc + d) r
              | None => None
              end
  end.

Definition max_int64 : Z := 9223372036854775807.
Definition min_int64 : Z := -9223372036854775808.
Definition in_int64 (z : Z) : bool := ((min_int64 <=? z) && (z <=? max_int64))%Z.

Definition parse_dec (b : bytes) : option Z :=
  match b with
  | [] => None
  | c :: r =>
      if Ascii.eqb c "-" then
        match r with [] => None | _ => option_map (fun n => - Z.of_N n)%Z (dec_val 0 r) end
      else if Ascii.eqb c "+" then
        match r with [] => None | _ => option_map Z.of_N (dec_val 0 r) end
      else option_map Z.of_N (dec_val 0 b)
  end.

(* strconv.Atoi: None = a non-nil error *)
Definition atoi (b : bytes) : option Z :=
  match parse_dec b with
  | Some z => if in_int64 z then Some z else None
  | None => None
  end.

(* int (64-bit) wrap-around *)
Definition wrap64 (z : Z) : Z := ((z + 2 ^ 63) mod 2 ^ 64 - 2 ^ 63)%Z.

(* ---- strings ---- *)
(* strings.Split(s, string(c)) for a one-byte separator *)
Fixpoint split_on (c : ascii) (b : bytes) : list bytes :=
  match b with
  | [] => [[]]
  | x :: r =>
      if Ascii.eqb x c then [] :: split_on c r
      else match split_on c r with
           | h :: t => (x :: h) :: t
           | [] => [[x]]
           end
  end.

(* strings.Join(l, sep) *)
Fixpoint join (sep : bytes) (l : list bytes) : bytes :=
  match l with
  | [] => []
  | [x] => x
  | x :: r => x ++ sep ++ join sep r
  end.

(* ---- bufio.Scanner with the default ScanLines split function ---- *)
(* bufio.MaxScanTokenSize *)
Definition max_token : N := 65536.

Definition drop_cr (l : bytes) : bytes :=
  match rev l with
  | c :: r => if Ascii.eqb c cr then rev r else l
  | [] => l
  end.

(* lines delimited by '\n'; a final unterminated non-empty line counts *)
Definition raw_lines (b : bytes) : list bytes :=
  let segs := split_on nl b in
  match last segs [] with
  | [] => removelast segs
  | _ => segs
  end.

(* Tokens returned by Scan(), and whether Err() is non-nil afterwards: a line of 65536 bytes or
   more does not fit the scanner's buffer and stops the scan with ErrTooLong. *)
Fixpoint scan_segs (segs : list bytes) : list bytes * bool :=
  match segs with
  | [] => ([], false)
  | s :: r =>
      if (max_token <=? N.of_nat (List.length s))%N then ([], true)
      else let '(l, e) := scan_segs r in (drop_cr s :: l, e)
  end.

Definition scan_lines (b : bytes) : list bytes * bool := scan_segs (raw_lines b).

(* ---- UTF-8: utf8.DecodeRuneInString / range over a string ---- *)
Definition rune_error : N := 65533.

Definition in_range (lo hi : N) (c : ascii) : bool :=
  ((lo <=? byte_val c) && (byte_val c <=? hi))%N.

Definition cont (c : ascii) : N := (byte_val c - 128)%N.

(* (rune, width); (RuneError, 1) for invalid encodings, (RuneError, 0) for the empty string *)
Definition decode_rune (b : bytes) : N * nat :=
  match b with
  | [] => (rune_error, 0)
  | c0 :: r =>
      let v := byte_val c0 in
      if (v <? 128)%N then (v, 1)
      else if in_range 194 223 c0 then
        match r with
        | c1 :: _ => if in_range 128 191 c1 then (((v - 192) * 64 + cont c1)%N, 2) else (rune_error, 1)
        | _ => (rune_error, 1)
        end
      else if in_range 224 239 c0 then
        match r with
        | c1 :: c2 :: _ =>
            let lo := if (v =? 224)%N then 160%N else 128%N in
            let hi := if (v =? 237)%N then 159%N else 191%N in
            if in_range lo hi c1 && in_range 128 191 c2
            then (((v - 224) * 4096 + cont c1 * 64 + cont c2)%N, 3) else (rune_error, 1)
        | _ => (rune_error, 1)
        end
      else if in_range 240 244 c0 then
        match r with
        | c1 :: c2 :: c3 :: _ =>
            let lo := if (v =? 240)%N then 144%N else 128%N in
            let hi := if (v =? 244)%N then 143%N else 191%N in
            if in_range lo hi c1 && in_range 128 191 c2 && in_range 128 191 c3
            then (((v - 240) * 262144 + cont c1 * 4096 + cont c2 * 64 + cont c3)%N, 4)
            else (rune_error, 1)
        | _ => (rune_error, 1)
        end
      else (rune_error, 1)
  end.

(* [for j, c := range s]: list of (byte index, rune). Fuel = number of bytes. *)
Fixpoint range_runes_from (fuel : nat) (i : nat) (b : bytes) : list (nat * N) :=
  match fuel, b with
  | S f, _ :: _ =>
      let '(r, w) := decode_rune b in (i, r) :: range_runes_from f (i + w) (skipn w b)
  | _, _ => []
  end.
Definition range_runes (b : bytes) : list (nat * N) := range_runes_from (List.length b) 0 b.

(* []rune(s) *)
Definition runes_of (b : bytes) : list N := map snd (range_runes b).

(* utf8.EncodeRune / string([]rune{r}) *)
Definition encode_rune (r : N) : bytes :=
  let bad := map ascii_of_N [239; 191; 189]%N in
  if (r <? 128)%N then [ascii_of_N r]
  else if (r <? 2048)%N then [ascii_of_N (192 + r / 64); ascii_of_N (128 + r mod 64)]
  else if ((55296 <=? r) && (r <=? 57343))%N then bad
  else if (r <? 65536)%N then
    [ascii_of_N (224 + r / 4096); ascii_of_N (128 + r / 64 mod 64); ascii_of_N (128 + r mod 64)]
  else if (r <? 1114112)%N then
    [ascii_of_N (240 + r / 262144); ascii_of_N (128 + r / 4096 mod 64);
     ascii_of_N (128 + r / 64 mod 64); ascii_of_N (128 + r mod 64)]
  else bad.

Definition string_of_runes (l : list N) : bytes := flat_map encode_rune l.

(* unicode.IsSpace *)
Definition is_space_rune (r : N) : bool :=
  ((r =? 9) || (r =? 10) || (r =? 11) || (r =? 12) || (r =? 13) || (r =? 32) || (r =? 133)
   || (r =? 160) || (r =? 5760) || ((8192 <=? r) && (r <=? 8202)) || (r =? 8232) || (r =? 8233)
   || (r =? 8239) || (r =? 8287) || (r =? 12288))%N.
