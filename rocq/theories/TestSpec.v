(* Specification vocabulary for C29-C32. *)
From Verif Require Import GoBase NumFacts TestModel.

(* exit status of a run *)
Definition status (w : world) (args : list bytes) : Z :=
  match fin (test_main w args) with Exit n => n | Panicked => 2 end.

(* Meaning of the file primaries in terms of the mode word (Go's os.FileMode bit numbers):
   d 31, symlink 27, device 26, pipe 25, socket 24, setuid 23, setgid 22, char device 21, irregular 19. *)
Definition has (n : N) (fi : file_info) : Prop := N.testbit (mode fi) n = true.
Definition stat_is (w : world) (p : bytes) (P : file_info -> Prop) : Prop := exists fi, stat w p = Some fi /\ P fi.
Definition regular (fi : file_info) : Prop := forall n, In n [31; 27; 26; 25; 24; 21; 19]%N -> ~ has n fi.
Definition file_primary (c : ascii) (w : world) (p : bytes) : option Prop :=
  if Ascii.eqb c "c" then Some (stat_is w p (has 21))
  else if Ascii.eqb c "d" then Some (stat_is w p (has 31))
  else if Ascii.eqb c "e" then Some (stat_is w p (fun _ => True))
  else if Ascii.eqb c "f" then Some (stat_is w p regular)
  else if Ascii.eqb c "g" then Some (stat_is w p (has 22))
  else if Ascii.eqb c "h" then Some (exists fi, lstat w p = Some fi /\ has 27 fi)
  else if Ascii.eqb c "L" then Some (exists fi, lstat w p = Some fi /\ has 27 fi)
  else if Ascii.eqb c "p" then Some (stat_is w p (has 25))
  else if Ascii.eqb c "S" then Some (stat_is w p (has 24))
  else if Ascii.eqb c "s" then Some (stat_is w p (fun fi => (0 < size fi)%Z))
  else if Ascii.eqb c "u" then Some (stat_is w p (has 23))
  else None.

(* Unary primaries of POSIX that the program implements *)
Inductive unary (w : world) : bytes -> bytes -> Prop -> Prop :=
| u_file : forall c p P, file_primary c w p = Some P -> unary w ["-"%char; c] p P
| u_n : forall p, unary w (B "-n") p (p <> [])
| u_z : forall p, unary w (B "-z") p (p = []).
(* those of POSIX that it does not *)
Definition missing_unary (o : bytes) : Prop := In o (map B ["-b"; "-r"; "-t"; "-w"; "-x"]%string).

(* Binary primaries; the numeric ones need numerals of 64-bit integers *)
Inductive num_op : bytes -> (Z -> Z -> Prop) -> Prop :=
| n_eq : num_op (B "-eq") (fun a b => a = b)
| n_ne : num_op (B "-ne") (fun a b => a <> b)
| n_gt : num_op (B "-gt") (fun a b => (a > b)%Z)
| n_ge : num_op (B "-ge") (fun a b => (a >= b)%Z)
| n_lt : num_op (B "-lt") (fun a b => (a < b)%Z)
| n_le : num_op (B "-le") (fun a b => (a <= b)%Z).
Definition int_text (t : bytes) (z : Z) : Prop := numeral t z /\ (min_int64 <= z <= max_int64)%Z.
Inductive binary : bytes -> bytes -> bytes -> Prop -> Prop :=
| b_eq : forall a b, binary a (B "=") b (a = b)
| b_ne : forall a b, binary a (B "!=") b (a <> b)
| b_num : forall op R a b x y, num_op op R -> int_text a x -> int_text b y -> binary a op b (R x y).
Definition binary_op (o : bytes) : Prop :=
  In o (map B ["="; "!="; "-eq"; "-ne"; "-gt"; "-ge"; "-lt"; "-le"]%string).

(* The POSIX rules by number of arguments, as far as results are specified *)
Inductive posix (w : world) : list bytes -> Prop -> Prop :=
| p0 : posix w [] False
| p1 : forall a, posix w [a] (a <> [])
| p2_not : forall a, posix w [B "!"; a] (a = [])
| p2_unary : forall o a P, unary w o a P -> posix w [o; a] P
| p3_binary : forall a o b P, binary a o b P -> posix w [a; o; b] P
| p3_not : forall a b P, ~ binary_op a -> posix w [a; b] P -> posix w [B "!"; a; b] (~ P)
| p4_not : forall a b c P, posix w [a; b; c] P -> posix w [B "!"; a; b; c] (~ P).

(* Three-argument comparisons whose first operand looks like an operator, or is empty *)
Definition operator_like (a : bytes) : Prop :=
  a = [] \/ a = B "!" \/ exists c, In c (B "acdefghLnprSstuwxz") /\ a = ["-"%char; c].
Definition ambiguous (args : list bytes) : Prop :=
  exists pre a o b, args = pre ++ [a; o; b] /\ (pre = [] \/ pre = [B "!"]) /\ binary_op o /\ operator_like a.

(* A run that ends with an error: nothing but one line on standard error *)
Definition complains (msg : bytes) : run_result :=
  {| out := []; errout := B "Error: " ++ msg ++ [nl]; fin := Exit 2 |}.
