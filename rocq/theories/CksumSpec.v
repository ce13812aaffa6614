(* Specification for C17-C19: polynomials over GF(2), the POSIX checksum definition. *)
From Verif Require Import GoBase CksumModel.

(* A polynomial over GF(2) is the number whose bit i is the coefficient of x^i.  Addition is N.lxor,
   multiplication by x^n is N.shiftl _ n, and the product is: *)
Fixpoint clmul_pos (p : positive) (b : N) : N :=
  match p with
  | xH => b
  | xO p => N.double (clmul_pos p b)
  | xI p => N.lxor b (N.double (clmul_pos p b))
  end.
Definition clmul (a b : N) : N := match a with N0 => 0%N | Npos p => clmul_pos p b end.

Definition x_to (n : N) : N := N.shiftl 1 n.
Fixpoint poly_sum (l : list N) : N := match l with [] => 0%N | a :: r => N.lxor a (poly_sum r) end.
(* the POSIX generator: x^32+x^26+x^23+x^22+x^16+x^12+x^11+x^10+x^8+x^7+x^5+x^4+x^2+x+1 *)
Definition G : N := poly_sum (map x_to [32; 26; 23; 22; 16; 12; 11; 10; 8; 7; 5; 4; 2; 1; 0]%N).

(* R is the remainder of P modulo G *)
Definition remainder_mod_G (P R : N) : Prop := (R < 2 ^ 32)%N /\ exists Q, P = N.lxor (clmul Q G) R.

(* octets as a polynomial, the first octet (and its most significant bit) carrying the highest powers *)
Definition octets_poly (l : list N) : N := fold_left (fun acc o => (acc * 256 + o)%N) l 0%N.

(* [l] is [n] in base 256, least significant octet first, without superfluous octets *)
Definition octets_of (n : N) (l : list N) : Prop :=
  (forall o, In o l -> (o < 256)%N) /\ n = fold_right (fun o acc => (o + 256 * acc)%N) 0%N l /\
  (l <> [] -> last l 0%N <> 0%N).

Definition complement32 (n : N) : N := (2 ^ 32 - 1 - n)%N.

(* bits of a byte string, most significant bit of each byte first *)
Definition byte_bits (c : ascii) : list bool :=
  map (fun i => N.testbit (N_of_ascii c) i) [7; 6; 5; 4; 3; 2; 1; 0]%N.
Definition bits (b : bytes) : list bool := flat_map byte_bits b.

(* the two strings differ, and only inside a window of 32 consecutive bits *)
Definition burst32 (b1 b2 : bytes) : Prop :=
  exists pre w1 w2 post, bits b1 = pre ++ w1 ++ post /\ bits b2 = pre ++ w2 ++ post /\
    length w1 = length w2 /\ length w1 <= 32 /\ w1 <> w2.
(* two strings that differ in exactly two bits *)
Definition two_bits_differ (b1 b2 : bytes) : Prop :=
  exists pre x y mid z w post, bits b1 = pre ++ x :: mid ++ z :: post /\
    bits b2 = pre ++ y :: mid ++ w :: post /\ x <> y /\ z <> w.

(* what cksum should print and do for its operands, given what reading each of them gives *)
Inductive cksum_result (line : bytes -> bytes -> bytes) (fs : bytes -> file_read)
  : bytes * option bytes -> list bytes -> bytes -> Z -> Prop :=
| ck_done : forall st, cksum_result line fs st [] [] 0
| ck_stdin : forall b r o n, cksum_result line fs ([], None) r o n ->
    cksum_result line fs (b, None) (B "-" :: r) (line b (B "-") ++ o) n
| ck_file : forall st f b r o n, f <> B "-" -> fs f = Reads b None -> cksum_result line fs st r o n ->
    cksum_result line fs st (f :: r) (line b f ++ o) n
| ck_stdin_err : forall b e r, cksum_result line fs (b, Some e) (B "-" :: r) [] 1
| ck_open_err : forall st f e r, f <> B "-" -> fs f = OpenFails e -> cksum_result line fs st (f :: r) [] 1
| ck_read_err : forall st f b e r, f <> B "-" -> fs f = Reads b (Some e) ->
    cksum_result line fs st (f :: r) [] 1.
