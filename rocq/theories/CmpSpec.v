(* Specification vocabulary for C20-C24 and C69. *)
From Verif Require Import GoBase CmpModel.
From Coq Require Export Sorted.

(* what a named operand gives when opened and read *)
Definition content (w : world) (f : bytes) (s : stream) : Prop :=
  (f = B "-" /\ s = stdin w) \/ (f <> B "-" /\ opens w f = Some s).
(* what the two operands give *)
Definition sees (w : world) (f1 f2 : bytes) (s1 s2 : stream) : Prop :=
  (f1 = B "-" /\ f2 = B "-" /\ both w = (s1, s2)) \/
  ((f1 <> B "-" \/ f2 <> B "-") /\ content w f1 s1 /\ content w f2 s2).
Definition unopenable (w : world) (f : bytes) : Prop := f <> B "-" /\ opens w f = None.

(* an argument that is an option *)
Definition is_option (a : bytes) : bool := beqb a (B "-l") || beqb a (B "-s").
Definition operands (args : list bytes) : list bytes := filter (fun a => negb (is_option a)) args.

(* number of newlines *)
Definition newlines (b : bytes) : nat := count_occ ascii_dec b nl.

(* the differing positions, counted from 1, with both bytes *)
Definition differences (c1 c2 : bytes) : list (nat * (ascii * ascii)) :=
  filter (fun p => negb (Ascii.eqb (fst (snd p)) (snd (snd p))))
    (combine (seq 1 (List.length c1)) (combine c1 c2)).

(* value of an octal numeral *)
Definition octal_value (b : bytes) : N := fold_left (fun acc c => (8 * acc + (N_of_ascii c - 48))%N) b 0%N.
