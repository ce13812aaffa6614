(* C17-C19, C68: cmd/cksum.  Statements only; proofs in CksumProofs.v and CksumOrderProofs.v. *)
From Verif Require Import GoBase GoFacts CksumModel CksumSpec CksumProofs CksumOrderProofs.

(* C17: [l] is the length of the string, least significant octet first.  The remainder R of the
   message polynomial times x^32 exists and is unique, and memcrc is its complement. *)
Theorem C17_cksum_is_posix_crc : forall b l, octets_of (N.of_nat (length b)) l ->
  exists R, remainder_mod_G (N.shiftl (octets_poly (map N_of_ascii b ++ l)) 32) R /\
    (forall R', remainder_mod_G (N.shiftl (octets_poly (map N_of_ascii b ++ l)) 32) R' -> R' = R) /\
    memcrc b = complement32 R.
Proof.
  intros b l H. destruct (remainder_exists (map N_of_ascii b ++ l)) as (R&HR).
  - intros o Ho. apply in_app_or in Ho as [Ho|Ho]; [|now apply H].
    apply in_map_iff in Ho as (c&<-&_). apply byte_val_lt.
  - exists R. split; [exact HR|]. split; [|exact (memcrc_posix b l R H HR)].
    intros R' HR'. exact (remainder_unique _ _ _ HR' HR).
Qed.
Print Assumptions C17_cksum_is_posix_crc.
(* every length has its octets *)
Theorem C17_length_octets_exist : forall n, exists l, octets_of n l.
Proof. exact octets_of_exists. Qed.
Print Assumptions C17_length_octets_exist.

(* the well-known check value of the POSIX checksum of "123456789" *)
Example C17_nonvacuous : memcrc (B "123456789") = 930766865%N /\
  octets_of (N.of_nat (length (B "123456789"))) [9%N] /\ memcrc [] = 4294967295%N.
Proof.
  split; [vm_compute; reflexivity|]. split; [|vm_compute; reflexivity].
  split; [intros o [<-|[]]; reflexivity|]. split; [reflexivity|discriminate].
Qed.

(* C18 *)
Theorem C18_detects_every_burst : forall b1 b2, burst32 b1 b2 -> length b1 = length b2 ->
  memcrc b1 <> memcrc b2.
Proof. exact memcrc_burst. Qed.
Print Assumptions C18_detects_every_burst.
Example C18_nonvacuous : burst32 (B "hello world") (B "hell0!world").
Proof.
  exists (bits (B "hell")), (bits (B "o ")), (bits (B "0!")), (bits (B "world")).
  repeat split; try (vm_compute; reflexivity); [vm_compute; lia|discriminate].
Qed.

(* C19 *)
Theorem C19_cksum_command : forall fs stdin args, exists n,
  fin (cksum_main fs stdin args) = Exit n /\
  cksum_result (fun b name => utoa (memcrc b) ++ B " " ++ ntoa (length b) ++ B " " ++ name ++ [nl])
    fs stdin (match args with [] => [B "-"] | _ => args end) (out (cksum_main fs stdin args)) n /\
  (errout (cksum_main fs stdin args) = [] <-> n = 0%Z).
Proof. exact cksum_main_spec. Qed.
Print Assumptions C19_cksum_command.
(* the specification determines output and status *)
Theorem C19_specification_is_functional : forall line fs st files o n, cksum_result line fs st files o n ->
  forall o' n', cksum_result line fs st files o' n' -> o = o' /\ n = n'.
Proof. exact cksum_result_functional. Qed.
Print Assumptions C19_specification_is_functional.

Definition demo_files (f : bytes) : file_read :=
  if beqb f (B "x") then Reads (B "123456789") None else OpenFails (B "no such file").
Example C19_nonvacuous :
  cksum_main demo_files (B "in", None) (map B ["x"; "-"; "y"; "x"]%string) =
  {| out := B "930766865 9 x" ++ [nl] ++ B "3122994064 2 -" ++ [nl];
     errout := B "couldn't open file no such file"; fin := Exit 1 |}.
Proof. vm_compute. reflexivity. Qed.

(* C68: in files below 512 MiB any two flipped bits are detected. *)
Theorem C68_detects_two_bit_errors : forall b1 b2, two_bits_differ b1 b2 -> length b1 = length b2 ->
  (8 * N.of_nat (length b1) < 2 ^ 32)%N -> memcrc b1 <> memcrc b2.
Proof. exact memcrc_two_bits. Qed.
Print Assumptions C68_detects_two_bit_errors.
Example C68_nonvacuous : two_bits_differ (B "the quick brown fox") (B "uhe quick brown foy").
Proof.
  exists (firstn 7 (bits (B "t"))), false, true, (bits (B "he quick brown fo") ++ firstn 7 (bits (B "x"))),
    false, true, []. repeat split; try (vm_compute; reflexivity); discriminate.
Qed.
