(* Specification vocabulary for C142: the command line of head, and how an input can fail it. *)
From Verif Require Import GoBase HeadModel HeadSpec.

(* what arguments say: the last count given, if any, and the operands in order *)
Inductive said : list bytes -> option Z -> list bytes -> Prop :=
| said_nothing : said [] None []
| said_count : forall v k args n fs, atoi v = Some k -> said args n fs ->
    said (B "-n" :: v :: args) (Some match n with Some k' => k' | None => k end) fs
| said_operand : forall f args n fs, f <> B "-n" -> said args n fs -> said (f :: args) n (f :: fs).
(* the inputs head reads: none without arguments *)
Definition read_by (args fs : list bytes) : list bytes :=
  match args, fs with [], _ => [] | _, [] => [B "-"] | _, _ => fs end.
(* the input f, the i-th, cannot be opened, or ends with an error or in an overlong line before enough of it is read *)
Definition fails (w : world) (k : Z) (i : nat) (f : bytes) : Prop :=
  unopenable w f \/ exists c o, gives w i f c /\ shows (Z.to_nat k) c o false.
