(* The command line of cut according to POSIX (XBD 12.2, Utility Syntax Guidelines; XCU cut): what a list of words says. *)
From Verif Require Import GoBase CutModel.

Definition with_argument : bytes := B "fbcd".
Definition without_argument : bytes := B "ns".

(* [written words given operands]: the words are these options, in this order, and these operands *)
Inductive written : list bytes -> list (ascii * option bytes) -> list bytes -> Prop :=
| no_words : written [] [] []
| operands a rest : a = B "-" \/ (forall r, a <> "-"%char :: r) -> written (a :: rest) [] (a :: rest)
| end_of_options rest : written (B "--" :: rest) [] rest
| flags fs rest given ops : fs <> [] -> Forall (fun f => In f without_argument) fs -> written rest given ops ->
    written (("-"%char :: fs) :: rest) (map (fun f => (f, None)) fs ++ given) ops
| attached fs c v rest given ops : Forall (fun f => In f without_argument) fs -> In c with_argument -> v <> [] -> written rest given ops ->
    written (("-"%char :: fs ++ c :: v) :: rest) (map (fun f => (f, None)) fs ++ (c, Some v) :: given) ops
| separate fs c v rest given ops : Forall (fun f => In f without_argument) fs -> In c with_argument -> written rest given ops ->
    written (("-"%char :: fs ++ [c]) :: v :: rest) (map (fun f => (f, None)) fs ++ (c, Some v) :: given) ops.

(* the same with every option in a word of its own and every argument in the next word *)
Inductive written_apart : list bytes -> list (ascii * option bytes) -> list bytes -> Prop :=
| apart_none : written_apart [] [] []
| apart_operands a rest : a = B "-" \/ (forall r, a <> "-"%char :: r) -> written_apart (a :: rest) [] (a :: rest)
| apart_end rest : written_apart (B "--" :: rest) [] rest
| apart_flag f rest given ops : In f without_argument -> written_apart rest given ops ->
    written_apart (["-"%char; f] :: rest) ((f, None) :: given) ops
| apart_argument c v rest given ops : In c with_argument -> written_apart rest given ops ->
    written_apart (["-"%char; c] :: v :: rest) ((c, Some v) :: given) ops.

(* the argument an option was given last, if it was given *)
Fixpoint argument (c : ascii) (given : list (ascii * option bytes)) : option bytes :=
  match given with
  | [] => None
  | (k, v) :: r => match argument c r with
                   | Some x => Some x
                   | None => if Ascii.eqb k c then v else None
                   end
  end.
Definition is_given (c : ascii) (given : list (ascii * option bytes)) : Prop := exists v, In (c, v) given.

(* o is what the options given say; absent options have their defaults *)
Definition says (given : list (ascii * option bytes)) (o : options) : Prop :=
  let arg c absent := match argument c given with Some v => v | None => absent end in
  optFields o = arg "f"%char [] /\ optBytes o = arg "b"%char [] /\ optChars o = arg "c"%char [] /\ optDelim o = arg "d"%char [tab] /\
  (optNoSplit o = true <-> is_given "n" given) /\ (optSuppress o = true <-> is_given "s" given).

(* options written so, before other words *)
Inductive apart_before : list bytes -> list (ascii * option bytes) -> Prop :=
| before_none : apart_before [] []
| before_flag f ws given : In f without_argument -> apart_before ws given -> apart_before (["-"%char; f] :: ws) ((f, None) :: given)
| before_argument c v ws given : In c with_argument -> apart_before ws given -> apart_before (["-"%char; c] :: v :: ws) ((c, Some v) :: given).
