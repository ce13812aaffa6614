(* Model of the rest of /repo/pkg/diff/fuzz.go *)
From Verif Require Import GoBase DiffModel.

(* what is left of b after the prefix p *)
Fixpoint after_prefix (p b : bytes) : option bytes :=
  match p, b with
  | [], _ => Some b
  | x :: p', y :: b' => if Ascii.eqb x y then after_prefix p' b' else None
  | _, [] => None
  end.
(* strings.Index, and the text before and after: the first place where sep begins *)
Fixpoint cut (sep b : bytes) : option (bytes * bytes) :=
  match after_prefix sep b with
  | Some r => Some ([], r)
  | None => match b with
            | [] => None
            | x :: b' => match cut sep b' with Some (p, r) => Some (x :: p, r) | None => None end
            end
  end.
(* strings.Split with a separator of one or more bytes: the pieces between the places found from left to right.
   [fuel] is the length of the text (every place found makes it shorter). *)
Fixpoint split_fuel (fuel : nat) (sep b : bytes) : list bytes :=
  match fuel, cut sep b with
  | S f, Some (p, r) => p :: split_fuel f sep r
  | _, _ => [b]
  end.
Definition split (sep b : bytes) : list bytes := split_fuel (List.length b) sep b.

(* fuzz.go:27-37 *)
Fixpoint same_values (a b : list bytes) : bool :=
  match a, b with
  | x :: a', y :: b' => if beqb x y then same_values a' b' else false
  | _, _ => true
  end.
Definition are_identical (expected actual : list bytes) : bool :=
  if negb (List.length expected =? List.length actual) then false else same_values expected actual.

(* fuzz.go:42 *)
Definition fuzz_separator : bytes := nl :: B "==========" ++ [nl].
(* fuzz.go:40-59.  None: Diff out of fuel (excluded by C06). *)
Definition fuzz (data : bytes) : option (res Z) :=
  match split fuzz_separator data with
  | [a; b] =>
      let old := split_on nl a in
      let new := split_on nl b in
      match diff old new with
      | None => None
      | Some (Ok changes) =>
          Some (if negb (are_identical old (assemble_old changes)) then Panic
                else if negb (are_identical new (assemble_new changes)) then Panic
                else Ok 1%Z)
      | Some _ => Some Panic
      end
  | _ => Some (Ok (-1)%Z)
  end.
