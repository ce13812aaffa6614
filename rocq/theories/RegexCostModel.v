(* The matcher of RegexModel.v with a counter: what it returns, and how many steps it takes. *)
From Verif Require Import GoBase RegexModel.

(* A step is a call of elementsMatch or a call of element.Matches (bre_evaluate.go:33 and 44). *)

(* pkg/regexes/bre_evaluate.go:43-51, as count_loop; the number of calls of element.Matches *)
Fixpoint count_loop_steps (e : element) (mn : Z) (l : list N) (matched : nat) : option nat * nat :=
  match l with
  | [] => (Some matched, 0)
  | r :: t => if el_matches e r then let '(x, n) := count_loop_steps e mn t (S matched) in (x, S n)
              else if (Z.of_nat matched <? mn)%Z then (None, 1)
              else let '(x, n) := count_loop_steps e mn t matched in (x, S n)
  end.

(* pkg/regexes/bre_evaluate.go:54-58, as backtrack; the steps of all calls [f i] *)
Fixpoint backtrack_steps (f : nat -> bool * nat * nat) (mn : Z) (i : nat) : bool * nat * nat :=
  if (Z.of_nat i <? mn)%Z then (false, 0, 0)
  else let '(m, len, n) := f i in
       if m then (true, len + i, n)
       else match i with
            | O => (false, 0, n)
            | S i' => let '(m', len', n') := backtrack_steps f mn i' in (m', len', n + n')
            end.

(* pkg/regexes/bre_evaluate.go:33-61, as elementsMatch; 1 for the call itself *)
Fixpoint elementsMatch_steps (es : list dupl) (runes : list N) : bool * nat * nat :=
  match es with
  | [] => (true, List.length runes, 1)
  | (e, c) :: es' =>
      match count_loop_steps e (cmin c)
              (firstn (Z.to_nat (Z.min (cmax c) (Z.of_nat (List.length runes)))) runes) 0 with
      | (None, n) => (false, 0, S n)
      | (Some matched, n) =>
          let '(m, len, n') := backtrack_steps (fun i => elementsMatch_steps es' (skipn i runes)) (cmin c) matched in
          (m, len, S (n + n'))
      end
  end.

(* pkg/regexes/bre_evaluate.go:18-27, as match_from *)
Fixpoint match_from_steps (b : bre) (runes : list N) : bool * nat :=
  match runes with
  | [] => (false, 0)
  | _ :: t =>
      let '(m, len, n) := elementsMatch_steps (elements b) runes in
      if m && negb (anchorRight b && negb (Nat.eqb len (List.length runes))) then (true, n)
      else let '(r, n') := match_from_steps b t in (r, n + n')
  end.

(* pkg/regexes/bre_evaluate.go:4-30, as matches_runes and Matches *)
Definition matches_runes_steps (b : bre) (runes : list N) : bool * nat :=
  if anchorLeft b || match runes with [] => true | _ => false end then
    let '(m, len, n) := elementsMatch_steps (elements b) runes in
    (if m then (if anchorRight b then Nat.eqb len (List.length runes) else true) else false, n)
  else match_from_steps b runes.
Definition Matches_steps (b : bre) (input : bytes) : bool * nat := matches_runes_steps b (runes_of input).
