(* Model of pkg/regexes: bre.go and bre_evaluate.go.  Text is a list of runes ([]rune(s)). *)
From Verif Require Import GoBase.

(* pkg/regexes/bre.go:39-43; thrifty is never set *)
Record count := { cmin : Z; cmax : Z }.
(* pkg/regexes/bre.go:49-82; breParen (84-98) is never constructed *)
Inductive element := Plain (r : N) | Wildcard | Bracket (chars : list N).
Definition el_matches (e : element) (r : N) : bool :=
  match e with
  | Plain c => N.eqb c r
  | Wildcard => true
  | Bracket cs => existsb (N.eqb r) cs
  end.
(* pkg/regexes/bre.go:30-33 *)
Definition dupl := (element * count)%type.
(* pkg/regexes/bre.go:22-28; the field text is never set *)
Record bre := { anchorLeft : bool; anchorRight : bool; elements : list dupl }.

(* math.MaxInt of github.com/shenwei356/util/math, on a 64-bit platform *)
Definition MaxInt : Z := max_int64.

(* pkg/regexes/bre.go:13-19 *)
Definition mustBeInt (s : bytes) : res Z := match atoi s with Some n => Ok n | None => Panic end.

(* runes used below *)
Definition c_caret := 94%N.
Definition c_dollar := 36%N.
Definition c_lbrack := 91%N.
Definition c_rbrack := 93%N.
Definition c_lbrace := 123%N.
Definition c_rbrace := 125%N.
Definition c_lparen := 40%N.
Definition c_rparen := 41%N.
Definition c_dot := 46%N.
Definition c_star := 42%N.
Definition c_comma := 44%N.
Definition c_bslash := 92%N.

(* pkg/regexes/bre.go:219-229: the loop of readUntil *)
Fixpoint read_loop (runes : list N) (stop : N) (j : nat) : option nat :=
  match runes with
  | [] => None
  | r :: t =>
      if N.eqb r c_bslash then match t with [] => None | _ :: t' => read_loop t' stop (S (S j)) end
      else if N.eqb r stop then Some j
      else read_loop t stop (S j)
  end.
(* pkg/regexes/bre.go:215-230; every error is turned into a panic by the callers *)
Definition readUntil (runes : list N) (stop : N) : res nat :=
  match runes with
  | [] => Panic                                   (* runes[0] out of range *)
  | r :: _ => if N.eqb r stop then Ok 0
              else match read_loop runes stop 0 with
                   | Some j => Ok j
                   | None => Err (B "stop char not found")
                   end
  end.

(* breCountRe (pkg/regexes/bre.go:11), an ASCII regular expression matched by package regexp:
   the non-empty groups, i.e. matches[1:] after the truncation of lines 118-122 *)
Definition is_digit_rune (r : N) : bool := ((48 <=? r) && (r <=? 57))%N.
Fixpoint span_digits (l : list N) : list N * list N :=
  match l with
  | r :: t => if is_digit_rune r then let '(d, u) := span_digits t in (r :: d, u) else ([], l)
  | [] => ([], [])
  end.
Inductive count_groups := Exactly (m : list N) | AtLeast (m : list N) | Between (m n : list N).
Definition breCountRe (l : list N) : option count_groups :=
  let '(d, u) := span_digits l in
  match d, u with
  | [], _ => None
  | _, [] => Some (Exactly d)
  | _, c :: u' =>
      if N.eqb c c_comma then
        let '(d2, u2) := span_digits u' in
        match d2, u2 with
        | [], [] => Some (AtLeast d)
        | _ :: _, [] => Some (Between d d2)
        | _, _ => None
        end
      else None
  end.

(* pkg/regexes/bre.go:100-156 *)
Definition parseCount (runes : list N) : res (count * nat) :=
  match runes with
  | [] => Ok ({| cmin := 1; cmax := 1 |}, 0)
  | r :: t =>
      if N.eqb r c_lbrace then
        match readUntil t c_rbrace with
        | Ok n =>
            match breCountRe (firstn n t) with
            | None => Panic
            | Some g =>
                let '(m, mx) := match g with
                                | Exactly m => (m, fun mn => Ok mn)
                                | AtLeast m => (m, fun _ => Ok MaxInt)
                                | Between m k => (m, fun _ => mustBeInt (string_of_runes k))
                                end in
                rbind (mustBeInt (string_of_runes m)) (fun mn =>
                rbind (mx mn) (fun mxv => Ok ({| cmin := mn; cmax := mxv |}, n + 2)))
            end
        | _ => Panic
        end
      else if N.eqb r c_star then Ok ({| cmin := 0; cmax := MaxInt |}, 1)
      else Ok ({| cmin := 1; cmax := 1 |}, 0)
  end.

(* pkg/regexes/bre.go:205-209 after an element: count and the runes after it *)
Definition add_count (e : element) (rest : list N) : res (dupl * list N) :=
  rbind (parseCount rest) (fun '(c, n) => Ok ((e, c), skipn n rest)).

(* pkg/regexes/bre.go:180-210 from runes[i:] on; fuel = number of runes left *)
Fixpoint parse_elements (fuel : nat) (runes : list N) : res (list dupl) :=
  match fuel, runes with
  | _, [] => Ok []
  | O, _ => Err (B "out of fuel")
  | S f, r :: t =>
      let continue (e : element) (rest : list N) :=
        rbind (add_count e rest) (fun '(d, rest') => rbind (parse_elements f rest') (fun ds => Ok (d :: ds))) in
      if N.eqb r c_lbrack then
        match readUntil t c_rbrack with
        | Ok n => continue (Bracket (firstn n t)) (skipn (n + 1) t)
        | _ => Panic
        end
      else if N.eqb r c_lparen || N.eqb r c_rparen then parse_elements f t
      else if N.eqb r c_dot then continue Wildcard t
      else continue (Plain r) t
  end.

(* pkg/regexes/bre.go:159-213 on []rune(s) *)
Definition parse_runes (runes : list N) : res bre :=
  match runes with
  | [] => Ok {| anchorLeft := false; anchorRight := false; elements := [] |}
  | r :: t =>
      let left := N.eqb r c_caret in
      let runes1 := if left then t else runes in
      match runes1 with
      | [] => Ok {| anchorLeft := left; anchorRight := false; elements := [] |}
      | _ =>
          let right := N.eqb (last runes1 0%N) c_dollar in
          let runes2 := if right then removelast runes1 else runes1 in
          rbind (parse_elements (List.length runes2) runes2)
            (fun es => Ok {| anchorLeft := left; anchorRight := right; elements := es |})
      end
  end.
Definition ParseBre (s : bytes) : res bre := parse_runes (runes_of s).

(* pkg/regexes/bre_evaluate.go:43-51 over the runes with index below min(count.max, len(runes));
   None is the early return *)
Fixpoint count_loop (e : element) (mn : Z) (l : list N) (matched : nat) : option nat :=
  match l with
  | [] => Some matched
  | r :: t => if el_matches e r then count_loop e mn t (S matched)
              else if (Z.of_nat matched <? mn)%Z then None
              else count_loop e mn t matched
  end.

(* pkg/regexes/bre_evaluate.go:54-58, i counting down; [f i] is elementsMatch(elements[1:], runes[i:]) *)
Fixpoint backtrack (f : nat -> bool * nat) (mn : Z) (i : nat) : bool * nat :=
  if (Z.of_nat i <? mn)%Z then (false, 0)
  else let '(m, len) := f i in
       if m then (true, len + i)
       else match i with O => (false, 0) | S i' => backtrack f mn i' end.

(* pkg/regexes/bre_evaluate.go:33-61 *)
Fixpoint elementsMatch (es : list dupl) (runes : list N) : bool * nat :=
  match es with
  | [] => (true, List.length runes)
  | (e, c) :: es' =>
      match count_loop e (cmin c) (firstn (Z.to_nat (Z.min (cmax c) (Z.of_nat (List.length runes)))) runes) 0 with
      | None => (false, 0)
      | Some matched => backtrack (fun i => elementsMatch es' (skipn i runes)) (cmin c) matched
      end
  end.

(* pkg/regexes/bre_evaluate.go:18-27: some start position i in 0 .. len(runes)-1 *)
Fixpoint match_from (b : bre) (runes : list N) : bool :=
  match runes with
  | [] => false
  | _ :: t =>
      let '(m, len) := elementsMatch (elements b) runes in
      if m && negb (anchorRight b && negb (Nat.eqb len (List.length runes))) then true
      else match_from b t
  end.

(* pkg/regexes/bre_evaluate.go:4-30 on []rune(input) *)
Definition matches_runes (b : bre) (runes : list N) : bool :=
  if anchorLeft b || match runes with [] => true | _ => false end then
    let '(m, len) := elementsMatch (elements b) runes in
    if m then (if anchorRight b then Nat.eqb len (List.length runes) else true) else false
  else match_from b runes.
Definition Matches (b : bre) (input : bytes) : bool := matches_runes b (runes_of input).
