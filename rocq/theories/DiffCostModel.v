(* Diff of DiffModel.v with a counter: what it returns, and how many steps it takes. *)
From Verif Require Import GoBase DiffModel.

(* A step is a call of Diff, or a round of one of its three loops (diff.go:46, 54 and 56).  An access to a map, a comparison of
   two lines and an append are part of the round they are in. *)

(* pkg/diff/diff.go:45-48, as build_indices *)
Fixpoint build_indices_steps (i : nat) (old : list bytes) (m : indices_map) : indices_map * nat :=
  match old with
  | [] => (m, 0)
  | k :: r => let '(m', n) := build_indices_steps (S i) r (im_append m k i) in (m', S n)
  end.

(* diff.go:56-68, the inner loop *)
Fixpoint inner_loop_steps (overlap : overlap_map) (inew : nat) (is : list nat) (st : overlap_map * best)
  : overlap_map * best * nat :=
  match is with
  | [] => (st, 0)
  | i :: r => let '(st', n) := inner_loop_steps overlap inew r (inner_step overlap inew st i) in (st', S n)
  end.

(* diff.go:54-70, as outer_loop *)
Fixpoint outer_loop_steps (idx : indices_map) (inew : nat) (new : list bytes)
    (overlap : overlap_map) (b : best) : best * nat :=
  match new with
  | [] => (b, 0)
  | v :: r =>
      let '(nov, b', n) := inner_loop_steps overlap inew (im_get idx v) ([], b) in
      let '(b'', n') := outer_loop_steps idx (S inew) r nov b' in (b'', S (n + n'))
  end.

(* diff.go:45-70, as longest_run *)
Definition longest_run_steps (old new : list bytes) : best * nat :=
  let '(idx, n) := build_indices_steps 0 old [] in
  let '(b, n') := outer_loop_steps idx 0 new [] {| sub_old := 0; sub_new := 0; sub_len := 0 |} in (b, n + n').

(* diff.go:34-91, as diff_fuel; 1 for the call itself *)
Fixpoint diff_fuel_steps (fuel : nat) (old new : list bytes) : option (res (list comparison) * nat) :=
  match fuel with
  | O => None
  | S f =>
      match old, new with
      | [], [] => Some (Ok [], 1)
      | [], _ => Some (Ok [{| kind := Add; values := new |}], 1)
      | _, [] => Some (Ok [{| kind := Minus; values := old |}], 1)
      | _, _ =>
          let '(b, n) := longest_run_steps old new in
          if sub_len b =? 0
          then Some (Ok [{| kind := Minus; values := old |}; {| kind := Add; values := new |}], S n)
          else
            match slice old 0 (sub_old b), slice new 0 (sub_new b),
                  slice new (sub_new b) (sub_new b + sub_len b),
                  slice old (sub_old b + sub_len b) (List.length old),
                  slice new (sub_new b + sub_len b) (List.length new) with
            | Some o1, Some n1, Some run, Some o2, Some n2 =>
                match diff_fuel_steps f o1 n1, diff_fuel_steps f o2 n2 with
                | Some (r1, k1), Some (r2, k2) =>
                    Some (rbind r1 (fun c1 => rbind r2 (fun c2 =>
                      Ok (c1 ++ [{| kind := Equal; values := run |}] ++ c2))), S (n + k1 + k2))
                | _, _ => None
                end
            | _, _, _, _, _ => Some (Panic, S n)
            end
      end
  end.

(* diff.go:34 *)
Definition diff_steps (old new : list bytes) : option (res (list comparison) * nat) :=
  diff_fuel_steps (S (List.length old)) old new.
