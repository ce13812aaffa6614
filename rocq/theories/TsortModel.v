(* Model of /repo/pkg/tsort/tsort.go and /repo/cmd/tsort/main.go *)
From Verif Require Import GoBase GoMap.

(* ---------- pkg/tsort/tsort.go ---------- *)

(* tsort.go:5-7.  The nil map of the zero Sorter behaves like the empty map (line 19-21). *)
Definition sorter := smap (list bytes).
Definition new_sorter : sorter := [].

(* s.orderings[k]: a missing key reads as the nil slice *)
Definition successors (s : sorter) (k : bytes) : list bytes :=
  match mfind s k with Some l => l | None => [] end.

(* tsort.go:9-16 *)
Fixpoint in_slice (haystack : list bytes) (needle : bytes) : bool :=
  match haystack with
  | [] => false
  | j :: r => if beqb needle j then true else in_slice r needle
  end.

(* tsort.go:29-33, the loop over adjacent items *)
Fixpoint add_pairs (s : sorter) (items : list bytes) : sorter :=
  match items with
  | a :: ((b :: _) as r) =>
      let s' := if in_slice (successors s a) b then s
                else mset s a (successors s a ++ [b]) in
      add_pairs s' r
  | _ => s
  end.

(* tsort.go:18-34 *)
Definition add (s : sorter) (items : list bytes) : sorter :=
  match items with
  | [] => s
  | [a] => mset s a []
  | _ => add_pairs s items
  end.

(* tsort.go:42-48: delete(candidates, v) for all values (the order of this iteration does not
   matter for the resulting set; candidates as a list of keys) *)
Definition remove_all (cands : list bytes) (vs : list bytes) : list bytes :=
  fold_left (fun c v => filter (fun x => negb (beqb x v)) c) vs cands.

Section Iteration.
(* The order in which the Go run-time iterates over the final candidate map (line 49). *)
Variable perm : list bytes -> list bytes.

(* tsort.go:36-54 *)
Definition heads (s : sorter) : list bytes :=
  perm (fold_left (fun c kv => remove_all c (snd kv)) s (mkeys s)).

(* tsort.go:56-65 (the result does not depend on the iteration order) *)
Definition is_blocked (s : sorter) (n : bytes) : bool :=
  existsb (fun kv => existsb (fun i => beqb i n) (snd kv)) s.

(* tsort.go:70-81.  None = out of fuel (excluded by C13). *)
Fixpoint order_loop (fuel : nat) (s : sorter) (out cands : list bytes)
  : option (sorter * list bytes) :=
  match cands with
  | [] => Some (s, out)
  | head :: rest =>
      match fuel with
      | O => None
      | S f =>
          let unblocked := successors s head in
          let s' := mdel s head in
          order_loop f s' (out ++ [head])
            (rest ++ filter (fun u => negb (is_blocked s' u)) unblocked)
      end
  end.

(* keys plus recorded successors: an upper bound for the number of iterations *)
Definition order_fuel (s : sorter) : nat :=
  List.length s + List.length (flat_map snd s).

Definition msg_impossible : bytes := B "Hmm. Still items left. Ordering impossible?".

(* tsort.go:67-87: the sorter afterwards, and the returned slice or error. *)
Definition order (s : sorter) : option (sorter * res (list bytes)) :=
  match order_loop (order_fuel s) s [] (heads s) with
  | None => None
  | Some (s', out) =>
      match s' with
      | [] => Some (s', Ok out)
      | _ => Some (s', Err msg_impossible)
      end
  end.

(* ---------- cmd/tsort/main.go ---------- *)

(* main.go:22-34: [words] are the tokens the scanner returns. *)
Fixpoint read_pairs (s : sorter) (words : list bytes) : sorter + bytes :=
  match words with
  | [] => inl s
  | [w1] => inr w1
  | w1 :: w2 :: r =>
      read_pairs (if beqb w1 w2 then add s [w1] else add s [w1; w2]) r
  end.

(* main.go:12-15: args... is passed to Fprintf as one slice argument, printed in brackets *)
Definition die (msg arg : bytes) : run_result :=
  {| out := []; errout := B "ahh jeez, " ++ msg ++ B " [" ++ arg ++ B "]" ++ [nl]; fin := Exit 1 |}.

(* main.go:17-51.  [words], [scan_err] are the scanner's tokens and final error. *)
Definition tsort_run (words : list bytes) (scan_err : option bytes) : option run_result :=
  match read_pairs new_sorter words with
  | inr w1 => Some (die (B "unmatched word!") w1)
  | inl s =>
      match scan_err with
      | Some e => Some (die (B "scan error!") e)
      | None =>
          match order s with
          | None => None
          | Some (_, Ok l) =>
              Some {| out := flat_map (fun x => x ++ [nl]) l; errout := []; fin := Exit 0 |}
          | Some (_, Err e) => Some (die (B "sort error!") e)
          | Some (_, Panic) => None
          end
      end
  end.

(* bufio.ScanWords with a 64 KiB buffer: tokens and error flag (token too long).
   [cur] is the word being read, reversed.  A word is found once the separator after it is in the buffer as a whole, so the word and a
   separator of w bytes must fit; at the end of the input a word that fills the buffer is too long. *)
Fixpoint scan_words_from (fuel : nat) (b cur : bytes) : list bytes * bool :=
  let emit w k := match cur with
                  | [] => k tt
                  | _ => if (max_token <? N.of_nat (List.length cur + w))%N then ([], true)
                         else let '(l, e) := k tt in (rev cur :: l, e)
                  end in
  match fuel, b with
  | S f, _ :: _ =>
      let '(r, w) := decode_rune b in
      if is_space_rune r then emit w (fun _ => scan_words_from f (skipn w b) [])
      else scan_words_from f (skipn w b) (rev (firstn w b) ++ cur)
  | _, _ => emit 1 (fun _ => ([], false))
  end.
Definition scan_words (b : bytes) : list bytes * bool := scan_words_from (List.length b) b [].

(* main.go:53-68: operand handling and run.  [fs] gives what can be read from a file: its bytes and the error after them, if any;
   [stdin] is standard input.  The words before a read error are still returned (and the last one as well, as at the end of the input). *)
Definition tsort_main (fs : bytes -> option (bytes * option bytes)) (stdin : bytes * option bytes) (args : list bytes)
  : option run_result :=
  let go (input : bytes * option bytes) :=
    let '(ws, toolong) := scan_words (fst input) in
    tsort_run ws (if toolong then Some (B "bufio.Scanner: token too long") else snd input) in
  match args with
  | [] => go stdin
  | fname :: _ =>
      if beqb fname (B "-") then go stdin
      else match fs fname with
           | None => Some (die (B "can't open") fname)
           | Some content => go content
           end
  end.
End Iteration.
