(* Model of /repo/pkg/txt/piece_table.go at the level of pointers: pieces are cells of a heap, linked by their
   next fields, and the methods change the cells in place.  PieceTableModel.v has the next fields as the structure
   of a list; PieceHeapProps.v shows that nothing is lost by that, and treats the functions that depend on it. *)
From Verif Require Import GoBase PieceTableModel.
Local Open Scope Z_scope.

(* piece_table.go:30-35; a pointer is an address in the heap, None is nil *)
Record cell := { c_piece : piece; c_next : option nat }.
Definition heap := list cell.

(* piece_table.go:13-17 with the heap its pointers point into; [orig], [closable], [closed] as in piece_table *)
Record table := { t_orig : bytes; t_closable : bool; t_closed : bool; t_append : option bytes; t_head : option nat; t_heap : heap }.

(* how a method ends: with a result, by a panic, or not within the given number of rounds *)
Inductive ends (A : Type) := Returns (a : A) | Dies | Runs.
Arguments Returns {A} a.
Arguments Dies {A}.
Arguments Runs {A}.

(* assignment to the fields of the cell at an address *)
Fixpoint upd (h : heap) (a : nat) (c : cell) : heap :=
  match h, a with
  | [], _ => []
  | _ :: r, O => c :: r
  | x :: r, S a' => x :: upd r a' c
  end.
Definition set_next (h : heap) (a : nat) (n : option nat) : heap :=
  match nth_error h a with Some c => upd h a {| c_piece := c_piece c; c_next := n |} | None => h end.
Definition set_piece (h : heap) (a : nat) (p : piece) : heap :=
  match nth_error h a with Some c => upd h a {| c_piece := p; c_next := c_next c |} | None => h end.

(* piece_table.go:20-27 *)
Definition new_table (content : bytes) (can_close : bool) (length : Z) : table :=
  {| t_orig := content; t_closable := can_close; t_closed := false; t_append := Some []; t_head := Some 0%nat;
     t_heap := [{| c_piece := {| plen := length; poff := 0; prdr := ROrig |}; c_next := None |}] |}.

(* The walk along the next fields that both loops of String make (piece_table.go:80, 86).  A dangling pointer does
   not exist in Go; it is given as a panic. *)
Fixpoint walk (fuel : nat) (h : heap) (p : option nat) : ends (list piece) :=
  match fuel with
  | O => Runs
  | S f =>
      match p with
      | None => Returns []
      | Some a =>
          match nth_error h a with
          | None => Dies
          | Some c => match walk f h (c_next c) with Returns l => Returns (c_piece c :: l) | e => e end
          end
      end
  end.

(* piece_table.go:77-100 on the pieces met on the way; a walk in n cells that takes more than n rounds never ends *)
Definition t_string (t : table) : ends bytes :=
  match walk (S (List.length (t_heap t))) (t_heap t) (t_head t) with
  | Returns ps =>
      match pt_string {| orig := t_orig t; closable := t_closable t; closed := t_closed t; appendb := t_append t; head := ps |} with
      | Ok s => Returns s
      | _ => Dies
      end
  | Dies => Dies
  | Runs => Runs
  end.

(* piece_table.go:124-149: the loop of Insert; [prev] is the piece before p *)
Fixpoint insert_loop (fuel : nat) (h : heap) (app : option bytes) (hd : option nat) (text : bytes) (at_ idx : Z)
    (prev p : option nat) : ends (heap * option nat * bytes) :=
  match fuel with
  | O => Runs
  | S f =>
      match p with
      | None => Dies                                                       (* line 149 *)
      | Some a =>
          match nth_error h a with
          | None => Dies
          | Some c =>
              let q := c_piece c in
              let idx' := idx + plen q in
              if at_ <=? idx' then
                match app with
                | None => Dies                                             (* line 132: nil *bytes.Buffer *)
                | Some buf =>
                    let left := at_ - (idx' - plen q) in
                    let n := List.length h in
                    let h1 := h ++ [
                      {| c_piece := {| plen := left; poff := poff q; prdr := prdr q |}; c_next := Some (S n) |};
                      {| c_piece := {| plen := Z.of_nat (List.length text); poff := Z.of_nat (List.length buf);
                                       prdr := RBuf (buf ++ text) |}; c_next := Some (S (S n)) |};
                      {| c_piece := {| plen := plen q - left; poff := poff q + left; prdr := prdr q |}; c_next := c_next c |}] in
                    match prev with
                    | None => Returns (h1, Some n, buf ++ text)            (* line 138 *)
                    | Some b => Returns (set_next h1 b (Some n), hd, buf ++ text)  (* line 140 *)
                    end
                end
              else insert_loop f h app hd text at_ idx' (Some a) (c_next c)
          end
      end
  end.

(* piece_table.go:113-150 *)
Definition t_insert (t : table) (text : bytes) (at_ : Z) : ends table :=
  match t_head t with
  | None =>
      Returns {| t_orig := t_orig t; t_closable := t_closable t; t_closed := t_closed t; t_append := t_append t;
                 t_head := Some (List.length (t_heap t));
                 t_heap := t_heap t ++ [{| c_piece := {| plen := Z.of_nat (List.length text); poff := 0; prdr := RBuf text |};
                                           c_next := None |}] |}
  | Some _ =>
      match insert_loop (S (List.length (t_heap t))) (t_heap t) (t_append t) (t_head t) text at_ 0 None (t_head t) with
      | Returns (h, hd, buf) =>
          Returns {| t_orig := t_orig t; t_closable := t_closable t; t_closed := t_closed t; t_append := Some buf;
                     t_head := hd; t_heap := h |}
      | Dies => Dies
      | Runs => Runs
      end
  end.

(* piece_table.go:155-179: the loop of Delete; [stop] = at+length, [end_] the variable end before the round.
   Line 160 assigns before line 161 tests; a piece that is made the first is not also the last (line 172), because
   line 161 has returned then. *)
Fixpoint delete_loop (fuel : nat) (h : heap) (n at_ stop : Z) (first : option nat) (end_ : Z) (p : option nat) : ends heap :=
  match fuel with
  | O => Runs
  | S f =>
      match p with
      | None => Returns h
      | Some a =>
          match nth_error h a with
          | None => Dies
          | Some c =>
              let q := c_piece c in
              let start := end_ in
              let e := end_ + plen q in
              match first with
              | None =>
                  if at_ <=? e then
                    let h1 := set_piece h a {| plen := at_ - start; poff := poff q; prdr := prdr q |} in   (* line 160 *)
                    if stop <=? e then
                      Returns (set_next
                        (h1 ++ [{| c_piece := {| plen := e - stop; poff := poff q + (at_ - start + n); prdr := prdr q |};
                                   c_next := c_next c |}])
                        a (Some (List.length h1)))
                    else delete_loop f h1 n at_ stop (Some a) e (c_next c)
                  else delete_loop f h n at_ stop None e (c_next c)
              | Some b =>
                  if stop <=? e then
                    let h1 := set_next h b (Some a) in                                                     (* line 173 *)
                    Returns (set_piece h1 a {| plen := plen q - (stop - start); poff := poff q + (stop - start); prdr := prdr q |})
                  else delete_loop f h n at_ stop (Some b) e (c_next c)
              end
          end
      end
  end.

(* piece_table.go:152-181 *)
Definition t_delete (t : table) (n at_ : Z) : ends table :=
  match delete_loop (S (List.length (t_heap t))) (t_heap t) n at_ (wrap64 (at_ + n)) None 0 (t_head t) with
  | Returns h =>
      Returns {| t_orig := t_orig t; t_closable := t_closable t; t_closed := t_closed t; t_append := t_append t;
                 t_head := t_head t; t_heap := h |}
  | Dies => Dies
  | Runs => Runs
  end.

(* piece_table.go:185-187 *)
Fixpoint clean_head (fuel : nat) (h : heap) (p : option nat) : ends (option nat) :=
  match fuel with
  | O => Runs
  | S f =>
      match p with
      | None => Returns None
      | Some a =>
          match nth_error h a with
          | None => Dies
          | Some c => if plen (c_piece c) <=? 0 then clean_head f h (c_next c) else Returns p
          end
      end
  end.
(* piece_table.go:188-194; prev.next with prev nil is a nil-pointer dereference *)
Fixpoint clean_loop (fuel : nat) (h : heap) (prev p : option nat) : ends heap :=
  match fuel with
  | O => Runs
  | S f =>
      match p with
      | None => Returns h
      | Some a =>
          match nth_error h a with
          | None => Dies
          | Some c =>
              if plen (c_piece c) <=? 0 then
                match prev with
                | None => Dies
                | Some b => clean_loop f (set_next h b (c_next c)) (Some a) (c_next c)
                end
              else clean_loop f h (Some a) (c_next c)
          end
      end
  end.
(* piece_table.go:183-196 *)
Definition t_clean (t : table) : ends table :=
  match clean_head (S (List.length (t_heap t))) (t_heap t) (t_head t) with
  | Returns hd =>
      match clean_loop (S (List.length (t_heap t))) (t_heap t) None hd with
      | Returns h =>
          Returns {| t_orig := t_orig t; t_closable := t_closable t; t_closed := t_closed t; t_append := t_append t;
                     t_head := hd; t_heap := h |}
      | Dies => Dies
      | Runs => Runs
      end
  | Dies => Dies
  | Runs => Runs
  end.

(* piece_table.go:105-109, the loop and the assignment after it; the arguments are pointers to cells *)
Fixpoint append_loop (h : heap) (p : nat) (ps : list nat) (tmp : option nat) : heap :=
  match ps with
  | [] => set_next h p tmp
  | p2 :: r => append_loop (set_next h p (Some p2)) p2 r tmp
  end.
(* piece_table.go:103-110 *)
Definition p_append (h : heap) (p : nat) (ps : list nat) : heap :=
  append_loop h p ps (match nth_error h p with Some c => c_next c | None => None end).
