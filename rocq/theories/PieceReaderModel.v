(* Model of reading the pieces of /repo/pkg/txt/piece_table.go through an arbitrary io.ReaderAt: PieceTableModel.v
   fixes how the original reader answers (as strings.Reader and os.File do), here it is a parameter. *)
From Verif Require Import GoBase PieceTableModel.
Local Open Scope Z_scope.

(* One call of the original reader: the [i]th call of the run, ReadAt(p, off) with len(p) = n, returns the bytes
   put at the front of p and whether the error is not nil.  (piece_table.go:33, the field `reader io.ReaderAt`;
   the call's number is there because a reader may answer the same question differently the next time.) *)
Definition reader_at := nat -> Z -> Z -> bytes * bool.

(* How piece.Read ends: with the bytes, with an error, or not within the fuel (a reader that keeps returning
   0 bytes and no error). *)
Inductive reading := Got (b : bytes) | Failed | Spins.

(* bytes.Reader.ReadAt, for the pieces of inserted text: an error exactly if fewer bytes are there than asked for
   (piece_table.go:120 and 134 make these readers). *)
Definition buf_read_at (b : bytes) : reader_at := fun _ off n =>
  if off <? 0 then ([], true)
  else let got := firstn (Z.to_nat n) (skipn (Z.to_nat off) b) in
       (got, Z.of_nat (List.length got) <? n).

(* piece_table.go:62-72, the loop of piece.Read and the test after it; [got] are the n bytes read so far, [i] the
   number of the next call.  The error's text is left out: String panics with whatever it is. *)
Fixpoint read_loop (fuel : nat) (rd : reader_at) (i : nat) (off want : Z) (got : bytes) : reading * nat :=
  let n := Z.of_nat (List.length got) in
  if n <? want then
    match fuel with
    | O => (Spins, i)
    | S f =>
        match rd i (off + n) (want - n) with
        | (_, true) => (Failed, S i)
        | (b, false) => read_loop f rd (S i) off want (got ++ b)
        end
    end
  else if n =? want then (Got got, i) else (Failed, i).

(* piece_table.go:55-74 as String calls it (line 93), with len(bytes) = p.length > 0.  Calls to a bytes.Reader
   are counted along; the count only tells calls apart. *)
Definition read_piece_over (fuel : nat) (rd : reader_at) (i : nat) (p : piece) : reading * nat :=
  read_loop fuel (match prdr p with ROrig => rd | RBuf b => buf_read_at b end) i (poff p) (plen p) [].

(* piece_table.go:86-98 (second loop of String); None = out of fuel. *)
Fixpoint string_pieces_over (fuel : nat) (rd : reader_at) (i : nat) (ps : list piece) : option (res bytes) :=
  match ps with
  | [] => Some (Ok [])
  | p :: r =>
      if plen p =? 0 then string_pieces_over fuel rd i r
      else if plen p <? 0 then Some Panic
      else match read_piece_over fuel rd i p with
           | (Spins, _) => None
           | (Failed, _) => Some Panic
           | (Got b, i') => option_map (fun x => rbind x (fun s => Ok (b ++ s))) (string_pieces_over fuel rd i' r)
           end
  end.

(* piece_table.go:77-100 *)
Definition string_over (fuel : nat) (rd : reader_at) (pt : piece_table) : option (res bytes) :=
  if total_len (head pt) <? 0 then Some Panic else string_pieces_over fuel rd 0 (head pt).
