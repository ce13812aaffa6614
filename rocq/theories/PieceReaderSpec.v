(* Specification vocabulary for C143: what the documentation of io.ReaderAt promises. *)
From Verif Require Import GoBase PieceReaderModel PieceTableSpec.
Local Open Scope Z_scope.

(* [rd] is a reader over [content] that keeps the contract and whose medium never fails:
   it returns the bytes that are there; when it returns fewer than asked for, the error is not nil; and
   the error is nil unless the end of the content has been reached.  What is left open is what the contract leaves
   open: a read that gets everything it asked for and ends at the end of the content "may return either
   err == EOF or err == nil". *)
Definition keeps_contract (rd : reader_at) (content : bytes) : Prop :=
  forall i off n, 0 <= off <= len content -> 0 < n ->
    let '(b, err) := rd i off n in
    b = firstn (Z.to_nat n) (skipn (Z.to_nat off) content) /\
    (len b < n -> err = true) /\
    (err = true -> off + len b = len content).

(* The two ways of using that freedom. *)
Definition eof_only_when_short (rd : reader_at) : Prop :=
  forall i off n, 0 < n -> len (fst (rd i off n)) = n -> snd (rd i off n) = false.
Definition eof_at_the_end (rd : reader_at) (content : bytes) : Prop :=
  forall i off n, 0 <= off -> 0 < n -> off + n = len content -> snd (rd i off n) = true.

(* Of the content p ++ [c], the last byte is still in the text after the edits: the text would be another one
   if that byte were another one. *)
Definition last_byte_kept (p : bytes) (c : ascii) (es : list edit) : Prop :=
  exists c', apply_edits (p ++ [c']) es <> apply_edits (p ++ [c]) es.

(* A reader that is laxer than the contract: it returns some of the bytes asked for, at least one, and no error. *)
Definition delivers_some (rd : reader_at) (content : bytes) : Prop :=
  forall i off n, 0 <= off -> 0 < n -> off + n <= len content ->
    exists k, 0 < k <= n /\ rd i off n = (firstn (Z.to_nat k) (skipn (Z.to_nat off) content), false).
