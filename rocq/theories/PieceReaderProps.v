(* C143: the PieceTable over any io.ReaderAt.  Statements only; proofs in PieceReaderProofs.v. *)
From Verif Require Import GoBase PieceTableModel PieceTableSpec PieceReaderModel PieceReaderSpec PieceReaderProofs.
Local Open Scope Z_scope.

(* C143, "a PieceTable made over any reader that keeps the contract of io.ReaderAt yields the edited content": refuted.
   A reader may answer a read that ends at the end of the content with io.EOF.  Over such a reader String panics
   for every table whose text still has the last byte of the content -- for every non-empty content before
   the first edit, and for good as long as text is only inserted -- and for no other. *)
Theorem C143_any_reader_refuted : forall rd p c can_close es fuel,
  keeps_contract rd (p ++ [c]) -> eof_at_the_end rd (p ++ [c]) ->
  len (p ++ [c]) <= max_int64 -> edits_in_range (p ++ [c]) es ->
  exists pt, run_edits (new_piece_table (p ++ [c]) can_close (len (p ++ [c]))) es = (pt, Returned) /\
    (last_byte_kept p c es -> string_over (S fuel) rd pt = Some Panic) /\
    (~ last_byte_kept p c es -> string_over (S fuel) rd pt = Some (Ok (apply_edits (p ++ [c]) es))).
Proof.
  intros rd p c cc es fuel Hk He L R. destruct (over_lost rd p c cc es fuel Hk L R) as (pt & E & A & Z0).
  exists pt. auto.
Qed.
Print Assumptions C143_any_reader_refuted.

Theorem C143_inserting_keeps : forall p c es, edits_in_range (p ++ [c]) es ->
  (forall n a, ~ In (Del n a) es) -> last_byte_kept p c es.
Proof. intros. now apply only_insertions_keep. Qed.
Print Assumptions C143_inserting_keeps.

(* C143, what holds: the text of the table is never wrong -- over a reader that keeps the contract String returns the
   edited content or panics -- and it does not panic if the reader reports an error only for a short read
   (as strings.Reader, bytes.Reader and os.File do), or once the last byte of the content has been deleted.
   Missing: readers that report io.EOF together with the last byte. *)
Theorem C143_any_reader_partial : forall rd content can_close es fuel,
  keeps_contract rd content -> len content <= max_int64 -> edits_in_range content es ->
  exists pt, run_edits (new_piece_table content can_close (len content)) es = (pt, Returned) /\
    (eof_only_when_short rd -> string_over (S fuel) rd pt = Some (Ok (apply_edits content es))) /\
    (forall p c, content = p ++ [c] -> ~ last_byte_kept p c es ->
       string_over (S fuel) rd pt = Some (Ok (apply_edits content es))) /\
    (string_over (S fuel) rd pt = Some (Ok (apply_edits content es)) \/ string_over (S fuel) rd pt = Some Panic).
Proof.
  intros rd content cc es fuel Hk L R.
  destruct (over_any rd content cc es fuel Hk L R) as (pt & E & A). exists pt. split; auto. split; [|split; auto].
  - intro Q. destruct (over_quiet rd content cc es fuel Hk Q L R) as (pt2 & E2 & A2). congruence.
  - intros p c -> N. destruct (over_lost rd p c cc es fuel Hk L R) as (pt2 & E2 & A2 & _).
    rewrite E in E2. inversion E2; subst. auto.
Qed.
Print Assumptions C143_any_reader_partial.

(* C143, beyond the contract: a reader may also return fewer bytes than asked for without an error, as long as it
   returns some; the loop of piece.Read asks for the rest. *)
Theorem C143_short_reads : forall rd content can_close es fuel,
  delivers_some rd content -> len content <= max_int64 -> edits_in_range content es ->
  len (apply_edits content es) <= Z.of_nat fuel ->
  exists pt, run_edits (new_piece_table content can_close (len content)) es = (pt, Returned) /\
    string_over fuel rd pt = Some (Ok (apply_edits content es)).
Proof. exact over_some. Qed.
Print Assumptions C143_short_reads.

(* Two readers over "hello": one as strings.Reader answers, one that adds io.EOF to the last byte. *)
Definition plain_reader (content : bytes) : reader_at := fun _ off n =>
  let b := firstn (Z.to_nat n) (skipn (Z.to_nat off) content) in (b, len b <? n).
Definition eager_reader (content : bytes) : reader_at := fun _ off n =>
  let b := firstn (Z.to_nat n) (skipn (Z.to_nat off) content) in (b, len content <=? off + n).

Lemma taken : forall content off n, 0 <= off <= len content -> 0 < n ->
  len (firstn (Z.to_nat n) (skipn (Z.to_nat off) content)) = Z.min n (len content - off).
Proof. intros. unfold len in *. rewrite firstn_length, skipn_length. lia. Qed.

Example C143_nonvacuous :
  (forall content, keeps_contract (plain_reader content) content /\ eof_only_when_short (plain_reader content)) /\
  (forall content, keeps_contract (eager_reader content) content /\ eof_at_the_end (eager_reader content) content) /\
  (let pt := fst (run_edits (new_piece_table (B "hello") false 5) [Ins (B "XY") 2; Del 3 1]) in
   string_over 1 (plain_reader (B "hello")) pt = Some (Ok (B "hllo")) /\
   string_over 1 (eager_reader (B "hello")) pt = Some Panic /\
   string_over 1 (eager_reader (B "hello")) (pt_delete pt 1 3) = Some (Ok (B "hll"))) /\
  last_byte_kept (B "hell") "o" [Ins (B "XY") 2; Del 3 1] /\
  ~ last_byte_kept (B "hell") "o" [Ins (B "XY") 2; Del 3 1; Del 1 3].
Proof.
  split; [|split; [|split; [|split]]].
  - intro content. split; [intros i off n H1 H2|intros i off n H1 H2]; unfold plain_reader in *; cbv zeta in *.
    + rewrite taken by auto. split; [reflexivity|]. split; intro; lia.
    + cbn [fst snd] in *. lia.
  - intro content. split; [intros i off n H1 H2|intros i off n H1 H2 H3]; unfold eager_reader; cbv zeta.
    + rewrite taken by auto. split; [reflexivity|]. split; intro; lia.
    + cbn [snd]. lia.
  - vm_compute. auto.
  - exists "x"%char. vm_compute. discriminate.
  - intros (c' & H). apply H. reflexivity.
Qed.

(* A reader that delivers one byte at a time. *)
Definition byte_reader (content : bytes) : reader_at := fun _ off _ =>
  (firstn 1 (skipn (Z.to_nat off) content), false).
Example C143_short_nonvacuous :
  (forall content, delivers_some (byte_reader content) content) /\
  (let pt := fst (run_edits (new_piece_table (B "hello") false 5) [Ins (B "XY") 2; Del 3 1]) in
   string_over 4 (byte_reader (B "hello")) pt = Some (Ok (B "hllo")) /\
   string_over 1 (byte_reader (B "hello")) pt = None).
Proof.
  split.
  - intros content i off n H1 H2 H3. exists 1. split; [lia|reflexivity].
  - vm_compute. auto.
Qed.
