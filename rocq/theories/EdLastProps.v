(* Property theorem C122 (pkg/ed: the line $ stands for, as = prints it). *)
From Verif Require Import GoBase GoFacts NumFacts PieceTableModel PieceTableSpec PieceTableProofs EdModel EdSpec EdProofs EdProofs2 EdProps RuneFacts
  EdPegModel EdPegSpec EdPegProofs EdPegProofs2 EdPegProofs3.
Local Open Scope Z_scope.

Lemma dollar_parsed : forall lead gap trail, blanks lead -> blanks gap -> blanks trail ->
  parsed (lead ++ B "$" ++ gap ++ B "=" ++ trail ++ [nl])
    [the_command ctlineNumber (retext (read_as (plain Dollar)) (waddr_text (plain Dollar) ++ gap)) zero_address [] []].
Proof. intros lead gap trail Hl Hg Ht. apply (line_number_command lead (plain Dollar) gap trail Hl); auto. split; [exact I|now left]. Qed.
Lemma dollar_reply : forall compile capacity errtext fs o ed text ls k, getLines ed = Val (ls, k) -> lines_count ls <= max_int64 ->
  processCommand compile capacity errtext fs o ed (the_command ctlineNumber (retext (read_as (plain Dollar)) text) zero_address [] []) =
    Val ([], ed, itoa (lines_count ls)).
Proof.
  intros compile capacity errtext fs o ed text ls k H L. unfold processCommand, setDefaultAddresses.
  cbn [the_command c_start c_typ is_null retext read_as plain w_base base_typ a_typ a_offset]. unfold addrLine.
  cbn [a_typ a_text a_offset retext read_as plain w_base base_typ]. rewrite H. cbn [obind]. rewrite Z.add_0_r. fold (lines_count ls). rewrite wrap64_id; [reflexivity|].
  unfold min_int64, lines_count in *. lia.
Qed.
Lemma buffer_small : forall ed ls, buffer ed ls -> lines_count ls <= max_int64.
Proof.
  intros ed ls H. apply table_for_inv in H. destruct H as [_ H]. exact (Z.le_trans _ _ _ (lines_le_len ls) H).
Qed.

(* C122 refuted, for every buffer whose last line is blank: $= prints one less than the number of lines. *)
Theorem C122_blank_last_line_refuted : forall ls lead gap trail, Forall ed_line ls -> blanks lead -> blanks gap -> blanks trail ->
  exists c, parsed (lead ++ B "$" ++ gap ++ B "=" ++ trail ++ [nl]) [c] /\
    forall compile capacity errtext fs o ed, buffer ed (ls ++ [[]]) ->
      processCommand compile capacity errtext fs o ed c = Val ([], ed, itoa (lines_count (ls ++ [[]]) - 1)).
Proof.
  intros ls lead gap trail F Hl Hg Ht. eexists. split; [now apply dollar_parsed|]. intros compile capacity errtext fs o ed H.
  pose proof (buffer_small _ _ H) as L. unfold lines_count in *. rewrite app_length in *. cbn [List.length] in *.
  rewrite (dollar_reply compile capacity errtext fs o ed _ ls (S (List.length ls))); [|now apply (getLines_blank ed ls)|unfold lines_count; lia].
  unfold lines_count. do 3 f_equal. lia.
Qed.
Print Assumptions C122_blank_last_line_refuted.
(* C122, what is true: for all other buffers of ordinary lines $= prints the number of lines. *)
Theorem C122_last_line_partial : forall ls lead gap trail, good ls -> blanks lead -> blanks gap -> blanks trail ->
  exists c, parsed (lead ++ B "$" ++ gap ++ B "=" ++ trail ++ [nl]) [c] /\
    forall compile capacity errtext fs o ed, buffer ed ls ->
      processCommand compile capacity errtext fs o ed c = Val ([], ed, itoa (lines_count ls)).
Proof.
  intros ls lead gap trail G Hl Hg Ht. eexists. split; [now apply dollar_parsed|]. intros compile capacity errtext fs o ed H.
  apply (dollar_reply compile capacity errtext fs o ed _ ls (List.length ls)); [now apply getLines_good|]. exact (buffer_small _ _ H).
Qed.
Print Assumptions C122_last_line_partial.
(* a buffer of two lines of which the second is blank, and the lines of EdProps.v *)
Definition blank_ed : itor := {| e_pt := new_piece_table (B "a" ++ [nl; nl]) false 3; e_filename := []; e_current := 1 |}.
Example C122_nonvacuous : buffer blank_ed ([B "a"] ++ [[]]) /\ Forall ed_line [B "a"] /\ buffer demo_ed demo_lines /\ good demo_lines /\
  lines_count ([B "a"] ++ [[]]) - 1 = 1 /\ blanks (B " ").
Proof.
  split; [exists (B "a" ++ [nl; nl]), false, 3, []; vm_compute; repeat split; discriminate|].
  split; [constructor; [|constructor]; split; [intros [X|[]]; discriminate X|split; [intros [|? [|? ?]]; discriminate|reflexivity]]|].
  split; [exact demo_buffer|]. split; [exact demo_good|]. split; [reflexivity|repeat constructor].
Qed.
