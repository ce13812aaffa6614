(* Property theorems C58, C61-C63, C77-C82, C85 and C87 (pkg/ed, from the command line typed to the command
   executed).  [compile], [capacity], [errtext] and [o] are as in EdProps.v. *)
From Verif Require Import GoBase GoFacts NumFacts PieceTableModel PieceTableSpec EdModel EdSpec EdProofs EdProofs2 EdProps RuneFacts
  EdPegModel EdPegSpec EdPegProofs EdPegProofs2 EdPegProofs3 EdPegProofs4 EdPegProofs5 EdPegProofs6 EdPegProofs7.
Local Open Scope Z_scope.

Lemma letter_p : range_letter "p" ctprint. Proof. right; right; right; right; left; reflexivity. Qed.
Lemma no_blanks : blanks []. Proof. constructor. Qed.
Local Hint Resolve letter_p no_blanks : core.

(* C61: every range command, with every form of range, blanks wherever they are allowed, is sent as that
   command with the addresses written (or implied). *)
Theorem C61_range_commands : forall lead r gap x t trail, blanks lead -> wrange_ok r -> blanks gap -> (r = NoAddress -> gap = []) ->
  range_letter x t -> blanks trail ->
  parsed (lead ++ wrange_text r ++ gap ++ [x] ++ trail ++ [nl]) [the_command t (wrange_start r) (wrange_end r) [] []].
Proof. exact range_command'. Qed.
Print Assumptions C61_range_commands.
(* C61: the implied addresses are those read from 1, a dot and a dollar sign. *)
Theorem C61_implied_addresses :
  implied "," = read_as (plain (Num (B "1"))) /\ implied ";" = read_as (plain Dot) /\
  wrange_end (Neither ",") = read_as (plain Dollar) /\ wrange_end (Neither ";") = read_as (plain Dollar) /\
  zero_address = {| a_typ := lNull; a_text := []; a_offset := 0 |}.
Proof. repeat split. Qed.
Print Assumptions C61_implied_addresses.
(* C61: the forms with numbers. *)
Theorem C61_numeric_addresses : forall m n x t, 0 <= m -> 0 <= n -> range_letter x t ->
  parsed (itoa m ++ B "," ++ itoa n ++ [x; nl]) [the_command t (num_addr m) (num_addr n) [] []] /\
  parsed (itoa m ++ [x; nl]) [the_command t (num_addr m) (num_addr m) [] []] /\
  parsed (B "," ++ itoa n ++ [x; nl]) [the_command t (num_addr 1) (num_addr n) [] []] /\
  parsed (itoa m ++ B "," ++ [x; nl]) [the_command t (num_addr m) (num_addr m) [] []] /\
  parsed (B "," ++ [x; nl]) [the_command t (num_addr 1) aLast [] []] /\
  parsed [x; nl] [the_command t zero_address zero_address [] []].
Proof.
  intros m n x t M N X.
  assert (P : forall r, wrange_ok r -> parsed (wrange_text r ++ [x; nl]) [the_command t (wrange_start r) (wrange_end r) [] []]).
  { intros r R. apply (range_command' [] r [] x t []); auto; constructor. }
  assert (C : separator ",") by now left.
  assert (Bl : blanks []) by constructor. pose proof (num_ok m M) as Om. pose proof (num_ok n N) as On.
  pose proof (P (Both (plain (Num (itoa m))) [] "," [] (plain (Num (itoa n))))) as P1.
  pose proof (P (OneAddress (plain (Num (itoa m))))) as P2.
  pose proof (P (RightOnly "," [] (plain (Num (itoa n))))) as P3.
  pose proof (P (LeftOnly (plain (Num (itoa m))) [] ",")) as P4.
  pose proof (P (Neither ",")) as P5. pose proof (P NoAddress) as P6.
  cbn [wrange_ok wrange_text wrange_start wrange_end] in P1, P2, P3, P4, P5, P6.
  rewrite !read_num, !num_text in *. rewrite <- !app_assoc in *. change (implied ",") with (num_addr 1) in *. cbn [app] in *.
  split; [apply P1; auto|]. split; [apply P2; auto|]. split; [apply P3; auto|]. split; [apply P4; auto|]. split; [apply P5; auto|apply P6; exact I].
Qed.
Print Assumptions C61_numeric_addresses.
(* C61: and the numbers mean what they say, for every number that an int can hold and every command it can
   be given to. *)
Theorem C61_numbers_mean_lines : forall compile ed n, 0 <= n <= max_int64 -> addrLine compile ed (num_addr n) = Val n.
Proof. intros compile ed n H. apply addr_num_line. unfold min_int64 in *. lia. Qed.
Print Assumptions C61_numbers_mean_lines.
Example C61_nonvacuous : range_letter "n" ctnumber /\
  parsed (B " 10 ;" ++ [tab] ++ B "$-2 n" ++ [nl])
    [the_command ctnumber (num_addr 10) {| a_typ := lLast; a_text := B "$-2"; a_offset := 0 |} [] []].
Proof.
  split; [right; right; right; left; reflexivity|].
  apply (range_command' (B " ") (Both (plain (Num (B "10"))) (B " ") ";" [tab] {| w_base := Dollar; w_off := B "-2" |}) (B " ") "n" ctnumber []).
  - repeat constructor.
  - cbn. repeat split; try (now left); try now right. 1: repeat constructor; vm_compute; discriminate. 1: discriminate.
    1: repeat constructor. 1: repeat constructor; now right.
    right. exists "-"%char, (B "2"). split; auto. split; auto. repeat constructor; vm_compute; discriminate.
  - repeat constructor.
  - discriminate.
  - right; right; right; left; reflexivity.
  - constructor.
Qed.

(* C62 refuted, for every number and offset: m+k and m-k are line 0. *)
Theorem C62_number_offset_refuted : forall m k s, 0 <= m <= max_int64 -> 0 <= k -> s = "+"%char \/ s = "-"%char ->
  exists a, parsed (itoa m ++ [s] ++ itoa k ++ B "p" ++ [nl]) [the_command ctprint a a [] []] /\
    forall compile ed, addrLine compile ed a = Val 0.
Proof.
  intros m k s M K Sg. set (w := {| w_base := Num (itoa m); w_off := s :: itoa k |}).
  assert (Ok : waddr_ok w).
  { split; [apply itoa_digits; lia|]. right. exists s, (itoa k). split; auto. split; auto. apply itoa_digits; lia. }
  exists (read_as w). split.
  - pose proof (range_command' [] (OneAddress w) [] "p" ctprint []) as P. cbn [wrange_text wrange_start wrange_end app] in P.
    change (waddr_text w) with (itoa m ++ s :: itoa k) in P. rewrite <- app_assoc in P. cbn [app] in *. apply P; auto.
  - intros compile ed. unfold addrLine. cbn [read_as a_typ w w_base base_typ a_text a_offset]. unfold waddr_text, w. cbn [w_base base_text w_off].
    rewrite atoi_broken; auto. apply sign_no_digit. tauto.
Qed.
Print Assumptions C62_number_offset_refuted.
(* C62 refuted, for every offset: .+k is the current line and $-k the last one. *)
Theorem C62_relative_offset_refuted : forall k s, 0 <= k -> s = "+"%char \/ s = "-"%char ->
  exists a b, parsed (B "." ++ [s] ++ itoa k ++ B "p" ++ [nl]) [the_command ctprint a a [] []] /\
    parsed (B "$" ++ [s] ++ itoa k ++ B "p" ++ [nl]) [the_command ctprint b b [] []] /\
    forall compile ed ls, buffer ed ls -> good ls -> min_int64 <= e_current ed <= max_int64 ->
      addrLine compile ed a = Val (e_current ed) /\ addrLine compile ed b = Val (lines_count ls).
Proof.
  intros k s K Sg.
  assert (O : offset_ok (s :: itoa k)) by (right; exists s, (itoa k); repeat split; auto; apply itoa_digits; lia).
  assert (P : forall w, waddr_ok w -> parsed (waddr_text w ++ B "p" ++ [nl]) [the_command ctprint (read_as w) (read_as w) [] []]).
  { intros w W. apply (range_command' [] (OneAddress w) [] "p" ctprint []); auto. }
  set (w1 := {| w_base := Dot; w_off := s :: itoa k |}). set (w2 := {| w_base := Dollar; w_off := s :: itoa k |}).
  exists (read_as w1), (read_as w2). split; [|split].
  - assert (W : waddr_ok w1) by (split; [exact I|auto]). apply P in W.
    change (waddr_text w1) with (B "." ++ s :: itoa k) in W || change (waddr_text w2) with (B "$" ++ s :: itoa k) in W.
    cbn [app] in *. exact W.
  - assert (W : waddr_ok w2) by (split; [exact I|auto]). apply P in W.
    change (waddr_text w1) with (B "." ++ s :: itoa k) in W || change (waddr_text w2) with (B "$" ++ s :: itoa k) in W.
    cbn [app] in *. exact W.
  - intros compile ed ls H G C. pose proof (lines_range ed ls H G). split; apply (addr_denotes compile ed ls); auto.
    + replace (e_current ed) with (e_current ed + 0) by lia. apply den_cur.
    + replace (lines_count ls) with (lines_count ls + 0) by lia. apply den_last.
    + unfold lines_count, min_int64 in *. lia.
Qed.
Print Assumptions C62_relative_offset_refuted.
(* C62, what is true: without an offset, n, . and $ mean line n, the current line and the last line. *)
Theorem C62_no_offset_partial : forall ed ls n, 0 <= n <= max_int64 ->
  denotes ed ls (read_as (plain (Num (itoa n)))) n /\ denotes ed ls (read_as (plain Dot)) (e_current ed) /\
  denotes ed ls (read_as (plain Dollar)) (lines_count ls).
Proof.
  intros ed ls n N. split; [rewrite read_num; apply denotes_num; unfold min_int64 in *; lia|]. split.
  - replace (e_current ed) with (e_current ed + 0) by lia. apply den_cur.
  - replace (lines_count ls) with (lines_count ls + 0) by lia. apply den_last.
Qed.
Print Assumptions C62_no_offset_partial.

(* C63, exactly: if no line after the first begins with a dot, the text sent is the first n bytes of the text
   typed, where n is its number of runes.  (The code slices bytes with positions that count runes.) *)
Theorem C63_text_partial : forall lead r gap x ls trail, blanks lead -> wrange_ok r -> text_letter x -> text_range x r ->
  blanks gap -> (~ closed r -> gap = []) -> typed_lines ls -> dotless ls -> blanks trail ->
  exists t, parsed (lead ++ wrange_text r ++ gap ++ [x; nl] ++ join [nl] ls ++ [nl; "."%char] ++ trail ++ [nl])
      [the_command (text_typ x) (wrange_start r) (text_end x r) t []] /\
    t = firstn (List.length (runes_of (join [nl] ls))) (join [nl] ls) /\
    (t = join [nl] ls <-> List.length (runes_of (join [nl] ls)) = List.length (join [nl] ls)) /\
    (ascii_only (join [nl] ls) -> t = join [nl] ls).
Proof.
  intros lead r gap x ls trail Hl Hr Hx Tx Hg Ng T D Ht. eexists. split; [now apply text_lines_command|]. split; [reflexivity|].
  split; [apply text_kept|]. intros A. now apply text_kept, short_ascii.
Qed.
Print Assumptions C63_text_partial.
(* C63 refuted, for every text with a character of more than one byte: the end of the text is lost. *)
Theorem C63_non_ascii_refuted : forall lead r gap x ls trail, blanks lead -> wrange_ok r -> text_letter x -> text_range x r ->
  blanks gap -> (~ closed r -> gap = []) -> typed_lines ls -> dotless ls -> blanks trail ->
  (List.length (runes_of (join [nl] ls)) < List.length (join [nl] ls))%nat ->
  exists t lost, parsed (lead ++ wrange_text r ++ gap ++ [x; nl] ++ join [nl] ls ++ [nl; "."%char] ++ trail ++ [nl])
      [the_command (text_typ x) (wrange_start r) (text_end x r) t []] /\ join [nl] ls = t ++ lost /\ lost <> [].
Proof.
  intros lead r gap x ls trail Hl Hr Hx Tx Hg Ng T D Ht L.
  set (t := join [nl] ls) in *. set (k := List.length (runes_of t)) in *. exists (firstn k t), (skipn k t).
  split; [now apply text_lines_command|]. split; [symmetry; apply firstn_skipn|]. intros Q.
  apply (f_equal (@List.length ascii)) in Q. rewrite skipn_length in Q. cbn in Q. lia.
Qed.
Print Assumptions C63_non_ascii_refuted.
(* C63 refuted, for every text with a line after the first that begins with a dot and goes on with something
   other than a blank: the command is rejected, and all the text with it. *)
Theorem C63_dotted_line_refuted : forall lead r gap x ls c rest, blanks lead -> wrange_ok r -> text_letter x -> text_range x r ->
  blanks gap -> (~ closed r -> gap = []) -> typed_lines ls -> dotless ls -> c <> " "%char -> c <> tab -> c <> nl ->
  rejected (lead ++ wrange_text r ++ gap ++ [x; nl] ++ join [nl] ls ++ [nl; "."%char] ++ c :: rest).
Proof.
  intros lead r gap x ls c rest Hl Hr Hx Tx Hg Ng [Ne NL] D N1 N2 N3. apply dotted_rejected; auto. apply no_term_lines; auto.
  intros l Il. now apply NL.
Qed.
Print Assumptions C63_dotted_line_refuted.
Example C63_nonvacuous :
  (* e-acute is two bytes, so the last byte of the text is lost *)
  parsed (B "2a" ++ [nl] ++ [ascii_of_N 195; ascii_of_N 169] ++ B "x" ++ [nl] ++ B "." ++ [nl])
    [the_command ctappend (num_addr 2) zero_address [ascii_of_N 195; ascii_of_N 169] []] /\
  parsed (B "2a" ++ [nl] ++ B "x" ++ [nl; nl] ++ B "y" ++ [nl] ++ B "." ++ [nl])
    [the_command ctappend (num_addr 2) zero_address (B "x" ++ [nl; nl] ++ B "y") []] /\
  rejected (B "2a" ++ [nl] ++ B "x" ++ [nl] ++ B ".profile" ++ [nl] ++ B "." ++ [nl]).
Proof. split; [|split]; [eexists; split; vm_compute; reflexivity| |vm_compute; reflexivity]. eexists; split; vm_compute; reflexivity. Qed.

(* C77 refuted: the parser is not the one ed.peg describes.  Whenever a range ends in its separator and blanks
   follow it, "w" is accepted by the grammar only. *)
Theorem C77_generated_parser_refuted : forall lead r gap trail, blanks lead -> wrange_ok r -> r <> NoAddress -> ~ closed r ->
  blanks gap -> gap <> [] -> blanks trail ->
  let buf := lead ++ wrange_text r ++ gap ++ B "w" ++ trail ++ [nl] in
  rejected buf /\ exists toks, Parse_with src_first buf = Val (Some toks) /\
    sent (Execute buf toks) = [the_command ctwrite (wrange_start r) (wrange_end r) [] []].
Proof.
  intros lead r gap trail Hl Hr Ne Nc Hg Ng Ht buf. split; [|now apply open_gap_write].
  apply (open_gap_rejected lead r gap "w" (trail ++ [nl])); auto; reflexivity.
Qed.
Print Assumptions C77_generated_parser_refuted.
(* C77, what is true: whatever the generated parser accepts the grammar accepts, with the same tokens. *)
Theorem C77_accepted_partial : forall buf toks, Parse buf = Val (Some toks) -> Parse_with src_first buf = Val (Some toks).
Proof. exact grammar_contains. Qed.
Print Assumptions C77_accepted_partial.
(* C77, what is true: on input without blanks they are the same. *)
Theorem C77_generated_parser_partial : forall buf, ~ In " "%char buf -> ~ In tab buf -> Parse_with src_first buf = Parse buf.
Proof. exact same_grammar. Qed.
Print Assumptions C77_generated_parser_partial.
Example C77_nonvacuous : (exists toks, Parse_with src_first (B "1,$p" ++ [nl] ++ B ";d" ++ [nl]) = Val (Some toks) /\
  List.length (sent (Execute (B "1,$p" ++ [nl] ++ B ";d" ++ [nl]) toks)) = 2%nat) /\
  (exists toks, Parse (B " 1 , 3 p" ++ [nl]) = Val (Some toks)) /\
  wrange_ok (LeftOnly (plain (Num (B "1"))) [] ",") /\ rejected (B "1, w" ++ [nl]).
Proof.
  split; [eexists; split; vm_compute; reflexivity|]. split; [eexists; vm_compute; reflexivity|]. split; [|vm_compute; reflexivity].
  cbn. repeat split; auto; try (now left); try discriminate. repeat constructor; vm_compute; discriminate.
Qed.

(* C78: on every input parsing ends, and the text captured lies within the input. *)
Theorem C78_parsing_ends : forall buf, exists r, Parse buf = Val r.
Proof. exact parse_ends. Qed.
Print Assumptions C78_parsing_ends.
Theorem C78_captures_in_range : forall buf toks b e, Parse buf = Val (Some toks) -> In (TText b e) toks -> (b <= e <= List.length buf)%nat.
Proof. exact captures_in_range. Qed.
Print Assumptions C78_captures_in_range.
Example C78_nonvacuous : exists toks, Parse (B "e a/b" ++ [nl]) = Val (Some toks) /\ In (TText 2 5) toks.
Proof. eexists. split; [vm_compute; reflexivity|]. cbn. auto. Qed.

(* C79 refuted, for every command that takes text, every range, all text of ASCII characters and every list of
   range and write commands: after a line of a dot and blanks the rest of the text, up to the line ".", is
   executed, and so is the "." itself. *)
Theorem C79_text_is_not_executed_refuted : forall lead r gap x ls b lines cmds, blanks lead -> wrange_ok r -> text_letter x -> text_range x r ->
  blanks gap -> (~ closed r -> gap = []) -> multlineCmdStart (lead ++ wrange_text r ++ gap ++ [x]) = true ->
  typed_lines ls -> dotless ls -> Forall ascii_only ls -> blanks b -> b <> [] -> Forall2 command_line lines cmds ->
  exists buf, (forall more, buffers ((lead ++ wrange_text r ++ gap ++ [x]) :: (ls ++ ("."%char :: b) :: lines) ++ B "." :: more) = buf :: buffers more) /\
    parsed buf (the_command (text_typ x) (wrange_start r) (text_end x r) (join [nl] ls) [] :: cmds ++ [the_command ctnull aCur zero_address [] []]).
Proof. exact text_then_commands. Qed.
Print Assumptions C79_text_is_not_executed_refuted.
(* C79, what is true: if no line after the first begins with a dot, exactly one command is sent and it is the
   one that takes the text. *)
Theorem C79_text_is_not_executed_partial : forall lead r gap x ls trail, blanks lead -> wrange_ok r -> text_letter x -> text_range x r ->
  blanks gap -> (~ closed r -> gap = []) -> typed_lines ls -> dotless ls -> blanks trail ->
  exists c, parsed (lead ++ wrange_text r ++ gap ++ [x; nl] ++ join [nl] ls ++ [nl; "."%char] ++ trail ++ [nl]) [c] /\
    c_typ c = text_typ x.
Proof. intros. eexists. split; [now apply text_lines_command|reflexivity]. Qed.
Print Assumptions C79_text_is_not_executed_partial.
Example C79_nonvacuous : typed_lines [B "1,$d"; B "w"; B ""] /\ dotless [B "1,$d"; B "w"; B ""] /\
  (* "1,$d", typed as text after a line ". ", deletes every line *)
  Forall2 command_line [B "1,$d"] [the_command ctdelete (num_addr 1) aLast [] []] /\
  multlineCmdStart (B "1a") = true /\
  buffers [B "1a"; B "x"; B ". "; B "1,$d"; B "."] = [B "1a" ++ [nl] ++ B "x" ++ [nl] ++ B ". " ++ [nl] ++ B "1,$d" ++ [nl] ++ B "." ++ [nl]].
Proof.
  split; [split; [discriminate|]|split; [|split; [|split; vm_compute; reflexivity]]].
  - intros l [<-|[<-|[<-|[]]]]; (split; [|discriminate]); vm_compute; intros Q; repeat (destruct Q as [Q|Q]; [discriminate Q|]); exact Q.
  - intros l r [<-|[<-|[]]]; discriminate.
  - constructor; [|constructor].
    apply (range_line [] (Both (plain (Num (B "1"))) [] "," [] (plain Dollar)) [] "d" ctdelete []); auto; [|now left].
    cbn. repeat split; auto; try (now left); try discriminate; repeat constructor; vm_compute; discriminate.
Qed.

(* C80 refuted, for every range: a, i or c ended by a dot at once is a syntax error. *)
Theorem C80_no_text_refuted : forall lead r gap x, blanks lead -> wrange_ok r -> text_letter x -> blanks gap -> (r = NoAddress -> gap = []) ->
  rejected (lead ++ wrange_text r ++ gap ++ [x; nl] ++ B "." ++ [nl]).
Proof.
  intros lead r gap x Hl Hr Hx Hg N. apply open_text_rejected; auto.
  intros a b. change (runes_of (B "." ++ [nl])) with [46; 10]%N. destruct a as [|y [|z [|u a]]]; discriminate.
Qed.
Print Assumptions C80_no_text_refuted.
(* C80 refuted: nor is text accepted that is ended by the end of the input instead of a dot. *)
Theorem C80_end_of_input_refuted : forall lead r gap x ls, blanks lead -> wrange_ok r -> text_letter x -> blanks gap -> (r = NoAddress -> gap = []) ->
  typed_lines ls -> dotless ls -> rejected (lead ++ wrange_text r ++ gap ++ [x; nl] ++ join [nl] ls).
Proof.
  intros lead r gap x ls Hl Hr Hx Hg N [Ne NL] D. apply open_text_rejected; auto. apply no_term_lines; auto. intros l I. now apply NL.
Qed.
Print Assumptions C80_end_of_input_refuted.
Example C80_nonvacuous : buffers [B "2,3c"; B "."; B "p"] = [B "2,3c" ++ [nl] ++ B "." ++ [nl]; B "p" ++ [nl]] /\
  rejected (B "2,3c" ++ [nl] ++ B "." ++ [nl]).
Proof. split; vm_compute; reflexivity. Qed.

(* C81 refuted, for every line m up to the current one: "m;.p" prints the lines from m to the current line
   before the command, not just line m. *)
Theorem C81_semicolon_refuted : forall m, 1 <= m ->
  exists c, parsed (itoa m ++ B ";.p" ++ [nl]) [c] /\
    forall compile capacity errtext, (forall n, (n <= capacity n)%nat) -> forall fs o ed ls, buffer ed ls -> good ls ->
      m <= e_current ed <= lines_count ls ->
      processCommand compile capacity errtext fs o ed c = Val ([], ed, join [nl] (between ls m (e_current ed))).
Proof.
  intros m M. exists (the_command ctprint (num_addr m) aCur [] []). split.
  - pose proof (range_command' [] (Both (plain (Num (itoa m))) [] ";" [] (plain Dot)) [] "p" ctprint []) as P.
    cbn [wrange_text wrange_start wrange_end wrange_ok app] in P. rewrite read_num, num_text, <- app_assoc in P.
    apply P; auto. split; [apply num_ok; lia|]. split; auto. split; [now right|]. split; auto. split; [exact I|now left].
  - intros compile capacity errtext C fs o ed ls H G R.
    pose proof (lines_range ed ls H G) as Q.
    apply (printing_ok compile capacity errtext C fs o ed ls (num_addr m) aCur); auto; try lia.
    + apply denotes_num. unfold min_int64. lia.
    + replace (e_current ed) with (e_current ed + 0) by lia. apply den_cur.
Qed.
Print Assumptions C81_semicolon_refuted.
(* C81 refuted: a semicolon is read exactly as a comma. *)
Theorem C81_semicolon_is_comma_refuted : forall a b x t, waddr_ok a -> waddr_ok b -> range_letter x t ->
  exists c, parsed (waddr_text a ++ B ";" ++ waddr_text b ++ [x; nl]) [c] /\ parsed (waddr_text a ++ B "," ++ waddr_text b ++ [x; nl]) [c].
Proof.
  intros a b x t Ha Hb X. exists (the_command t (read_as a) (read_as b) [] []).
  assert (P : forall s, separator s -> parsed (waddr_text a ++ [s] ++ waddr_text b ++ [x; nl]) [the_command t (read_as a) (read_as b) [] []]).
  { intros s Ss. pose proof (range_command' [] (Both a [] s [] b) [] x t []) as P. cbn [wrange_text wrange_start wrange_end wrange_ok app] in P.
    rewrite <- app_assoc in P. cbn [app] in *. apply P; auto. }
  split; apply P; [now right|now left].
Qed.
Print Assumptions C81_semicolon_is_comma_refuted.

(* C82 refuted, for every number and blanks before "=": the reply is 0. *)
Theorem C82_blank_before_equals_refuted : forall n gap, 0 <= n <= max_int64 -> blanks gap -> gap <> [] ->
  exists c, parsed (itoa n ++ gap ++ B "=" ++ [nl]) [c] /\
    forall compile capacity errtext fs o ed, processCommand compile capacity errtext fs o ed c = Val ([], ed, B "0").
Proof.
  intros n gap N G Ne. pose proof (line_number_command [] (plain (Num (itoa n))) gap [] (Forall_nil _) (num_ok n (proj1 N)) G (Forall_nil _)) as P.
  rewrite num_text in P. eexists. split; [exact P|]. intros. unfold processCommand, setDefaultAddresses.
  cbn [the_command c_start c_typ is_null retext read_as plain w_base base_typ a_typ a_offset]. unfold addrLine, retext, read_as, plain.
  cbn [a_typ a_text a_offset w_base base_typ].
  destruct (blank_no_digit gap G Ne) as (s&ks&->&D). rewrite atoi_broken by auto. reflexivity.
Qed.
Print Assumptions C82_blank_before_equals_refuted.
(* C82, what is true: without blanks "n=" replies n. *)
Theorem C82_line_number_partial : forall n, 0 <= n <= max_int64 ->
  exists c, parsed (itoa n ++ B "=" ++ [nl]) [c] /\
    forall compile capacity errtext fs o ed, processCommand compile capacity errtext fs o ed c = Val ([], ed, itoa n).
Proof.
  intros n N. pose proof (line_number_command [] (plain (Num (itoa n))) [] [] (Forall_nil _) (num_ok n (proj1 N)) (Forall_nil _) (Forall_nil _)) as P.
  rewrite num_text, List.app_nil_r in P. eexists. split; [exact P|]. intros. unfold processCommand, setDefaultAddresses.
  cbn [the_command c_start c_typ is_null retext read_as plain w_base base_typ a_typ a_offset].
  change (retext (read_as (plain (Num (itoa n)))) (itoa n)) with (num_addr n) || change {| a_typ := lNum; a_text := itoa n; a_offset := 0 |} with (num_addr n). rewrite addr_num_line by (unfold min_int64 in *; lia). reflexivity.
Qed.
Print Assumptions C82_line_number_partial.
Example C82_nonvacuous : blanks (B " ") /\ B "12 =" ++ [nl] = itoa 12 ++ B " " ++ B "=" ++ [nl].
Proof. split; [repeat constructor|reflexivity]. Qed.

(* C58 refuted, from what is typed: "m,nw FILE" is sent as a command whose file name is never looked at and
   that writes the whole buffer to the edited file. *)
Theorem C58_typed_w_refuted : forall lead r gap b1 f, blanks lead -> wrange_ok r -> blanks gap -> (~ closed r -> gap = []) ->
  blanks b1 -> b1 <> [] -> file_name f ->
  exists c, parsed (lead ++ wrange_text r ++ gap ++ B "w" ++ b1 ++ f ++ [nl]) [c] /\
    forall compile capacity errtext fs o ed, processCommand compile capacity errtext fs o ed c =
      processCommand compile capacity errtext fs o ed (cmd_at ctwrite zero_address zero_address [] []).
Proof.
  intros. eexists. split; [now apply write_file_command|]. intros. apply (C58_w_ignores_its_arguments_refuted compile capacity errtext fs o ed).
Qed.
Print Assumptions C58_typed_w_refuted.
Example C58_typed_nonvacuous : file_name (B "a b") /\ parsed (B "2,3w a b" ++ [nl]) [the_command ctwrite (num_addr 2) (num_addr 3) (B "a b") []].
Proof.
  split; [split; [vm_compute; intros Q; repeat (destruct Q as [Q|Q]; [discriminate Q|]); exact Q|]|].
  - exists "a"%char, (B " b"). repeat split; discriminate.
  - eexists; split; vm_compute; reflexivity.
Qed.

(* C85 refuted: Q does not quit; the command loop replies and goes on with the next command. *)
Theorem C85_Q_quits_refuted : forall lead trail, blanks lead -> blanks trail ->
  exists c, parsed (lead ++ B "Q" ++ trail ++ [nl]) [c] /\
    forall compile capacity errtext fs o k ed r, command_loop compile capacity errtext fs o k ed (c :: r) =
      (let '(w, e) := command_loop compile capacity errtext fs o (S k) ed r in ((B "? (NYI)" ++ [nl]) :: w, e)).
Proof.
  intros lead trail Hl Ht. eexists. split; [apply (bare_command lead "Q" ctquitForce trail); auto; cbn; auto 10|]. reflexivity.
Qed.
Print Assumptions C85_Q_quits_refuted.
(* C85, what is true: q quits. *)
Theorem C85_quit_partial : forall lead trail, blanks lead -> blanks trail ->
  exists c, parsed (lead ++ B "q" ++ trail ++ [nl]) [c] /\
    forall compile capacity errtext fs o k ed r, command_loop compile capacity errtext fs o k ed (c :: r) = ([], Val (fs, ed)).
Proof.
  intros lead trail Hl Ht. eexists. split; [apply (bare_command lead "q" ctquit trail); auto; cbn; auto 10|]. reflexivity.
Qed.
Print Assumptions C85_quit_partial.

(* C87 refuted, for every mark (with or without an offset) and every buffer: a mark as an address ends the
   program, whether or not the mark was set (k only replies that it is not implemented). *)
Definition first_base (r : wrange) : option base :=
  match r with OneAddress a | Both a _ _ _ _ | LeftOnly a _ _ => Some (w_base a) | _ => None end.
Lemma panics_at : forall r m lead gap x t trail, blanks lead -> wrange_ok r -> blanks gap -> range_letter x t -> blanks trail ->
  t <> ctlist -> t <> ctjoin -> first_base r = Some m -> base_typ m = lMark \/ base_typ m = lRegexReverse ->
  exists cmd, parsed (lead ++ wrange_text r ++ gap ++ [x] ++ trail ++ [nl]) [cmd] /\
    forall compile capacity errtext fs o ed, processCommand compile capacity errtext fs o ed cmd = Crashes.
Proof.
  intros r m lead gap x t trail Hl Hr Hg X Ht N1 N2 F M. eexists. split; [apply range_command; eassumption|]. intros.
  assert (A : forall a, first_base r = Some (w_base a) -> wrange_start r = read_as a -> addrLine compile ed (wrange_start r) = Crashes /\ is_null (wrange_start r) = false).
  { intros a Fa ->. rewrite F in Fa. injection Fa as ->. unfold addrLine, is_null, read_as. cbn [a_typ].
    destruct M as [M|M]; rewrite M; split; reflexivity. }
  assert (E : addrLine compile ed (wrange_start r) = Crashes /\ is_null (wrange_start r) = false).
  { destruct r; try discriminate F; eapply A; reflexivity. }
  destruct E as [E1 E2]. unfold processCommand, setDefaultAddresses. cbn [the_command c_start]. rewrite E2.
  cbn [the_command c_typ c_start c_end]. cbn [range_letter In] in X.
  repeat (destruct X as [X|X]; [injection X as <- <-; try congruence; cbv iota; rewrite E1; reflexivity|]). destruct X.
Qed.
Theorem C87_mark_refuted : forall r c lead gap x t trail, blanks lead -> wrange_ok r -> blanks gap -> range_letter x t -> blanks trail ->
  t <> ctlist -> t <> ctjoin -> first_base r = Some (Mark c) ->
  exists cmd, parsed (lead ++ wrange_text r ++ gap ++ [x] ++ trail ++ [nl]) [cmd] /\
    forall compile capacity errtext fs o ed, processCommand compile capacity errtext fs o ed cmd = Crashes.
Proof. intros. eapply panics_at; eauto. Qed.
Print Assumptions C87_mark_refuted.
(* C87 refuted: so does every backward search. *)
Theorem C87_backward_search_refuted : forall r re lead gap x t trail, blanks lead -> wrange_ok r -> blanks gap -> range_letter x t ->
  blanks trail -> t <> ctlist -> t <> ctjoin -> first_base r = Some (Back re) ->
  exists cmd, parsed (lead ++ wrange_text r ++ gap ++ [x] ++ trail ++ [nl]) [cmd] /\
    forall compile capacity errtext fs o ed, processCommand compile capacity errtext fs o ed cmd = Crashes.
Proof. intros. eapply panics_at; eauto. Qed.
Print Assumptions C87_backward_search_refuted.
Example C87_nonvacuous : wrange_ok (OneAddress (plain (Mark "a"))) /\
  wrange_ok (Both (plain (Back (B "a\?/"))) [] "," [] (plain Dollar)) /\
  parsed (B "?a\?/?,$p" ++ [nl]) [the_command ctprint {| a_typ := lRegexReverse; a_text := B "?a\?/?"; a_offset := 0 |} aLast [] []].
Proof.
  split; [split; [vm_compute; split; discriminate|now left]|]. split; [|eexists; split; vm_compute; reflexivity].
  cbn [wrange_ok]. split; [split; [|now left]|split; [constructor|split; [now left|split; [constructor|split; [exact I|now left]]]]].
  split; [discriminate|]. split; [repeat constructor|].
  apply expr_char; try discriminate. apply expr_escaped. apply expr_char; try discriminate. constructor.
Qed.
