(* C132 and C133: what ed writes about a command it cannot read.  [quote] is strconv.Quote. *)
From Verif Require Import GoBase GoFacts NumFacts Utf8Facts RuneFacts EdModel EdPegModel EdPegSpec EdPegProofs EdPegProofs2 EdPegProofs4
  EdErrModel EdErrSpec EdErrProofs EdErrProofs2 EdErrProofs3 EdErrProofs4.
Local Open Scope nat_scope.

(* C132, the part that holds: a report is written for the commands that are rejected, and only for them; it
   begins with a question mark and a newline; making it does not fail; it is what the input loop writes. *)
Theorem C132_report_partial : forall quote buf,
  (rejected buf -> exists more, error_report quote buf = Val (Some (B "?" ++ [nl] ++ more)) /\
                                handle (perr_text quote) buf = Val [RError (B "?" ++ [nl] ++ more)]) /\
  (~ rejected buf -> error_report quote buf = Val None).
Proof.
  intros quote buf. split.
  - intros H. apply rejected_token in H as (m&H). apply (report_of quote) in H as E.
    unfold the_report in E. destruct (place (runes_of buf) (t_begin m)) as [l1 c1]. destruct (place (runes_of buf) (t_end m)) as [l2 c2].
    eexists. split; [exact E|]. now apply handled.
  - intros H. pose proof (parse_agrees buf) as A. unfold error_report. destruct (Parse buf) as [[toks|]| |] eqn:P.
    + now rewrite A.
    + now destruct H.
    + contradiction.
    + exfalso. unfold Parse, Parse_with in P. destruct (pmatch r_first 0 (runes_of buf)) eqn:Q; try discriminate. now apply sound_no_hang in Q.
Qed.
Print Assumptions C132_report_partial.
(* C132 refuted, for every command that is rejected: there is always more than the question mark. *)
Theorem C132_question_mark_refuted : forall quote buf r, error_report quote buf = Val (Some r) ->
  r <> B "?" ++ [nl] /\ exists more, r = B "?" ++ [nl] ++ B "parse error near " ++ more.
Proof.
  intros quote buf r H. destruct (parse_token buf) as [[m|]| |] eqn:P; try (unfold error_report in H; rewrite P in H; discriminate).
  rewrite (report_of quote buf m P) in H. injection H as <-. unfold the_report.
  destruct (place (runes_of buf) (t_begin m)) as [l1 c1]. destruct (place (runes_of buf) (t_end m)) as [l2 c2].
  split; [discriminate|]. eexists. reflexivity.
Qed.
Print Assumptions C132_question_mark_refuted.
Example C132_nonvacuous : rejected (B "1,2x" ++ [nl]) /\ ~ rejected (B "1,2p" ++ [nl]).
Proof. split; [vm_compute; reflexivity|]. unfold rejected. vm_compute. discriminate. Qed.

(* C133, the part that holds: the report quotes a piece of the command that is not empty and that the named rule
   matches there, or it names no rule and quotes nothing; the lines and the columns are those of the piece's first
   character and of the character after the piece, except at a newline. *)
Theorem C133_place_partial : forall quote buf, rejected buf -> exists name b e l1 c1 l2 c2, let rs := runes_of buf in
  error_report quote buf = Val (Some (report name l1 c1 l2 c2 (quote (string_of_runes (firstn (e - b) (skipn b rs)))))) /\
  (b < e <= List.length rs /\ (exists a, In (name, a) rule_names /\ matches a rs b e) \/ name = B "Unknown" /\ b = 0 /\ e = 0) /\
  placed rs b l1 c1 /\ placed rs e l2 c2.
Proof.
  intros quote buf H. apply rejected_token in H as (m&H). apply (report_of quote) in H as E. apply parse_token_ok in H as O.
  apply parse_told in H as T.
  unfold the_report in E. pose proof (place_placed (runes_of buf) (t_begin m)) as P1. pose proof (place_placed (runes_of buf) (t_end m)) as P2.
  destruct (place (runes_of buf) (t_begin m)) as [l1 c1]. destruct (place (runes_of buf) (t_end m)) as [l2 c2]. cbn [fst snd] in *.
  exists (t_rule m), (t_begin m), (t_end m), l1, c1, l2, c2. split; [exact E|]. split; [|auto].
  destruct T as [->|T]; [right; auto|]. destruct O as [->|O]; [right; auto|left; split; [exact O|exact T]].
Qed.
Print Assumptions C133_place_partial.

Lemma runes_lead : forall lead s, blanks lead -> runes_of (lead ++ s) = R lead ++ runes_of s.
Proof. intros. apply runes_R. now apply ascii_blanks. Qed.
Lemma encode_R : forall s, ascii_only s -> string_of_runes (R s) = s.
Proof.
  induction s as [|c s IH]; intros A; [reflexivity|]. inversion A; subst. unfold string_of_runes in *. cbn [R map flat_map].
  fold (R s). rewrite IH by assumption. revert H1. clear. destruct c as [[] [] [] [] [] [] [] []]; intros H; vm_compute in H; (discriminate H || reflexivity).
Qed.
(* places in a text whose beginning has no newline *)
Lemma place_line : forall u v i, ~ In 10%N u -> i < List.length u -> place (u ++ v) i = (1, S i).
Proof.
  intros u v i U L. unfold place. rewrite nth_error_app1 by lia.
  assert (N : forall l, incl l u -> filter is_nl l = [] /\ last_line l = l).
  { induction l as [|x l IH]; intros I; [split; reflexivity|]. destruct IH as [F G]; [intros y Y; apply I; now right|].
    assert (X : is_nl x = false). { unfold is_nl. apply N.eqb_neq. intros ->. apply U, I. now left. }
    cbn [filter last_line existsb]. rewrite X. split; [exact F|]. cbn [orb].
    assert (Q : existsb is_nl l = false). { rewrite <- not_true_iff_false, existsb_exists. intros (y&Y1&Y2). assert (K : In y (filter is_nl l)) by now apply filter_In. now rewrite F in K. }
    now rewrite Q. }
  destruct (nth_error u i) as [c|] eqn:E.
  - assert (X : is_nl c = false). { apply nth_error_In in E. unfold is_nl. apply N.eqb_neq. now intros ->. }
    rewrite X. unfold line_of, column_of. rewrite firstn_app. replace (i - List.length u) with 0 by lia. cbn [firstn]. rewrite app_nil_r.
    destruct (N (firstn i u)) as [F G]; [intros y Y; rewrite <- (firstn_skipn i u); apply in_or_app; now left|].
    rewrite F, G. rewrite firstn_length_le by lia. reflexivity.
  - apply nth_error_None in E. lia.
Qed.
Lemma place_nl : forall u v, ~ In 10%N u -> place (u ++ 10%N :: v) (List.length u) = (2, 0).
Proof.
  intros u v U. unfold place. rewrite nth_error_app2, Nat.sub_diag by lia. cbn [nth_error]. change (is_nl 10) with true. cbv iota.
  unfold line_of. rewrite firstn_app, Nat.sub_diag, firstn_all. cbn [firstn]. rewrite app_nil_r.
  assert (F : filter is_nl u = []).
  { destruct (filter is_nl u) as [|y l] eqn:E; [reflexivity|]. exfalso. apply U.
    assert (K : In y (filter is_nl u)) by (rewrite E; now left). apply filter_In in K as [K1 K2]. apply N.eqb_eq in K2. now subst y. }
  now rewrite F.
Qed.
Lemma R_no_nl : forall s, ~ In nl s -> ~ In 10%N (R s).
Proof.
  intros s H I. apply in_map_iff in I as (c&Q&I). change 10%N with (byte_val nl) in Q. apply N.eqb_eq in Q. rewrite byte_eqb in Q.
  apply Ascii.eqb_eq in Q. now subst c.
Qed.
(* C133, the part that holds: on a line that begins with a character no command begins with, the blanks before it
   are quoted, and the character's column is given. *)
Theorem C133_unknown_partial : forall quote lead s c t, blanks lead -> runes_of s = c :: t -> ~ beginning c ->
  error_report quote (lead ++ s) =
  Val (Some (report (match lead with [] => B "Unknown" | _ => B "sp" end) 1 1 1 (S (List.length lead)) (quote lead))).
Proof.
  intros quote lead s c t Hl Hs Nc.
  assert (E : runes_of (lead ++ s) = R lead ++ c :: t) by (rewrite runes_lead, Hs by assumption; reflexivity).
  pose proof (unknown_token (lead ++ s) (R lead) c t E (blanks_N _ Hl) Nc) as T. rewrite (report_of quote _ _ T). f_equal. f_equal.
  rewrite E, R_length.
  assert (U : ~ In 10%N (R lead ++ [c])).
  { intros I. apply in_app_or in I as [I|[I|[]]]; [revert I; apply R_no_nl, blanks_no_nl, Hl|]. subst c. apply Nc, mem_beginning_ok. reflexivity. }
  assert (P : forall i, i <= List.length lead -> place (R lead ++ c :: t) i = (1, S i)).
  { intros i L. change (c :: t) with ([c] ++ t). rewrite app_assoc. apply place_line; [exact U|]. rewrite app_length, R_length. cbn. lia. }
  unfold the_report. destruct lead as [|x lead].
  - cbn [add List.length no_token t_rule t_begin t_end Nat.eqb negb andb]. rewrite P by (cbn; lia). reflexivity.
  - rewrite add_yes by (cbn; lia). cbn [t_rule t_begin t_end]. rewrite !P by (cbn [List.length]; lia).
    unfold slice. rewrite Nat.sub_0_r. cbn [skipn]. rewrite firstn_app, R_length, Nat.sub_diag, firstn_all2 by (rewrite R_length; lia).
    cbn [firstn]. rewrite app_nil_r, encode_R by now apply ascii_blanks. reflexivity.
Qed.
Print Assumptions C133_unknown_partial.
(* C133, the part that holds: a letter that takes a range, followed by something that does not belong to the command. *)
Theorem C133_after_letter_partial : forall quote lead x ty s c t, blanks lead -> range_letter x ty -> runes_of s = c :: t ->
  c <> byte_val " " -> c <> byte_val tab -> c <> byte_val nl ->
  error_report quote (lead ++ [x] ++ s) =
  Val (Some (report (B "rangeC") 1 (S (List.length lead)) 1 (S (S (List.length lead))) (quote [x]))).
Proof.
  intros quote lead x ty s c t Hl Hx Hs C1 C2 C3.
  assert (Ax : ascii_only [x] /\ [x] <> [nl]).
  { destruct Hx as [[= <- _]|[[= <- _]|[[= <- _]|[[= <- _]|[[= <- _]|[]]]]]]; (split; [constructor; [reflexivity|constructor]|discriminate]). }
  destruct Ax as [Ax Nx].
  assert (E : runes_of (lead ++ [x] ++ s) = R lead ++ byte_val x :: c :: t).
  { rewrite app_assoc, runes_R, Hs, R_app, <- app_assoc; [reflexivity|]. apply ascii_app; [now apply ascii_blanks|exact Ax]. }
  assert (Bc : blankN c = false).
  { change (byte_val " ") with 32%N in C1. change (byte_val tab) with 9%N in C2. unfold blankN. now rewrite (proj2 (N.eqb_neq _ _) C1), (proj2 (N.eqb_neq _ _) C2). }
  pose proof (range_token _ (R lead) x ty c t E (blanks_N _ Hl) Hx Bc C3) as T. rewrite (report_of quote _ _ T). f_equal. f_equal.
  rewrite E, R_length.
  assert (U : ~ In 10%N (R lead ++ [byte_val x; c])).
  { intros I. apply in_app_or in I as [I|[I|[I|[]]]]; [revert I; apply R_no_nl, blanks_no_nl, Hl| |exact (C3 I)].
    apply Nx. change 10%N with (byte_val nl) in I. apply N.eqb_eq in I. rewrite byte_eqb in I. apply Ascii.eqb_eq in I. now rewrite I. }
  assert (P : forall i, i <= S (List.length lead) -> place (R lead ++ byte_val x :: c :: t) i = (1, S i)).
  { intros i L. change (byte_val x :: c :: t) with ([byte_val x; c] ++ t). rewrite app_assoc. apply place_line; [exact U|].
    rewrite app_length, R_length. cbn. lia. }
  unfold the_report. cbn [t_rule t_begin t_end]. rewrite !P by lia. f_equal. f_equal.
  unfold slice. replace (S (List.length lead) - List.length lead) with 1 by lia.
  rewrite <- (R_length lead) at 1. rewrite skipn_app, skipn_all, Nat.sub_diag. cbn [skipn app firstn]. exact (encode_R [x] Ax).
Qed.
Print Assumptions C133_after_letter_partial.
(* C133 refuted: after r and blanks the end of the line is missing a name; the report puts that end on the second line,
   which the command does not have. *)
Theorem C133_newline_refuted : forall quote bl, blanks bl -> bl <> [] ->
  error_report quote (B "r" ++ bl ++ [nl]) = Val (Some (report (B "sp") 1 2 2 0 (quote bl))) /\
  line_of (runes_of (B "r" ++ bl ++ [nl])) (S (List.length bl)) = 1.
Proof.
  intros quote bl Hl Ne. destruct bl as [|b bs]; [congruence|].
  assert (E : runes_of (B "r" ++ (b :: bs) ++ [nl]) = (byte_val "r" :: R (b :: bs)) ++ [10%N]).
  { change (B "r" ++ (b :: bs) ++ [nl]) with ((B "r" ++ b :: bs) ++ [nl]). rewrite runes_R; [reflexivity|].
    apply (ascii_app (B "r")); [constructor; [reflexivity|constructor]|now apply ascii_blanks]. }
  assert (T : parse_token (B "r" ++ (b :: bs) ++ [nl]) = Val (Some {| t_rule := B "sp"; t_begin := 1; t_end := S (S (List.length (R bs))) |})).
  { apply (read_token _ (byte_val b) (R bs) []); [rewrite E; reflexivity|]. now apply blanks_N in Hl. }
  assert (U : ~ In 10%N (byte_val "r" :: R (b :: bs))) by (intros [I|I]; [discriminate|]; revert I; apply R_no_nl, blanks_no_nl, Hl).
  assert (L : List.length (byte_val "r" :: R (b :: bs)) = S (S (List.length bs))) by (cbn [R map List.length]; now rewrite map_length).
  split.
  - rewrite (report_of quote _ _ T). f_equal. f_equal. rewrite E. unfold the_report. cbn [t_rule t_begin t_end]. rewrite R_length.
    rewrite place_line by (auto; lia). rewrite <- L, place_nl by exact U. rewrite L. f_equal. f_equal.
    unfold slice. cbn [app skipn]. replace (S (S (List.length bs)) - 1) with (List.length (R (b :: bs))) by (rewrite R_length; cbn; lia).
    rewrite firstn_app, firstn_all, Nat.sub_diag. cbn [firstn]. rewrite app_nil_r. apply encode_R. now apply ascii_blanks.
  - rewrite E. cbn [List.length]. rewrite <- L. unfold line_of. rewrite firstn_app, firstn_all, Nat.sub_diag. cbn [firstn]. rewrite app_nil_r.
    destruct (filter is_nl (byte_val "r" :: R (b :: bs))) as [|y l] eqn:F; [reflexivity|]. exfalso. apply U.
    assert (K : In y (filter is_nl (byte_val "r" :: R (b :: bs)))) by (rewrite F; now left). apply filter_In in K as [K1 K2].
    apply N.eqb_eq in K2. now subst y.
Qed.
Print Assumptions C133_newline_refuted.
(* C133 refuted: when k is not followed by the letter of a mark, the report names no rule and quotes nothing, at the
   first column, though k has been read. *)
Theorem C133_nothing_named_refuted : forall quote s c t, runes_of s = c :: t -> ~ (97 <= c <= 122)%N ->
  error_report quote (B "k" ++ s) = Val (Some (report (B "Unknown") 1 1 1 1 (quote []))).
Proof.
  intros quote s c t Hs Nc.
  assert (E : runes_of (B "k" ++ s) = byte_val "k" :: c :: t) by (rewrite runes_R, Hs; [reflexivity|constructor; [reflexivity|constructor]]).
  rewrite (report_of quote _ _ (mark_token _ c t E Nc)). now rewrite E.
Qed.
Print Assumptions C133_nothing_named_refuted.
Lemma place_end : forall rs, place rs (List.length rs) = (line_of rs (List.length rs), column_of rs (List.length rs)).
Proof. intros rs. unfold place. now rewrite (proj2 (nth_error_None rs (List.length rs)) (Nat.le_refl _)). Qed.
(* the lines of a text, each ended by a newline, as runes *)
Lemma text_lines : forall ls, (forall l, In l ls -> ~ In nl l) ->
  List.length (filter is_nl (runes_of (join [nl] (ls ++ [[]])))) = List.length ls.
Proof.
  induction ls as [|l ls IH]; intros NL; [reflexivity|].
  assert (J : join [nl] ((l :: ls) ++ [[]]) = l ++ nl :: join [nl] (ls ++ [[]])) by (destruct ls; reflexivity).
  rewrite J, runes_of_cut by reflexivity. rewrite filter_app, app_length. cbn [filter]. change (is_nl (byte_val nl)) with true. cbv iota.
  cbn [List.length]. rewrite IH by (intros x I; apply NL; now right).
  destruct (filter is_nl (runes_of l)) as [|y k] eqn:F; [reflexivity|]. exfalso. apply (no_nl_runes l (NL l (or_introl eq_refl))).
  assert (K : In y (filter is_nl (runes_of l))) by (rewrite F; now left). apply filter_In in K as [K1 K2]. apply N.eqb_eq in K2. now subst y.
Qed.
Lemma last_line_nl : forall rs, last_line (rs ++ [10%N]) = [].
Proof.
  induction rs as [|r t IH]; [reflexivity|]. cbn [app]. cbn [last_line].
  replace (existsb is_nl (r :: t ++ [10%N])) with true; [exact IH|].
  symmetry. apply existsb_exists. exists 10%N. split; [right; apply in_or_app; right; now left|reflexivity].
Qed.
Lemma join_ends : forall ls, ls <> [] -> exists t, join [nl] (ls ++ [[]]) = t ++ [nl].
Proof.
  induction ls as [|l ls IH]; intros Ne; [congruence|]. destruct ls as [|l2 ls]; [exists l; reflexivity|].
  destruct IH as (t&E); [discriminate|]. exists (l ++ nl :: t).
  change (join [nl] ((l :: l2 :: ls) ++ [[]])) with (l ++ nl :: join [nl] ((l2 :: ls) ++ [[]])). rewrite E, <- app_assoc. reflexivity.
Qed.
(* C133, the part that holds: when the input ends inside the text of a, i or c, the whole text is quoted, from the
   second line on; a text whose first line is empty is said to begin on the third line. *)
Theorem C133_open_text_partial : forall quote lead r gap x ls, blanks lead -> wrange_ok r -> text_letter x -> text_range x r -> blanks gap ->
  (~ closed r -> gap = []) -> typed_lines ls -> dotless ls -> let text := join [nl] (ls ++ [[]]) in
  error_report quote (lead ++ wrange_text r ++ gap ++ [x; nl] ++ text) =
  Val (Some (report (B "PegText") (match hd [] ls with [] => 3 | _ => 2 end) (match hd [] ls with [] => 0 | _ => 1 end)
                    (2 + List.length ls) 1 (quote (string_of_runes (runes_of text))))).
Proof.
  intros quote lead r gap x ls Hl Hr Hx Tx Hg Ng [Ne NL] D text.
  assert (Nn : forall l, In l ls -> ~ In nl l) by (intros l I; now apply NL).
  destruct (join_ends ls Ne) as (t'&Et). change (text = t' ++ [nl]) in Et.
  assert (NT : no_term (runes_of text)).
  { apply no_term_lines; [destruct ls; discriminate| |].
    - intros l I. apply in_app_or in I as [I|[<-|[]]]; [now apply Nn|intros []].
    - intros l q I. destruct ls as [|l0 ls]; [congruence|]. cbn [app tl] in I. apply in_app_or in I as [I|[<-|[]]]; [now apply D|discriminate]. }
  assert (NE : text <> []) by (rewrite Et; now destruct t').
  pose proof (open_token lead r gap x text Hl Hr Hx Tx Hg Ng NT NE) as T. rewrite (report_of quote _ _ T). f_equal. f_equal.
  set (first := lead ++ wrange_text r ++ gap ++ [x]).
  assert (Ax : (byte_val x < 128)%N) by (destruct Hx as [-> |[-> | ->]]; reflexivity).
  assert (E : lead ++ wrange_text r ++ gap ++ [x; nl] ++ text = first ++ nl :: text) by (unfold first; rewrite <- !app_assoc; reflexivity).
  assert (Er : runes_of (first ++ nl :: text) = R first ++ 10%N :: runes_of text).
  { rewrite runes_R; [now rewrite runes_of_ascii_cons by reflexivity|].
    unfold first. repeat apply ascii_app; auto using ascii_blanks, ascii_wrange. apply ascii_B1; auto. constructor. }
  assert (Ln : List.length (lead ++ wrange_text r ++ gap) + 2 = S (List.length (R first))).
  { rewrite R_length. unfold first. rewrite !app_length. cbn [List.length]. lia. }
  assert (Fn : ~ In 10%N (R first)).
  { apply R_no_nl. unfold first. intros I. apply in_app_or in I as [I|I]; [revert I; now apply blanks_no_nl|].
    apply in_app_or in I as [I|I]; [revert I; now apply wrange_no_nl|]. apply in_app_or in I as [I|[I|[]]]; [revert I; now apply blanks_no_nl|].
    destruct Hx as [-> |[-> | ->]]; discriminate. }
  assert (F0 : filter is_nl (R first) = []).
  { destruct (filter is_nl (R first)) as [|y k] eqn:F; [reflexivity|]. exfalso. apply Fn.
    assert (K : In y (filter is_nl (R first))) by (rewrite F; now left). apply filter_In in K as [K1 K2]. apply N.eqb_eq in K2. now subst y. }
  rewrite E, Er, Ln. unfold the_report. cbn [t_rule t_begin t_end].
  assert (P1 : place (R first ++ 10%N :: runes_of text) (S (List.length (R first))) =
               ((match hd [] ls with [] => 3 | _ => 2 end), (match hd [] ls with [] => 0 | _ => 1 end))).
  { unfold place, line_of, column_of.
    assert (Fs : firstn (S (List.length (R first))) (R first ++ 10%N :: runes_of text) = R first ++ [10%N]).
    { rewrite firstn_app. replace (S (List.length (R first)) - List.length (R first)) with 1 by lia. now rewrite firstn_all2 by lia. }
    rewrite Fs, filter_app, F0, last_line_nl. cbn [app filter]. change (is_nl 10) with true. cbv iota. cbn [List.length].
    rewrite nth_error_app2 by lia. replace (S (List.length (R first)) - List.length (R first)) with 1 by lia. cbn [nth_error].
    destruct ls as [|l ls]; [congruence|]. cbn [hd].
    assert (J : text = l ++ nl :: join [nl] (ls ++ [[]])) by (unfold text; destruct ls; reflexivity).
    rewrite J, runes_of_cut by reflexivity. destruct l as [|b l]; [reflexivity|].
    destruct (runes_of (b :: l)) as [|c u] eqn:Rb; [exfalso; destruct (decode_rune (b :: l)) as [y w] eqn:Db; rewrite (runes_of_step (b :: l) _ _ ltac:(discriminate) Db) in Rb; discriminate|]. cbn [app nth_error].
    destruct (is_nl c) eqn:Q; [|reflexivity]. exfalso. apply N.eqb_eq in Q. subst c.
    apply (no_nl_runes (b :: l)); [apply Nn; now left|]. rewrite Rb. now left. }
  rewrite P1, place_end.
  assert (L2 : line_of (R first ++ 10%N :: runes_of text) (List.length (R first ++ 10%N :: runes_of text)) = 2 + List.length ls).
  { unfold line_of. rewrite firstn_all, filter_app, F0. cbn [app filter]. change (is_nl 10) with true. cbv iota. cbn [List.length].
    unfold text. now rewrite text_lines. }
  assert (C2 : column_of (R first ++ 10%N :: runes_of text) (List.length (R first ++ 10%N :: runes_of text)) = 1).
  { unfold column_of. rewrite firstn_all, Et, runes_of_cut, runes_of_nil by reflexivity. change (byte_val nl) with 10%N.
    replace (R first ++ 10%N :: runes_of t' ++ [10%N]) with ((R first ++ 10%N :: runes_of t') ++ [10%N]) by (rewrite <- app_assoc; reflexivity).
    now rewrite last_line_nl. }
  rewrite L2, C2. f_equal. f_equal. f_equal. unfold slice. rewrite skipn_app, skipn_all2 by lia.
  replace (S (List.length (R first)) - List.length (R first)) with 1 by lia. cbn [skipn app]. apply firstn_all2. rewrite app_length. cbn [List.length]. lia.
Qed.
Print Assumptions C133_open_text_partial.
(* the report of 1,2px, of z, and of a text without a dot *)
Example C133_nonvacuous : let q s := """"%char :: s ++ B """" in
  error_report q (B "1,2px" ++ [nl]) = Val (Some (B "?" ++ [nl] ++ B "parse error near rangeC (line 1 symbol 4 - line 1 symbol 5):" ++ [nl] ++ B """p""" ++ [nl; nl])) /\
  error_report q (B "z" ++ [nl]) = Val (Some (B "?" ++ [nl] ++ B "parse error near Unknown (line 1 symbol 1 - line 1 symbol 1):" ++ [nl] ++ B """""" ++ [nl; nl])) /\
  error_report q (B "a" ++ [nl] ++ B "foo" ++ [nl]) =
    Val (Some (B "?" ++ [nl] ++ B "parse error near PegText (line 2 symbol 1 - line 3 symbol 1):" ++ [nl] ++ q (B "foo" ++ [nl]) ++ [nl; nl])) /\
  error_report q (B "r " ++ [nl]) = Val (Some (B "?" ++ [nl] ++ B "parse error near sp (line 1 symbol 2 - line 2 symbol 0):" ++ [nl] ++ B """ """ ++ [nl; nl])) /\
  error_report q (B "1,2p" ++ [nl]) = Val None.
Proof. repeat split; vm_compute; reflexivity. Qed.
