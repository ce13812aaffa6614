(* C46-C49: pkg/locale and cmd/locale.  Statements only; proofs in LocaleProofs.v. *)
From Verif Require Import GoBase GoFacts NumFacts Utf8Facts LocaleModel LocaleSpec LocaleProofs.

(* The report built from any environment is right ... *)
Theorem C46_report : forall env, reports env (locale_string (FromEnv env)).
Proof. exact report_string. Qed.
Print Assumptions C46_report.
(* ... but the command passes it to Printf as the format: a report with a percent sign is never printed. *)
Theorem C46_command_refuted : forall env rep out, reports env rep -> In "%"%char rep ->
  locale_cmd env = Some out -> ~ reports env out.
Proof.
  intros env rep out R I E Q. rewrite (reports_unique env rep _ R (report_string env)) in I.
  rewrite (reports_unique env out _ Q (report_string env)) in E. now apply printf_fixed in E.
Qed.
Print Assumptions C46_command_refuted.
Example C46_refuted_nonvacuous : exists env rep out, reports env rep /\ In "%"%char rep /\ locale_cmd env = Some out /\
  firstn 19 out = B "LANG=" ++ dq ++ B "%!d(MISSING)" ++ dq.
Proof.
  exists (fun v => if beqb v (B "LANG") then B "%d" else []). do 2 eexists. split; [apply report_string|].
  split; [vm_compute; tauto|]. split; [vm_compute; reflexivity|]. vm_compute. reflexivity.
Qed.
(* It is printed when no variable contains a percent sign. *)
Theorem C46_command_partial : forall env, (forall v, In v variables -> ~ In "%"%char (env v)) ->
  exists out, locale_cmd env = Some out /\ reports env out.
Proof.
  intros env H. exists (locale_string (FromEnv env)). split; [|apply report_string].
  unfold locale_cmd. apply printf_plain; auto. now apply no_percent_report.
Qed.
Print Assumptions C46_command_partial.
(* A percent sign in a variable is printed once for every two. *)
Theorem C46_command_percent_partial : forall env,
  exists out, locale_cmd (fun v => doubled (env v)) = Some out /\ reports env out.
Proof.
  intros env. exists (locale_string (FromEnv env)). split; [|apply report_string].
  unfold locale_cmd. rewrite report_doubled. now apply printf_doubled.
Qed.
Print Assumptions C46_command_percent_partial.
(* In general each directive becomes Go's complaint that its operand is missing, and is otherwise lost. *)
Theorem C46_directives_partial : forall env rep out, reports env rep -> printed rep out -> locale_cmd env = Some out.
Proof.
  intros env rep out R P. rewrite (reports_unique env rep _ R (report_string env)) in P.
  unfold locale_cmd. now apply printf_printed.
Qed.
Print Assumptions C46_directives_partial.
Example C46_directives_nonvacuous : exists env rep out, reports env rep /\ printed rep out /\ locale_cmd env = Some out /\
  firstn 32 out = B "LANG=" ++ dq ++ B "10%!f(MISSING)%!" ++ dq ++ B "(MISSING)".
Proof.
  exists (fun v => if beqb v (B "LANG") then B "10%-08.3f%#" else []). do 2 eexists. split; [apply report_string|].
  split; [|split; [vm_compute; reflexivity|vm_compute; reflexivity]].
  vm_compute.
  assert (M1 : modifiers (B "-08.3")).
  { exists (B "-0"), (B "8"), (B ".3"). split; [reflexivity|]. split; [unfold flag; repeat constructor; cbn; tauto|].
    split; [repeat constructor; discriminate|]. right. exists (B "3"). split; [reflexivity|]. repeat constructor; discriminate. }
  assert (M2 : modifiers (B "#")).
  { exists (B "#"), [], []. split; [reflexivity|]. split; [unfold flag; repeat constructor|]. auto. }
  assert (V1 : verb 102).
  { split; [left; reflexivity|]. intros c [C|[C|C]] E; [|unfold is_dec_digit in C; lia|];
      unfold flag in C; cbn [In] in C; repeat (destruct C as [<-|C]; [discriminate|]); destruct C. }
  assert (V2 : verb 34).
  { split; [left; reflexivity|]. intros c [C|[C|C]] E; [|unfold is_dec_digit in C; lia|];
      unfold flag in C; cbn [In] in C; repeat (destruct C as [<-|C]; [discriminate|]); destruct C. }
  repeat (repeat (apply printed_char; [discriminate|]);
          (refine (printed_missing (B "-08.3") 102 _ _ M1 V1 _) || refine (printed_missing (B "#") 34 _ _ M2 V2 _))).
  repeat (apply printed_char; [discriminate|]). constructor.
Qed.
Example C46_nonvacuous : exists env, (forall v, In v variables -> ~ In "%"%char (env v)) /\
  locale_cmd env = Some (B "LANG=" ++ quoted (B "C") ++ [nl] ++ B "LC_COLLATE=" ++ quoted (B "C") ++ [nl] ++
    B "LC_CTYPE=" ++ quoted (B "C") ++ [nl] ++ B "LC_MESSAGES=" ++ quoted (B "C") ++ [nl] ++
    B "LC_MONETARY=" ++ quoted (B "C") ++ [nl] ++ B "LC_NUMERIC=" ++ quoted (B "C") ++ [nl] ++ B "LC_TIME=en_US" ++ [nl] ++
    B "LC_ALL=" ++ [nl]).
Proof.
  exists (fun v => if beqb v (B "LANG") then B "C" else if beqb v (B "LC_TIME") then B "en_US" else []).
  split; [|vm_compute; reflexivity]. intros v _.
  destruct (beqb v _); [|destruct (beqb v _)]; cbn; intuition discriminate.
Qed.

(* NewEra recovers every field; the format may contain colons. *)
Theorem C47_era_fields : forall rev off z start fin nm fmt, int_text off z ->
  no_colon start -> no_colon fin -> no_colon nm ->
  NewEra (era_text (if rev : bool then B "-" else B "+") off start fin nm fmt) =
  Ok {| reverse := rev; offset := z; startDate := start; endDate := fin; name := nm; format := fmt |}.
Proof.
  intros rev off z start fin nm fmt Ho Hs Hf Hn. unfold NewEra. rewrite era_split; auto.
  - pose proof (split_on_nonempty ":" fmt) as Ne. pose proof (join_split ":" fmt) as J.
    destruct (split_on ":" fmt) as [|p5 rest]; [contradiction|]. apply atoi_spec in Ho. cbv zeta. rewrite Ho.
    change (B ":") with [":"%char]. rewrite J. destruct rev; reflexivity.
  - destruct rev; cbn; intros [H|[]]; discriminate.
  - apply (numeral_no_colon off z). apply Ho.
Qed.
Print Assumptions C47_era_fields.
Example C47_nonvacuous :
  NewEra (era_text (B "-") (B "+12") (B "1926/12/25") (B "-*") (B "x y") (B "%EC:%Ey:")) =
  Ok {| reverse := true; offset := 12; startDate := B "1926/12/25"; endDate := B "-*"; name := B "x y"; format := B "%EC:%Ey:" |}.
Proof. vm_compute. reflexivity. Qed.

(* Too few fields and a bad direction are rejected ... *)
Theorem C48_too_few_fields : forall input, count_occ ascii_dec input ":"%char < 5 ->
  NewEra input = Err (B "not enough fields in input: " ++ input).
Proof.
  intros input H. pose proof (split_length ":" input) as L. unfold NewEra.
  destruct (split_on ":" input) as [|a [|b [|c [|d [|e [|f l]]]]]]; try reflexivity. cbn in L. lia.
Qed.
Print Assumptions C48_too_few_fields.
Theorem C48_bad_direction : forall dir off start fin nm fmt, no_colon dir -> dir <> B "+" -> dir <> B "-" ->
  NewEra (era_text dir off start fin nm fmt) = Err (B "direction '" ++ dir ++ B "' must be '+' or '-'").
Proof.
  intros dir off start fin nm fmt H H1 H2. unfold NewEra, era_text. change (B ":") with [":"%char]. cbn [app].
  rewrite split_on_app by auto. apply beqb_neq in H1, H2.
  match goal with |- context[split_on ":" ?b] => pose proof (split_length ":" b) as L end.
  rewrite !count_occ_app, !count_occ_cons_eq, !count_occ_app, !count_occ_cons_eq, !count_occ_app, !count_occ_cons_eq,
    !count_occ_app, !count_occ_cons_eq in L by reflexivity.
  destruct (split_on ":" (off ++ _)) as [|b [|c [|d [|e [|f l]]]]]; try (cbn [length] in L; lia).
  cbv zeta. rewrite H1, H2. reflexivity.
Qed.
Print Assumptions C48_bad_direction.
(* ... but no non-integer offset is: *)
Theorem C48_bad_offset_refuted : forall rev off start fin nm fmt e, no_colon off -> (~ exists z, int_text off z) ->
  no_colon start -> no_colon fin -> no_colon nm ->
  NewEra (era_text (if rev : bool then B "-" else B "+") off start fin nm fmt) <> Err e.
Proof.
  intros rev off start fin nm fmt e Hc Ho Hs Hf Hn. unfold NewEra. rewrite era_split; auto.
  - pose proof (split_on_nonempty ":" fmt) as Ne. destruct (split_on ":" fmt) as [|p5 rest]; [contradiction|].
    cbv zeta. apply atoi_none in Ho. rewrite Ho. destruct rev; discriminate.
  - destruct rev; cbn; intros [H|[]]; discriminate.
Qed.
Print Assumptions C48_bad_offset_refuted.
(* every non-integer offset gives an empty era and no error *)
Theorem C48_bad_offset_partial : forall rev off start fin nm fmt, no_colon off -> (~ exists z, int_text off z) ->
  no_colon start -> no_colon fin -> no_colon nm ->
  NewEra (era_text (if rev : bool then B "-" else B "+") off start fin nm fmt) = Ok {| reverse := false; offset := 0; startDate := []; endDate := []; name := []; format := [] |}.
Proof.
  intros rev off start fin nm fmt Hc Ho Hs Hf Hn. unfold NewEra. rewrite era_split; auto.
  - pose proof (split_on_nonempty ":" fmt) as Ne. destruct (split_on ":" fmt) as [|p5 rest]; [contradiction|].
    cbv zeta. apply atoi_none in Ho. rewrite Ho. destruct rev; reflexivity.
  - destruct rev; cbn; intros [H|[]]; discriminate.
Qed.
Print Assumptions C48_bad_offset_partial.
Example C48_nonvacuous : count_occ ascii_dec (B "+:2:a:b:c") ":"%char < 5 /\
  NewEra (B "+:2:a:b:c") = Err (B "not enough fields in input: +:2:a:b:c") /\
  NewEra (B "++:2:a:b:c:d") = Err (B "direction '++' must be '+' or '-'") /\
  (no_colon (B "x1") /\ ~ exists z, int_text (B "x1") z) /\
  NewEra (B "+:x1:1990/01/01:+*:name:fmt") = Ok {| reverse := false; offset := 0; startDate := []; endDate := []; name := []; format := [] |}.
Proof.
  split; [vm_compute; lia|]. split; [vm_compute; reflexivity|]. split; [vm_compute; reflexivity|].
  split; [|vm_compute; reflexivity]. split; [unfold no_colon; cbn; intuition discriminate|].
  intros (z&H). apply atoi_spec in H. discriminate.
Qed.

(* C49 is false: every comment_char directive is obeyed but stays in the text (and stops the lexer). *)
Theorem C49_preprocess_refuted : forall items a w b, items_ok 35 92 items -> In (CommentDir a w b) items ->
  removeComments (as_text (items_lines 35 92 items)) <>
  Ok (terminated (flat_map item_output items), last_ec 92 items).
Proof.
  intros items a w b H I E. rewrite removeComments_items in E by (auto; destruct items; (contradiction || discriminate)).
  injection E as E. apply (f_equal (@length _)) in E. clear H.
  assert (L : forall x y, length (terminated (x ++ y)) = length (terminated x) + length (terminated y)).
  { intros x y. unfold terminated. rewrite flat_map_app. apply List.app_length. }
  assert (G : forall i, length (terminated (item_output i)) <= length (terminated (item_actual i))).
  { intros [t|x y z|x y z|f m]; auto. apply Nat.le_0_l. }
  assert (F : forall l, length (terminated (flat_map item_output l)) <= length (terminated (flat_map item_actual l))).
  { induction l as [|i l IH]; [apply Nat.le_refl|]. cbn [flat_map]. rewrite !L. specialize (G i). lia. }
  apply in_split in I as (l1&l2&->). rewrite !flat_map_app in E. cbn [flat_map] in E. rewrite !L in E.
  pose proof (F l1). pose proof (F l2).
  assert (P : length (terminated (item_output (CommentDir a w b))) < length (terminated (item_actual (CommentDir a w b)))).
  { cbn [item_output item_actual terminated flat_map length]. rewrite !List.app_length. cbn [length]. lia. }
  lia.
Qed.
Print Assumptions C49_preprocess_refuted.
Example C49_refuted_nonvacuous : items_ok 35 92 [CommentDir [32%N] [37%N] []] /\
  removeComments (as_text (items_lines 35 92 [CommentDir [32%N] [37%N] []])) = Ok (B "comment_char %" ++ [nl], 92%N).
Proof.
  split; [|vm_compute; reflexivity]. split; [|exact I]. split.
  - cbn [item_lines]. constructor; [|constructor]. apply Forall_forall. intros r H. cbn in H.
    repeat destruct H as [<-|H]; try contradiction; (split; [left; vm_compute; reflexivity|split; vm_compute; discriminate]).
  - repeat split; try discriminate.
    + repeat constructor.
    + constructor.
    + repeat constructor. vm_compute. discriminate.
    + intros (l&E). destruct l as [|? [|? ?]]; discriminate.
Qed.
(* Otherwise a definition made of comment lines, escape_char directives and (continued) lines becomes exactly
   its logical lines; missing: comment_char directives are left in the text, see item_actual. *)
Theorem C49_preprocess_partial : forall items, items <> [] -> items_ok 35 92 items ->
  removeComments (as_text (items_lines 35 92 items)) =
  Ok (terminated (flat_map item_actual items), last_ec 92 items).
Proof. exact removeComments_items. Qed.
Print Assumptions C49_preprocess_partial.
Theorem C49_preprocess_no_comment_char : forall items, items <> [] -> items_ok 35 92 items ->
  (forall a w b, ~ In (CommentDir a w b) items) ->
  removeComments (as_text (items_lines 35 92 items)) =
  Ok (terminated (flat_map item_output items), last_ec 92 items).
Proof.
  intros items Ne H N. rewrite removeComments_items by auto. do 3 f_equal.
  clear -N. induction items as [|i items IH]; auto. cbn [flat_map]. f_equal.
  - destruct i; auto. exfalso. eapply N. left. reflexivity.
  - apply IH. intros a w b Q. apply (N a w b). right. exact Q.
Qed.
Print Assumptions C49_preprocess_no_comment_char.
(* An escape character at the end of the last line makes it panic. *)
Theorem C49_dangling_escape : forall items line, items_ok 35 92 items ->
  let cc := last_cc 35 items in let ec := last_ec 92 items in
  Forall text_rune (line ++ [ec]) -> hd rune_error (line ++ [ec]) <> cc ->
  ~ directive_line w_escape (line ++ [ec]) ->
  removeComments (as_text (items_lines 35 92 items ++ [line ++ [ec]])) = Panic.
Proof. exact removeComments_dangling. Qed.
Print Assumptions C49_dangling_escape.
(* Only the first letters of the word are looked at: a last line of two words, the first of which begins with escape_char and
   goes on, is no directive, and yet it is removed and sets the escape character. *)
Theorem C49_other_word_refuted : forall items rest a u b, items_ok 35 92 items -> last_cc 35 items <> 101%N ->
  let line := w_escape ++ rest ++ a ++ u ++ b in
  Forall text_rune line -> rest <> [] -> Forall (fun r => ~ space r) rest -> directive_ok a u b ->
  removeComments (as_text (items_lines 35 92 items ++ [line])) = Ok (terminated (flat_map item_actual items), hd 0%N u) /\
  forall e, removeComments (as_text (items_lines 35 92 items ++ [line])) <> Ok (terminated (flat_map item_actual items ++ [line]), e).
Proof.
  intros items rest a u b H Nc line F Ne Fr D. pose proof (removeComments_glued items rest a u b H Nc F Fr D) as E.
  split; [exact E|]. intros e Q. unfold line in Q. rewrite E in Q. injection Q as Q _. apply (f_equal (@length _)) in Q.
  unfold terminated in Q. rewrite flat_map_app, List.app_length in Q. cbn [flat_map] in Q. rewrite !List.app_length in Q. cbn [length] in Q. lia.
Qed.
Print Assumptions C49_other_word_refuted.
Example C49_other_word_nonvacuous :
  removeComments (B "escape_characters /" ++ [nl]) = Ok ([nl], 47%N) /\ (* and what does not have two words is left alone *)
  removeComments (B "escape_char" ++ [nl] ++ B "escape_char / x") = Ok (B "escape_char" ++ [nl] ++ B "escape_char / x" ++ [nl], 92%N).
Proof. split; vm_compute; reflexivity. Qed.
(* Preprocessing always ends. *)
Theorem C49_terminates : forall input x, removeComments input <> Err x.
Proof. intros. unfold removeComments. apply remove_lines_no_err. apply Nat.le_refl. Qed.
Print Assumptions C49_terminates.
Definition R (s : string) : list N := map N_of_ascii (B s).
Definition demo_items : list item :=
  [Comment (R " x\"); EscapeDir [32%N] [233%N] []; Line (R "LC_TIME\") [];
   Line (R "day ") [([32; 9]%N, R "a;", [32%N]); (R "  ", R "b c", R " ")]; CommentDir [32%N] (R "%") []; Comment (R "#"); Line [] []].
Example C49_nonvacuous : items_ok 35 92 demo_items /\
  removeComments (as_text (items_lines 35 92 demo_items)) =
  Ok (B "LC_TIME\" ++ [nl] ++ B "day a;b c" ++ [nl] ++ B "comment_char %" ++ [nl] ++ [nl], 233%N).
Proof.
  assert (TR : forall r, (32 <=? r)%N && (r <? 300)%N = true -> text_rune r).
  { intros r H. unfold text_rune, valid_rune, rune_error. lia. }
  assert (TL : forall l, forallb (fun r => ((32 <=? r) && (r <? 300) || (r =? 9))%N) l = true -> Forall text_rune l).
  { intros l H. apply Forall_forall. intros r I. rewrite forallb_forall in H. apply H in I.
    unfold text_rune, valid_rune, rune_error. lia. }
  assert (NE : forall e l, (last l 0%N =? e)%N = false -> l <> [] -> ~ ends_with e l).
  { intros e l H Ne (l'&->). rewrite last_last in H. rewrite N.eqb_refl in H. discriminate. }
  assert (SP : forall l, forallb is_space_rune l = true -> Forall space l).
  { intros l H. apply Forall_forall. now apply forallb_forall. }
  assert (NS : forall l, forallb (fun r => negb (is_space_rune r)) l = true -> Forall (fun r => ~ space r) l).
  { intros l H. apply Forall_forall. intros r I. rewrite forallb_forall in H. apply H in I. unfold space. now destruct (is_space_rune r). }
  assert (LL : forall ls, forallb (forallb (fun r => ((32 <=? r) && (r <? 300) || (r =? 9))%N)) ls = true -> Forall (Forall text_rune) ls).
  { intros ls H. apply Forall_forall. intros l I. apply TL. rewrite forallb_forall in H. now apply H. }
  split; [|vm_compute; reflexivity].
  repeat (apply conj); try (apply LL; vm_compute; reflexivity); try exact I;
    try (vm_compute; discriminate); try (apply SP; vm_compute; reflexivity); try (apply NS; vm_compute; reflexivity);
    try (intros (l'&Q); discriminate Q); try (intros Q; apply directive_begins in Q; destruct Q as (l'&Q); discriminate Q);
    try (apply NE; [vm_compute; reflexivity|discriminate]);
    try (cbn; repeat constructor; fail).
  - constructor; [|constructor]. vm_compute. split; discriminate.
  - intros (l'&Q). destruct l'; discriminate.
Qed.
