(* Property theorem C137, and C33 for command lines (cmd/cut/main.go with Go's package flag).
   [written words given operands] (CutSpec.v): according to POSIX the words say these options and operands. *)
From Verif Require Import GoBase CutModel CutFlagModel CutSpec CutProofs.

(* C137 holds when every option is a word of its own and every argument the word after it. *)
Theorem C137_apart_partial : forall quote words given ops, written_apart words given ops ->
  written words given ops /\ exists o, parse_flags quote words defaults = Parsed o ops /\ says given o.
Proof.
  intros quote words given ops H. split.
  - induction H as [|a rest Ha|rest|f rest given ops Hf H IH|c v rest given ops Hc H IH].
    + constructor.
    + now constructor.
    + constructor.
    + apply (flags [f] rest given ops); auto. discriminate.
    + apply (separate [] c v rest given ops); auto.
  - eexists. split; [apply apart_parsed, H|]. apply (sets_says quote). exact (apart_sound _ _ _ H).
Qed.
Print Assumptions C137_apart_partial.
(* It is false when an argument is in the same word, -f1: whatever stands before and after, cut does not know the flag f1. *)
Theorem C137_attached_refuted : forall quote usage help ws before c x v rest given ops, apart_before ws before -> In c with_argument ->
  x <> "="%char -> written rest given ops ->
  written (ws ++ ("-"%char :: c :: x :: v) :: rest) (before ++ (c, Some (x :: v)) :: given) ops /\
  exists m, cut_program quote usage help (ws ++ ("-"%char :: c :: x :: v) :: rest) =
    {| out := []; errout := B "flag provided but not defined: -" ++ c :: x :: m; fin := Exit 2 |}.
Proof.
  intros quote usage help ws before c x v rest given ops Hb Hc Nx Hr. split.
  - induction Hb as [|f ws before Hf H IH|k u ws before Hk H IH]; cbn [app].
    + apply (attached [] c (x :: v) rest given ops); auto. discriminate.
    + apply (flags [f] _ _ ops); auto. discriminate.
    + apply (separate [] k u _ _ ops); auto.
  - unfold cut_program. rewrite (before_parsed quote _ _ Hb).
    destruct (long_word quote c x v rest (sets before defaults)) as (m & -> & _); [apply in_or_app; now left|exact Nx|].
    exists (m ++ nl :: usage). rewrite <- app_assoc. reflexivity.
Qed.
Print Assumptions C137_attached_refuted.
(* It is false when the argument begins with =: the list -f=1 names is taken to be 1. *)
Theorem C137_equals_refuted : forall quote ws before c v rest given ops, apart_before ws before -> In c with_argument ->
  written_apart rest given ops ->
  written (ws ++ ("-"%char :: c :: "="%char :: v) :: rest) (before ++ (c, Some ("="%char :: v)) :: given) ops /\
  exists o, parse_flags quote (ws ++ ("-"%char :: c :: "="%char :: v) :: rest) defaults = Parsed o ops /\
    says (before ++ (c, Some v) :: given) o.
Proof.
  intros quote ws before c v rest given ops Hb Hc Hr. split.
  - destruct (C137_apart_partial quote _ _ _ Hr) as [Hw _]. induction Hb as [|f ws before Hf H IH|k u ws before Hk H IH]; cbn [app].
    + apply (attached [] c ("="%char :: v) rest given ops); auto. discriminate.
    + apply (flags [f] _ _ ops); auto. discriminate.
    + apply (separate [] k u _ _ ops); auto.
  - exists (sets (before ++ (c, Some v) :: given) defaults). split.
    + rewrite (before_parsed quote _ _ Hb), equals_value by exact Hc. rewrite (apart_parsed quote _ _ _ Hr). unfold sets. now rewrite fold_left_app.
    + apply (sets_says quote). apply Forall_app. split; [exact (before_sound _ _ Hb)|]. constructor; [|exact (apart_sound _ _ _ Hr)].
      right. split; [exact Hc|now exists v].
Qed.
Print Assumptions C137_equals_refuted.
(* It is false when several options are one word, -ns or -nf 1. *)
Theorem C137_grouped_refuted : forall quote usage help ws before f g fs rest given ops, apart_before ws before ->
  In f without_argument -> In g (with_argument ++ without_argument) -> written (("-"%char :: f :: g :: fs) :: rest) given ops ->
  written (ws ++ ("-"%char :: f :: g :: fs) :: rest) (before ++ given) ops /\
  exists m, cut_program quote usage help (ws ++ ("-"%char :: f :: g :: fs) :: rest) =
    {| out := []; errout := B "flag provided but not defined: -" ++ f :: g :: m; fin := Exit 2 |}.
Proof.
  intros quote usage help ws before f g fs rest given ops Hb Hf Hg Hr. split.
  - induction Hb as [|k ws before Hk H IH|k u ws before Hk H IH]; cbn [app].
    + exact Hr.
    + apply (flags [k] _ _ ops); auto. discriminate.
    + apply (separate [] k u _ _ ops); auto.
  - unfold cut_program. rewrite (before_parsed quote _ _ Hb).
    destruct (long_word quote f g fs rest (sets before defaults)) as (m & -> & _); [apply in_or_app; now right| |].
    + intros ->. cbn in Hg. repeat (destruct Hg as [Hg|Hg]; [discriminate Hg|]). destruct Hg.
    + exists (m ++ nl :: usage). rewrite <- app_assoc. reflexivity.
Qed.
Print Assumptions C137_grouped_refuted.
(* What is no option of cut is rejected by name (h asks for help), and so is an option without the argument it needs. *)
Theorem C137_rejects_partial : forall quote usage help ws before, apart_before ws before ->
  (forall c v rest, ~ In c (with_argument ++ without_argument ++ B "-=h") -> exists m t, v = m ++ t /\
     cut_program quote usage help (ws ++ ("-"%char :: c :: v) :: rest) =
       {| out := []; errout := B "flag provided but not defined: -" ++ c :: m ++ nl :: usage; fin := Exit 2 |}) /\
  (forall c, In c with_argument -> cut_program quote usage help (ws ++ [["-"%char; c]]) =
       {| out := []; errout := B "flag needs an argument: -" ++ c :: nl :: usage; fin := Exit 2 |}).
Proof.
  intros quote usage help ws before Hb. split.
  - intros c v rest Hc. unfold cut_program. rewrite (before_parsed quote _ _ Hb).
    destruct (unknown_word quote c v rest (sets before defaults) Hc) as (m & t & Ev & ->). exists m, t. split; [exact Ev|]. now rewrite <- app_assoc.
  - intros c Hc. unfold cut_program. now rewrite (before_parsed quote _ _ Hb), no_argument by exact Hc.
Qed.
Print Assumptions C137_rejects_partial.
(* -s=false and the like, of which POSIX knows nothing: twelve words are understood; a false one undoes the option, also where it
   was given before; any other word is rejected. *)
Theorem C137_switch_value : forall quote usage help ws before c v rest given ops, apart_before ws before -> In c without_argument ->
  written_apart rest given ops -> let words := ws ++ ("-"%char :: c :: "="%char :: v) :: rest in
  (In v (map B ["1"; "t"; "T"; "true"; "TRUE"; "True"]%string) -> exists o, parse_flags quote words defaults = Parsed o ops /\
     says (before ++ (c, None) :: given) o) /\
  (In v (map B ["0"; "f"; "F"; "false"; "FALSE"; "False"]%string) -> exists o, parse_flags quote words defaults = Parsed o ops /\
     says (filter (fun g => negb (Ascii.eqb (fst g) c)) before ++ given) o) /\
  (~ In v (map B ["1"; "t"; "T"; "true"; "TRUE"; "True"; "0"; "f"; "F"; "false"; "FALSE"; "False"]%string) ->
     cut_program quote usage help words =
       {| out := []; errout := B "invalid boolean value " ++ quote v ++ B " for -" ++ c :: B ": parse error" ++ nl :: usage; fin := Exit 2 |}).
Proof.
  intros quote usage help ws before c v rest given ops Hb Hc Hr words. unfold words. split; [|split].
  - intros Hv. exists (sets (before ++ (c, None) :: given) defaults). split.
    + rewrite (before_parsed quote _ _ Hb), (switch_value quote c v true) by (auto; apply bool_word_true; exact Hv).
      rewrite (apart_parsed quote _ _ _ Hr). unfold sets. now rewrite fold_left_app.
    + apply (sets_says quote). apply Forall_app. split; [exact (before_sound _ _ Hb)|]. constructor; [now left|exact (apart_sound _ _ _ Hr)].
  - intros Hv. exists (sets given (switch c false (sets before defaults))). split.
    + rewrite (before_parsed quote _ _ Hb), (switch_value quote c v false) by (auto; apply bool_word_false; exact Hv).
      apply (apart_parsed quote _ _ _ Hr).
    + rewrite (switched_off before c (before_sound _ _ Hb) Hc). unfold sets. rewrite <- fold_left_app. apply (sets_says quote).
      apply Forall_app. split; [|exact (apart_sound _ _ _ Hr)]. apply Forall_forall. intros g I. apply filter_In in I as [I _].
      exact (proj1 (Forall_forall _ _) (before_sound _ _ Hb) g I).
  - intros Hv. unfold cut_program. rewrite (before_parsed quote _ _ Hb), switch_bad by assumption.
    cbn [errout]. rewrite <- !app_assoc. reflexivity.
Qed.
Print Assumptions C137_switch_value.
Example C137_switch_nonvacuous : forall quote, apart_before [B "-s"; B "-n"] [("s"%char, None); ("n"%char, None)] /\
  (exists o, parse_flags quote [B "-s"; B "-n"; B "-s=false"; B "x"] defaults = Parsed o [B "x"] /\ optSuppress o = false /\ optNoSplit o = true) /\
  ~ In (B "no") (map B ["1"; "t"; "T"; "true"; "TRUE"; "True"; "0"; "f"; "F"; "false"; "FALSE"; "False"]%string).
Proof.
  intros quote. split; [|split].
  - apply before_flag; [cbn; auto|]. apply before_flag; [cbn; auto|]. apply before_none.
  - eexists. split; [reflexivity|]. auto.
  - cbn [map In]. intuition discriminate.
Qed.
(* A word of three or more characters that begins with --- or --=, and one that begins with -=, is no option and no operand. *)
Theorem C137_bad_syntax : forall quote usage help ws before w rest, apart_before ws before ->
  (exists t, w = B "---" ++ t \/ w = B "--=" ++ t \/ w = B "-=" ++ t) ->
  cut_program quote usage help (ws ++ w :: rest) = {| out := []; errout := B "bad flag syntax: " ++ w ++ nl :: usage; fin := Exit 2 |}.
Proof.
  intros quote usage help ws before w rest Hb (t&[->|[->| ->]]); unfold cut_program; rewrite (before_parsed quote _ _ Hb); reflexivity.
Qed.
Print Assumptions C137_bad_syntax.
Example C137_nonvacuous :
  written_apart [B "-s"; B "-d"; B ","; B "-f"; B "2-"; B "--"; B "-x"] [("s"%char, None); ("d"%char, Some (B ",")); ("f"%char, Some (B "2-"))] [B "-x"] /\
  says [("s"%char, None); ("d"%char, Some (B ",")); ("f"%char, Some (B "2-"))]
    {| optFields := B "2-"; optBytes := []; optChars := []; optDelim := B ","; optNoSplit := false; optSuppress := true |} /\
  apart_before [B "-s"; B "-d"; B ","] [("s"%char, None); ("d"%char, Some (B ","))] /\
  written [B "-nf"; B "1"; B "file"] [("n"%char, None); ("f"%char, Some (B "1"))] [B "file"].
Proof.
  split; [|split; [|split]].
  - apply apart_flag; [cbn; auto|]. apply apart_argument; [cbn; auto|]. apply apart_argument; [cbn; auto|]. apply apart_end.
  - unfold says, is_given. cbn. repeat split; auto; try discriminate.
    + intros [v [E|[E|[E|[]]]]]; discriminate E.
    + intros _. exists None. now left.
  - apply before_flag; [cbn; auto|]. apply before_argument; [cbn; auto|]. apply before_none.
  - apply (separate (B "n") "f" (B "1") [B "file"] [] [B "file"]); [repeat constructor; cbn; auto|cbn; auto|]. apply operands. right. intros r E. discriminate E.
Qed.

(* C33: no command line makes cut print anything, and none but a request for help ends with status 0. *)
Theorem C33_command_lines_refuted : forall quote usage help args, let r := cut_program quote usage help args in
  out r = [] /\ (fin r = Exit 1 \/ fin r = Exit 2 \/
    exists ws w rest t, args = ws ++ w :: rest /\ (w = B "-h" ++ t \/ w = B "--h" ++ t)).
Proof.
  intros quote usage help args. cbv zeta. unfold cut_program. destruct (parse_flags quote args defaults) as [o ops|m|] eqn:E.
  - destruct o as [f b c d n s]. destruct f, b, c; split; try reflexivity; now left.
  - split; [reflexivity|]. right. now left.
  - split; [reflexivity|]. right. right. destruct (help_word quote _ _ _ (le_n _) E) as (ws & w & rest & -> & t & H). now exists ws, w, rest, t.
Qed.
Print Assumptions C33_command_lines_refuted.
Example C33_command_lines_nonvacuous : forall quote usage help,
  cut_program quote usage help [B "-f"; B "1"; B "file"] = {| out := []; errout := B "Error: only specify one of -f, -b, and -c"; fin := Exit 1 |} /\
  cut_program quote usage help [B "-f"] = {| out := []; errout := B "flag needs an argument: -f" ++ nl :: usage; fin := Exit 2 |} /\
  cut_program quote usage help [B "-n=no"] = {| out := []; errout := (B "invalid boolean value " ++ quote (B "no") ++ B " for -n: parse error") ++ nl :: usage; fin := Exit 2 |}.
Proof. intros. repeat split; reflexivity. Qed.
