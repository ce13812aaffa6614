(* C147: the output of locale as input to the shell.  Statements only; proofs in LocaleShellProofs.v. *)
From Verif Require Import GoBase GoFacts LocaleModel LocaleSpec LocaleProofs LocaleShellSpec LocaleShellProofs.

(* A blank or an operator in a variable that is set spoils the output: LC_ALL and a category's own value are not quoted. *)
Theorem C147_shell_input_refuted : forall env cat p c r, no_percent env -> In cat categories -> env (B "LC_ALL") = [] ->
  Forall inside (env (B "LANG")) -> (forall d, In d categories -> d <> cat -> Forall plain (env d)) ->
  Forall plain p -> ends_word c -> env cat = p ++ c :: r ->
  exists out, locale_cmd env = Some out /\ forall l, ~ script out l.
Proof.
  intros env cat p c r N I A L O P C E. exists (locale_string (FromEnv env)). split.
  - unfold locale_cmd. apply printf_plain; auto. now apply no_percent_report.
  - intros l. now apply (category_spoils env cat p c r).
Qed.
Print Assumptions C147_shell_input_refuted.
Theorem C147_shell_input_all_refuted : forall env p c r, no_percent env ->
  Forall inside (env (B "LANG")) -> Forall inside (env (B "LC_ALL")) ->
  Forall plain p -> ends_word c -> env (B "LC_ALL") = p ++ c :: r ->
  exists out, locale_cmd env = Some out /\ forall l, ~ script out l.
Proof.
  intros env p c r N L A P C E. exists (locale_string (FromEnv env)). split.
  - unfold locale_cmd. apply printf_plain; auto. now apply no_percent_report.
  - intros l. now apply (all_spoils env p c r).
Qed.
Print Assumptions C147_shell_input_all_refuted.
(* Otherwise the shell reads the output in one way, as assignments to all eight variables, and after them the same locale
   is in effect for every category, whatever was set before. *)
Theorem C147_shell_input_partial : forall env, no_percent env -> readable env ->
  exists out l, locale_cmd env = Some out /\ script out l /\ (forall l', script out l' -> l' = l) /\ map fst l = variables /\
    forall env0 cat v, In cat categories -> (in_effect (after l env0) cat v <-> in_effect env cat v).
Proof.
  intros env N R. exists (locale_string (FromEnv env)), (assigned env). split; [|split; [|split; [|split]]].
  - unfold locale_cmd. apply printf_plain; auto. now apply no_percent_report.
  - now apply report_script.
  - intros l' H. now apply report_script_only.
  - reflexivity.
  - intros env0 cat v I. now apply assigned_effect.
Qed.
Print Assumptions C147_shell_input_partial.

Definition an_env (lang time all : bytes) : bytes -> bytes :=
  fun v => if beqb v (B "LANG") then lang else if beqb v (B "LC_TIME") then time else if beqb v (B "LC_ALL") then all else [].
Lemma plain_chars : forall s, forallb (fun c => negb (existsb (Ascii.eqb c)
   (["|"; "&"; ";"; "<"; ">"; "("; ")"; "$"; "`"; "\"; "034"; "'"; " "; "~"]%char ++ [tab; nl]))) s = true -> Forall plain s.
Proof.
  intros s H. rewrite forallb_forall in H. apply Forall_forall. intros c I. apply H in I.
  assert (Q : forall d, In d (["|"; "&"; ";"; "<"; ">"; "("; ")"; "$"; "`"; "\"; "034"; "'"; " "; "~"]%char ++ [tab; nl]) -> c <> d).
  { intros d D ->. rewrite (proj2 (existsb_exists _ _)) in I; [discriminate|]. exists d. split; [exact D|apply Ascii.eqb_refl]. }
  split; [intros X; apply (Q c); [apply in_or_app; now left|reflexivity]|].
  split; apply Q; apply in_or_app; right; cbn; tauto.
Qed.
Lemma inside_chars : forall s, forallb (fun c => negb (existsb (Ascii.eqb c) ["$"; "`"; "\"; "034"]%char)) s = true -> Forall inside s.
Proof.
  intros s H. rewrite forallb_forall in H. apply Forall_forall. intros c I D. apply H in I.
  rewrite (proj2 (existsb_exists _ _)) in I; [discriminate|]. exists c. split; [exact D|apply Ascii.eqb_refl].
Qed.
Lemma an_env_no_percent : forall a b c, ~ In "%"%char a -> ~ In "%"%char b -> ~ In "%"%char c -> no_percent (an_env a b c).
Proof. intros a b c A1 B1 C1 v _. unfold an_env. destruct (beqb v _); [|destruct (beqb v _); [|destruct (beqb v _)]]; auto. Qed.
Example C147_nonvacuous :
  (exists env, no_percent env /\ readable env /\ in_effect env (B "LC_TIME") (B "de_DE.UTF-8@euro") /\
    in_effect env (B "LC_CTYPE") (B "an odd (name)")) /\
  (exists env p c r, no_percent env /\ env (B "LC_ALL") = [] /\ Forall plain p /\ ends_word c /\ env (B "LC_TIME") = p ++ c :: r) /\
  (exists env p c r, no_percent env /\ Forall inside (env (B "LC_ALL")) /\ Forall plain p /\ ends_word c /\ env (B "LC_ALL") = p ++ c :: r).
Proof.
  split; [|split].
  - exists (an_env (B "an odd (name)") (B "de_DE.UTF-8@euro") []). split; [apply an_env_no_percent; cbn; intuition discriminate|].
    split; [|split].
    + split; [|split].
      * apply inside_chars. reflexivity.
      * constructor.
      * intros _ c I. unfold categories in I. cbn [In] in I.
        repeat (destruct I as [<-|I]; [apply plain_chars; reflexivity|]). destruct I.
    + apply (eff_own (an_env (B "an odd (name)") (B "de_DE.UTF-8@euro") [])); [reflexivity|discriminate].
    + apply (eff_lang (an_env (B "an odd (name)") (B "de_DE.UTF-8@euro") [])); reflexivity.
  - exists (an_env [] (B "a;reboot") []), (B "a"), ";"%char, (B "reboot"). split; [apply an_env_no_percent; cbn; intuition discriminate|].
    split; [reflexivity|]. split; [apply plain_chars; reflexivity|]. split; [left; cbn; tauto|reflexivity].
  - exists (an_env [] [] (B "a b")), (B "a"), " "%char, (B "b"). split; [apply an_env_no_percent; cbn; intuition discriminate|].
    split; [apply inside_chars; reflexivity|].
    split; [apply plain_chars; reflexivity|]. split; [left; cbn; tauto|reflexivity].
Qed.
