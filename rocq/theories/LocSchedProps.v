(* Property theorem C136 (pkg/locale): reading a locale definition ends the same way however the goroutine of the lexer and
   the parser take turns.  A run is a sequence of moves (LocSchedModel.v) from [begin d]: the lexer sends a token, closes the
   channel or panics, the parser receives a token, makes a step or stops; [cap] is the capacity of the channel.
   [removeComments text = Ok (src, esc)]: src is what NewLexer leaves of the file's text.  [parse_text] (LocLexModel.v) lets
   the lexer send all its tokens first; it is what the other theorems about pkg/locale are about. *)
From Verif Require Import GoBase LocYaccModel LocaleModel LocLexModel LocSchedModel LocSchedProofs LocDocProps.

(* When one run has ended, every run that has ended has ended the same way, whatever the capacities; *)
Theorem C136_schedules_agree : forall text src esc d cap1 cap2 m1 m2 w1 w2 v1 v2, removeComments text = Ok (src, esc) ->
  moves cap1 esc src m1 (begin d) w1 -> w_end w1 = Some v1 ->
  moves cap2 esc src m2 (begin d) w2 -> w_end w2 = Some v2 -> v1 = v2.
Proof.
  intros text src esc d cap1 cap2 m1 m2 w1 w2 v1 v2 Rc M1 E1 M2 E2.
  destruct (same_end _ _ _ _ _ _ _ _ M1 E1 Rc) as [n1 H1]. destruct (same_end _ _ _ _ _ _ _ _ M2 E2 Rc) as [n2 H2].
  rewrite <- (H1 (Nat.max n1 n2)) by lia. apply H2. lia.
Qed.
Print Assumptions C136_schedules_agree.
(* and none can then go on for ever or get stuck: every run is of bounded length, and where no move is left the run has ended. *)
Theorem C136_all_end : forall text src esc d cap1 cap2 m1 w1 v, removeComments text = Ok (src, esc) -> 0 < cap2 ->
  moves cap1 esc src m1 (begin d) w1 -> w_end w1 = Some v ->
  exists N, forall m w, moves cap2 esc src m (begin d) w -> m <= N /\ ((forall w', ~ move cap2 esc src w w') -> w_end w = Some v).
Proof.
  intros text src esc d cap1 cap2 m1 w1 v Rc Cp M1 E1. destruct (same_end _ _ _ _ _ _ _ _ M1 E1 Rc) as [n1 H1].
  assert (Nv : v <> StillRunning) by (intros ->; exact (end_decided _ _ _ _ _ _ M1 E1)).
  destruct (bounded cap2 esc src d text n1 v Rc (H1 n1 (le_n _)) Nv) as [N Bd]. exists N. intros m w M. split; [eauto|]. intros Stuck.
  destruct (w_end w) as [v2|] eqn:E.
  - f_equal. symmetry. exact (C136_schedules_agree _ _ _ _ _ _ _ _ _ _ _ _ Rc M1 E1 M E).
  - destruct (not_stuck cap2 esc src d m w text n1 v Cp M E Rc (H1 n1 (le_n _)) Nv) as [w' Mv]. destruct (Stuck w' Mv).
Qed.
Print Assumptions C136_all_end.
(* The way runs end is the verdict of parse_text: a run that has ended has ended so, ... *)
Theorem C136_verdict : forall text src esc d cap m w v, removeComments text = Ok (src, esc) ->
  moves cap esc src m (begin d) w -> w_end w = Some v ->
  v <> StillRunning /\ exists n, forall fuel, n <= fuel -> parse_text fuel d text = v.
Proof.
  intros text src esc d cap m w v Rc M E. split; [intros ->; exact (end_decided _ _ _ _ _ _ M E)|]. exact (same_end _ _ _ _ _ _ _ _ M E Rc).
Qed.
Print Assumptions C136_verdict.
(* ... when parse_text gives a verdict every run comes to it, ... *)
Theorem C136_decided : forall text src esc d cap fuel, removeComments text = Ok (src, esc) -> 0 < cap ->
  parse_text fuel d text <> StillRunning ->
  exists N, forall m w, moves cap esc src m (begin d) w ->
    m <= N /\ ((forall w', ~ move cap esc src w w') -> w_end w = Some (parse_text fuel d text)).
Proof.
  intros text src esc d cap fuel Rc Cp Nv. destruct (bounded cap esc src d text fuel _ Rc eq_refl Nv) as [N Bd]. exists N. intros m w M.
  split; [eauto|]. intros Stuck. destruct (w_end w) as [v|] eqn:E.
  - f_equal. destruct (same_end _ _ _ _ _ _ _ _ M E Rc) as [n H]. rewrite <- (H (Nat.max n fuel)) by lia. apply verdict_more; [lia|exact Nv].
  - destruct (not_stuck cap esc src d m w text fuel _ Cp M E Rc eq_refl Nv) as [w' Mv]. destruct (Stuck w' Mv).
Qed.
Print Assumptions C136_decided.
(* ... and when it gives none no run ever ends. *)
Theorem C136_undecided : forall text src esc d cap m w, removeComments text = Ok (src, esc) ->
  (exists n, forall fuel, n <= fuel -> parse_text fuel d text = StillRunning) -> moves cap esc src m (begin d) w -> w_end w = None.
Proof.
  intros text src esc d cap m w Rc (n0 & U) M. destruct (w_end w) as [v|] eqn:E; [|reflexivity].
  destruct (C136_verdict _ _ _ _ _ _ _ _ Rc M E) as [N (n & H)]. exfalso. apply N. rewrite <- (H (Nat.max n n0)) by lia. apply U. lia.
Qed.
Print Assumptions C136_undecided.

(* (removeComments adds the last newline.)  A definition read in two ways, the lexer being preferred, with room for 100 tokens, or the parser, with room for one; one
   with a mistake, where the lexer has sent more in the one way than in the other; and one that is read for ever *)
Definition sample_text : bytes := B "LC_MONETARY" ++ nl :: B "int_curr_symbol ""EUR """ ++ nl :: B "END LC_MONETARY" ++ [nl].
Definition bad_text : bytes := B "LC_NUMERIC" ++ nl :: B "END LC_TIME" ++ nl :: B "LC_TIME" ++ [nl].
Example C136_nonvacuous :
  removeComments (removelast sample_text) = Ok (sample_text, 92%N) /\
  (exists w, moves 100 92 sample_text 63 (begin nothing) w /\ w_sent w = 15 /\
     w_end w = Some (Accepted {| int_curr_symbol := B "EUR "; int_frac_digits := 0; mon_grouping := [] |})) /\
  (exists w, moves 1 92 sample_text 63 (begin nothing) w /\ w_sent w = 15 /\
     w_end w = Some (Accepted {| int_curr_symbol := B "EUR "; int_frac_digits := 0; mon_grouping := [] |})) /\
  removeComments (removelast bad_text) = Ok (bad_text, 92%N) /\
  (exists w, moves 100 92 bad_text 5 (begin nothing) w /\ w_sent w = 4 /\ w_end w = Some Crashed) /\
  (exists w, moves 1 92 bad_text 10 (begin nothing) w /\ w_sent w = 3 /\ w_end w = Some Crashed) /\
  removeComments (B "LC_COLLATE" ++ [nl]) = Ok (B "LC_COLLATE" ++ [nl; nl], 92%N) /\
  (exists n, forall fuel, n <= fuel -> parse_text fuel nothing (B "LC_COLLATE" ++ [nl]) = StillRunning) /\
  (exists w, moves 1 92 (B "LC_COLLATE" ++ [nl; nl]) 7 (begin nothing) w /\ w_sent w = 2 /\ w_end w = None).
Proof.
  assert (P : forall cap src prefer k w, play cap 100 92 src prefer 100 (begin nothing) = (k, w) -> moves cap 92 src k (begin nothing) w)
    by (intros; eapply play_ok; eauto).
  split; [vm_compute; reflexivity|].
  split; [exists (snd (play 100 100 92 sample_text true 100 (begin nothing))); split; [apply (P _ _ true)|split]; vm_compute; reflexivity|].
  split; [exists (snd (play 1 100 92 sample_text false 100 (begin nothing))); split; [apply (P _ _ false)|split]; vm_compute; reflexivity|].
  split; [vm_compute; reflexivity|].
  split; [exists (snd (play 100 100 92 bad_text true 100 (begin nothing))); split; [apply (P _ _ true)|split]; vm_compute; reflexivity|].
  split; [exists (snd (play 1 100 92 bad_text false 100 (begin nothing))); split; [apply (P _ _ false)|split]; vm_compute; reflexivity|].
  split; [vm_compute; reflexivity|].
  split; [exists 0; intros; apply C103_collate_alone_refuted|].
  exists (snd (play 1 100 92 (B "LC_COLLATE" ++ [nl; nl]) false 100 (begin nothing))). split; [apply (P _ _ false)|split]; vm_compute; reflexivity.
Qed.
