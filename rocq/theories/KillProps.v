(* C34, C35: cmd/kill.  Statements only; proofs in KillProofs.v. *)
From Verif Require Import GoBase GoFacts NumFacts KillModel KillSpec KillProofs.

(* C34 is false: whatever other signal is asked for, SIGKILL is delivered. *)
Theorem C34_requested_signal_refuted : forall ke l, Forall item_ok l -> (0 < last_pid l)%Z -> wanted l <> 9%Z ->
  signals (kill_main ke (render l)) = [(last_pid l, 9%Z)] /\
  signals (kill_main ke (render l)) <> [(last_pid l, wanted l)].
Proof.
  intros ke l H P W. destruct (kill_ok ke l H P) as [-> _]. split; [reflexivity|]. congruence.
Qed.
Print Assumptions C34_requested_signal_refuted.
(* What is true: exactly one signal goes to exactly the pid given, and it is always SIGKILL, so
   the request is honoured exactly when SIGKILL was requested. *)
Theorem C34_always_sigkill_partial : forall ke l, Forall item_ok l -> (0 < last_pid l)%Z ->
  signals (kill_main ke (render l)) = [(last_pid l, 9%Z)] /\
  (signals (kill_main ke (render l)) = [(last_pid l, wanted l)] <-> wanted l = 9%Z).
Proof.
  intros ke l H P. destruct (kill_ok ke l H P) as [-> _]. split; auto. split; [intros [= <-]; auto|intros ->; auto].
Qed.
Print Assumptions C34_always_sigkill_partial.
Example C34_nonvacuous :
  let l := [Name (B "Term") 15; Pid (B "7") 7] in
  Forall item_ok l /\ last_pid l = 7%Z /\ wanted l = 15%Z /\
  render l = map B ["-s"; "Term"; "7"]%string /\
  kill_main (fun _ => None) (render l) =
    {| run := {| out := unlines [B "sending 15 to 7"; B "vim-go"]; errout := []; fin := Exit 0 |};
       signals := [(7, 9)]%Z |}.
Proof.
  cbv zeta. split.
  - constructor.
    + exists (B "TERM"). split; [cbn; auto 10|].
      apply case_same, case_lower; [split; discriminate|reflexivity|].
      apply case_lower; [split; discriminate|reflexivity|]. apply case_lower; [split; discriminate|reflexivity|]. constructor.
    + constructor; [|constructor]. split; [apply (numeral_itoa 7)|]. split; [split; discriminate|discriminate].
  - repeat split; vm_compute; reflexivity.
Qed.

(* C35 *)
Theorem C35_rejects_bad_arguments : forall ke l r m, Forall item_ok l -> bad_tail r m ->
  kill_main ke (render l ++ r) = {| run := {| out := []; errout := m; fin := Exit 2 |}; signals := [] |}.
Proof. exact kill_bad. Qed.
Print Assumptions C35_rejects_bad_arguments.
Theorem C35_last_pid_wins : forall ke l, Forall item_ok l -> (0 < last_pid l)%Z ->
  map fst (signals (kill_main ke (render l))) = [last_pid l] /\
  run (kill_main ke (render l)) =
    let said := B "sending " ++ itoa (wanted l) ++ B " to " ++ itoa (last_pid l) ++ [nl] in
    match ke (last_pid l) with
    | None => {| out := said ++ B "vim-go" ++ [nl]; errout := []; fin := Exit 0 |}
    | Some e => {| out := said; errout := B "couldn't send signal " ++ itoa (wanted l) ++ B " to " ++
                     itoa (last_pid l) ++ B ", " ++ e; fin := Exit 2 |}
    end.
Proof. intros ke l H P. destruct (kill_ok ke l H P) as [-> ->]. auto. Qed.
Print Assumptions C35_last_pid_wins.
Theorem C35_no_pid_no_signal : forall ke l, Forall item_ok l -> last_pid l = 0%Z ->
  kill_main ke (render l) =
    {| run := {| out := B "sending " ++ itoa (wanted l) ++ B " to 0" ++ [nl];
                 errout := B "couldn't send signal " ++ itoa (wanted l) ++ B " to 0, os: process not initialized";
                 fin := Exit 2 |}; signals := [] |}.
Proof. exact kill_nopid. Qed.
Print Assumptions C35_no_pid_no_signal.
(* -s as the last argument and an empty argument make it panic, before any signal *)
Theorem C35_panics : forall ke l r, Forall item_ok l -> crash_tail r ->
  kill_main ke (render l ++ r) = {| run := {| out := []; errout := []; fin := Panicked |}; signals := [] |}.
Proof. exact kill_crash. Qed.
Print Assumptions C35_panics.
(* these are all the argument lists there are *)
Theorem C35_exhaustive : forall args, exists l r, Forall item_ok l /\ args = render l ++ r /\
  (r = [] \/ (exists m, bad_tail r m) \/ crash_tail r).
Proof. exact args_total. Qed.
Print Assumptions C35_exhaustive.
(* for any argument list at all: whatever is signalled was asked for *)
Theorem C35_only_valid_lists_signal : forall ke args x, In x (signals (kill_main ke args)) ->
  exists l, Forall item_ok l /\ args = render l /\ (0 < last_pid l)%Z /\ x = (last_pid l, 9%Z).
Proof. exact kill_sends. Qed.
Print Assumptions C35_only_valid_lists_signal.
Example C35_nonvacuous :
  Forall item_ok [ListOpt; Name (B "hUp") 1; Pid (B "12") 12; Number (B "9") 9; Pid (B "34") 34] /\
  render [ListOpt; Name (B "hUp") 1; Pid (B "12") 12; Number (B "9") 9; Pid (B "34") 34] =
    map B ["-l"; "-s"; "hUp"; "12"; "-9"; "34"]%string /\
  (exists m, bad_tail [B "-s"; B "FOO"] m) /\ (exists m, bad_tail [B "-FOO"] m) /\ (exists m, bad_tail [B "12x"] m).
Proof.
  assert (Q : forall t z, parse_dec t = None -> ~ numeral t z).
  { intros t z H N. apply parse_dec_spec in N. congruence. }
  split.
  - constructor; [exact I|]. constructor.
    { exists (B "HUP"). split; [cbn; auto 10|]. apply case_lower; [split; discriminate|reflexivity|].
      apply case_same, case_lower; [split; discriminate|reflexivity|]. constructor. }
    constructor; [split; [apply (numeral_itoa 12)|split; [split; discriminate|discriminate]]|].
    constructor; [split; [apply (numeral_itoa 9)|split; discriminate]|].
    constructor; [split; [apply (numeral_itoa 34)|split; [split; discriminate|discriminate]]|constructor].
  - split; [reflexivity|]. split; [|split]; eexists.
    + apply bad_name. intros n H. apply lookup_spec in H. vm_compute in H. discriminate.
    + apply (bad_number (B "FOO") []); try discriminate. intros n H. now apply Q in H.
    + apply bad_pid; try discriminate. intros n H. now apply Q in H.
Qed.
