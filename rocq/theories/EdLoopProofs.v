(* Facts about the two goroutines of ed. *)
From Verif Require Import GoBase EdModel EdPegModel EdLoopModel EdLoopSpec.
Local Open Scope nat_scope.

Lemma visible_app : forall a b, visible (a ++ b) = visible a ++ visible b.
Proof. intros. apply filter_app. Qed.
Lemma visible_debug : forall l, visible (map ODebug l) = [].
Proof. induction l; auto. Qed.

Section Loop.
Variable compile : bytes -> option (bytes -> bool).
Variable capacity : nat -> nat.
Variable errtext : bytes.
Variable o : nat -> faults.
Let stp := step compile capacity errtext o.
Let stps := steps compile capacity errtext o.
Let cl := command_loop compile capacity errtext.

(* the errors still to come before the next command, and the commands with their errors *)
Definition rest_of (s : loop) : list bytes * list (command * list bytes) := segments (l_todo s).
(* what is left to be written, and how it ends *)
Definition coming (s : loop) (out : list output) (r : EdModel.out (files * itor)) : Prop :=
  let '(e, l) := rest_of s in
  match l_cons s with
  | Idle => exists rep out', cl (l_fs s) o (l_k s) (l_ed s) (map fst l) = (rep, r) /\
            placed (map snd l) rep out' /\ out = map OError e ++ out'
  | Got c | Busy c => exists rep, cl (l_fs s) o (l_k s) (l_ed s) (c :: map fst l) = (rep, r) /\
            placed (e :: map snd l) rep out /\ (l_cons s = Busy c -> c_typ c <> ctquit)
  | Answer a => exists rep, cl (l_fs s) o (l_k s) (l_ed s) (map fst l) = (rep, r) /\
            placed (e :: map snd l) ((a ++ [nl]) :: rep) out
  | Stuck => r = Hangs /\ placed (e :: map snd l) [] out
  end.
Lemma placed_more : forall m e errs rep out, placed (e :: errs) rep out -> placed ((m :: e) :: errs) rep (OError m :: out).
Proof.
  intros m e errs rep out H. inversion H; subst.
  - exact (placed_reply (m :: p) s errs r replies out0 H4).
  - exact (placed_stop (m :: p) s errs).
Qed.
Lemma coming_error : forall s m t out r, l_todo s = RError m :: t -> coming (after_read s t [OError m]) out r -> coming s (OError m :: out) r.
Proof.
  intros s m t out r E H. unfold coming, rest_of in *. rewrite E. cbn [segments]. cbn [l_todo after_read l_cons l_fs l_k l_ed] in H.
  destruct (segments t) as [e l]. destruct (l_cons s) as [|c|c|a|].
  - destruct H as (rep&out'&H1&H2&->). exists rep, out'. auto.
  - destruct H as (rep&H1&H2&H3). exists rep. split; auto using placed_more.
  - destruct H as (rep&H1&H2&H3). exists rep. split; auto using placed_more.
  - destruct H as (rep&H1&H2). exists rep. auto using placed_more.
  - destruct H. auto using placed_more.
Qed.

Notation stopped := (stopped compile capacity errtext o).
(* the status of a run that stopped, for the consumer's state *)
Lemma not_running : forall s s', stp s s' -> l_status s = Running.
Proof. intros s s' H. inversion H; auto. Qed.
Lemma stopped_status : forall s, l_status s <> Running -> stopped s.
Proof. intros s N s' H. apply N. eapply not_running; eauto. Qed.
(* a stopped program that still runs is stuck in a command *)
Lemma stopped_cases : forall s, stopped s -> l_status s = Running -> l_cons s = Stuck.
Proof.
  intros s H R. destruct (l_cons s) as [|c|c|a|] eqn:C; auto; exfalso.
  - destruct (l_todo s) as [|[m|c|m] t] eqn:T.
    + eapply H. apply st_closed; auto.
    + eapply H. eapply st_error; eauto.
    + eapply H. eapply st_send; eauto.
    + eapply H. eapply st_print; eauto.
  - destruct (c_typ c) eqn:Q; try (eapply H; apply st_show with (c := c); auto; rewrite Q; discriminate).
    eapply H. eapply st_quit; eauto.
  - destruct (processCommand compile capacity errtext (l_fs s) (o (l_k s)) (l_ed s) c) as [[[sts ed'] r]| |] eqn:P.
    + eapply H. eapply st_run; eauto.
    + eapply H. eapply st_crash; eauto.
    + eapply H. eapply st_hang; eauto.
  - eapply H. eapply st_reply; eauto.
Qed.
Definition plausible (s : loop) : Prop := l_status s = Running /\ (forall c, l_cons s = Busy c -> c_typ c <> ctquit).
Lemma cl_cons : forall fs k ed c l, c_typ c <> ctquit -> cl fs o k ed (c :: l) =
  match processCommand compile capacity errtext fs (o k) ed c with
  | Val (states, ed', reply) =>
      let '(w, e) := cl (final fs states) o (S k) ed' l in ((reply ++ [nl]) :: w, e)
  | Crashes => ([], Crashes)
  | Hangs => ([], Hangs)
  end.
Proof. intros fs k ed c l N. unfold cl. cbn [command_loop]. destruct (c_typ c); try reflexivity. congruence. Qed.

Lemma placed_stop0 : forall e errs, placed (e :: errs) [] [].
Proof. intros. exact (placed_stop [] e errs). Qed.
Lemma run_stopped : forall s s', stps s s' -> stopped s' -> plausible s ->
  exists out r, visible (l_out s') = visible (l_out s) ++ out /\ coming s out r /\ ended r s'.
Proof.
  intros s s' H St. induction H as [s|s s1 s2 H H' IH]; intros [Rn Bz].
  - (* stopped at once: stuck in a command *)
    pose proof (stopped_cases s St Rn) as C. exists [], Hangs. rewrite List.app_nil_r. split; auto.
    split; [|now split]. unfold coming. destruct (rest_of s) as [e l]. rewrite C. split; auto. apply placed_stop0.
  - specialize (IH St). inversion H; subst.
    + (* error *)
      destruct IH as (out&r&V&Cm&En); [now split|]. exists (OError m :: out), r.
      split; [rewrite V; cbn [l_out after_read]; rewrite visible_app, <- app_assoc; reflexivity|].
      split; auto. eapply coming_error; eauto.
    + (* print *)
      destruct IH as (out&r&V&Cm&En); [now split|]. exists out, r.
      split; [rewrite V; cbn [l_out after_read]; rewrite visible_app; cbn; now rewrite List.app_nil_r|].
      split; auto. unfold coming, rest_of in *. rewrite H1. cbn [segments]. exact Cm.
    + (* send *)
      destruct IH as (out&r&V&Cm&En); [split; auto; discriminate|]. exists out, r.
      split; [rewrite V; cbn [l_out after_read after_cons]; now rewrite !List.app_nil_r|].
      split; auto. unfold coming, rest_of in *. rewrite H1, H2. cbn [l_todo after_read after_cons l_cons l_fs l_k l_ed segments] in *.
      destruct (segments t) as [e l]. destruct Cm as (rep&Q1&Q2&_). exists rep, out. cbn [map fst snd app]. auto.
    + (* closed *)
      clear IH. assert (s2 = ends s Finished) as -> by (inversion H'; subst; auto; apply not_running in H3; discriminate).
      exists [], (Val (l_fs s, l_ed s)). rewrite List.app_nil_r. split; auto. split; [|repeat split].
      unfold coming, rest_of. rewrite H1, H2. cbn [segments map]. exists [], []. repeat split. constructor.
    + (* quit *)
      clear IH. assert (s2 = ends (after_cons s Idle [ODebug (show_cmd c)]) Finished) as -> by (inversion H'; subst; auto; apply not_running in H3; discriminate).
      exists [], (Val (l_fs s, l_ed s)). cbn [l_out ends after_cons]. rewrite visible_app. split; auto. split; [|repeat split].
      unfold coming. destruct (rest_of s) as [e l]. rewrite H1. exists []. split; [unfold cl; cbn [command_loop]; now rewrite H2|].
      split; [apply placed_stop0|discriminate].
    + (* show *)
      destruct IH as (out&r&V&Cm&En); [split; auto; cbn; intros c' Q; injection Q as <-; auto|]. exists out, r.
      split; [rewrite V; cbn [l_out after_cons]; rewrite visible_app; cbn; now rewrite List.app_nil_r|].
      split; auto. unfold coming, rest_of in *. rewrite H1. cbn [l_todo after_cons l_cons l_fs l_k l_ed] in Cm.
      destruct (segments (l_todo s)) as [e l]. destruct Cm as (rep&Q1&Q2&_). exists rep. repeat split; auto.
    + (* run *)
      destruct IH as (out&r'&V&Cm&En); [split; auto; discriminate|]. exists out, r'.
      split; [rewrite V; cbn [l_out executed]; rewrite visible_app, visible_debug; now rewrite List.app_nil_r|].
      split; auto. unfold coming, rest_of in *. rewrite H1. cbn [l_todo executed l_cons l_fs l_k l_ed] in Cm.
      destruct (segments (l_todo s)) as [e l]. destruct Cm as (rep&Q1&Q2).
      exists ((r ++ [nl]) :: rep). split; [|split; auto]. rewrite cl_cons by (now apply Bz). rewrite H2, Q1. reflexivity.
    + (* crash *)
      clear IH. assert (s2 = ends (after_cons s Idle (map ODebug (notes (l_ed s) c))) Crashed) as -> by (inversion H'; subst; auto; apply not_running in H3; discriminate).
      exists [], Crashes. cbn [l_out ends after_cons]. rewrite visible_app, visible_debug. split; auto. split; [|reflexivity].
      unfold coming. destruct (rest_of s) as [e l]. rewrite H1. exists []. split; [rewrite cl_cons, H2 by (now apply Bz); reflexivity|].
      split; [apply placed_stop0|intros _; now apply Bz].
    + (* hang *)
      destruct IH as (out&r&V&Cm&En); [split; auto; discriminate|]. exists out, r.
      split; [rewrite V; cbn [l_out after_cons]; rewrite visible_app, visible_debug; now rewrite List.app_nil_r|].
      split; auto. unfold coming, rest_of in *. rewrite H1. cbn [l_todo after_cons l_cons l_fs l_k l_ed] in Cm.
      destruct (segments (l_todo s)) as [e l]. destruct Cm as (->&Q2).
      exists []. split; [rewrite cl_cons, H2 by (now apply Bz); reflexivity|]. split; auto.
    + (* reply *)
      destruct IH as (out&r'&V&Cm&En); [split; auto; discriminate|]. exists (OReply (r ++ [nl]) :: out), r'.
      split; [rewrite V; cbn [l_out after_cons]; rewrite visible_app, <- app_assoc; reflexivity|].
      split; auto. unfold coming, rest_of in *. rewrite H1. cbn [l_todo after_cons l_cons l_fs l_k l_ed] in Cm.
      destruct (segments (l_todo s)) as [e l]. destruct Cm as (rep&out'&Q1&Q2&->).
      exists rep. split; auto. exact (placed_reply [] e (map snd l) (r ++ [nl]) rep out' Q2).
Qed.

(* every run is finite *)
Definition weight (s : loop) : nat :=
  5 * List.length (l_todo s) +
  match l_cons s with Idle => 0 | Got _ => 3 | Busy _ => 2 | Answer _ => 1 | Stuck => 0 end +
  match l_status s with Running => 1 | _ => 0 end.
Lemma step_weight : forall s s', stp s s' -> weight s' < weight s.
Proof.
  intros s s' H. unfold weight. inversion H; subst; cbn [l_todo l_cons l_status after_read after_cons ends executed]; 
    repeat match goal with H : _ = _ |- _ => rewrite H end; cbn [List.length]; try lia.
Qed.
End Loop.
