(* Proofs for C164: the editor after w. *)
From Verif Require Import GoBase GoFacts NumFacts PieceTableModel PieceTableSpec PieceTableProofs EdModel EdSpec EdProofs EdProofs2 EdProps
  EdFileSpec EdExactProofs.
Local Open Scope Z_scope.

Lemma beqb_case : forall a b, (a = b /\ beqb a b = true) \/ (a <> b /\ beqb a b = false).
Proof.
  intros a b. pose proof (beqb_spec a b) as S. destruct (beqb a b); [left; split; tauto|right]. split; auto. intros E. apply S in E. discriminate.
Qed.
(* the editor after e of a file with this content *)
Definition reopened (f data : bytes) (ls : list bytes) : itor :=
  {| e_pt := new_piece_table data true (len data); e_filename := f; e_current := lines_count ls |}.

Lemma edit_gives : forall errtext fs o ed f data ls n, fs f = Some data -> len data <= max_int64 -> f_reopen o = false -> f_fstat o = false ->
  text_lines data = Val (ls, n) -> Edit errtext fs o ed f = Val (reopened f data ls, None).
Proof.
  intros errtext fs o ed f data ls n F L R1 R2 T. unfold Edit. rewrite F, R1, R2.
  set (ed1 := {| e_pt := _; e_filename := f; e_current := e_current ed |}).
  assert (H : holds ed1 data) by (eapply fresh_holds with (cc := true); auto).
  assert (G : getLines ed1 = Val (ls, n)) by (unfold getLines; rewrite (holds_string _ _ H); exact T).
  rewrite G. reflexivity.
Qed.
Lemma reopened_holds : forall f data ls, len data <= max_int64 -> holds (reopened f data ls) data.
Proof. intros f data ls L. eapply fresh_holds with (cc := true); auto. Qed.

Lemma write_gives : forall errtext fs o ed data ls n, pt_string (e_pt ed) = Ok data -> len data <= max_int64 ->
  text_lines data = Val (ls, n) -> fs (e_filename ed) <> None -> no_failure o ->
  exists states, Write errtext fs o ed = (states, Val (reopened (e_filename ed) data ls, None)) /\
    (forall m, final fs states m = if beqb m (e_filename ed) then Some data else if beqb m (swp (e_filename ed)) then None else fs m).
Proof.
  intros errtext fs o ed data ls n D L T F (O1&O2&O3&O4&O5&O6&O7).
  assert (W : exists states fs2, Write errtext fs o ed = (states ++ [fs2], Edit errtext fs2 o (set_pt ed (pt_close (e_pt ed))) (e_filename ed)) /\
    forall m, fs2 m = if beqb m (e_filename ed) then Some data else if beqb m (swp (e_filename ed)) then None else fs m).
  { unfold Write. rewrite D, O1. destruct (fs (e_filename ed)) eqn:Ef; [|now destruct F]. cbn [orb].
    unfold WriteFile. rewrite O2, O3, O4. cbn [negb]. rewrite O5. eexists _, _. split; [reflexivity|].
    intros m. unfold final. rewrite app_comm_cons, last_last. unfold upd.
    pose proof (swp_differs (e_filename ed)) as Sd.
    repeat match goal with |- context [beqb ?a ?b] => destruct (beqb_case a b) as [[? ->]|[? ->]]; try congruence end. }
  destruct W as (states&fs2&W&P). exists (states ++ [fs2]). rewrite W.
  rewrite (edit_gives errtext fs2 o _ (e_filename ed) data ls n); auto.
  - split; auto. intros m. unfold final. rewrite last_last. apply P.
  - rewrite P. destruct (beqb_case (e_filename ed) (e_filename ed)) as [[_ ->]|[]]; congruence.
Qed.
Lemma w_gives : forall compile capacity errtext fs o ed c data ls n, c_typ c = ctwrite -> pt_string (e_pt ed) = Ok data -> len data <= max_int64 ->
  text_lines data = Val (ls, n) -> fs (e_filename ed) <> None -> no_failure o ->
  exists states, processCommand compile capacity errtext fs o ed c = Val (states, reopened (e_filename ed) data ls, []) /\
    (forall m, final fs states m = if beqb m (e_filename ed) then Some data else if beqb m (swp (e_filename ed)) then None else fs m).
Proof.
  intros compile capacity errtext fs o ed c data ls n C D L T F O.
  destruct (write_gives errtext fs o ed data ls n D L T F O) as (states&W&P). exists states. split; auto.
  unfold processCommand. assert (Q : c_typ (setDefaultAddresses c) = ctwrite).
  { unfold setDefaultAddresses. destruct (is_null (c_start c)); exact C. }
  rewrite Q, W. reflexivity.
Qed.
