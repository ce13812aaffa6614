(* C146: what printing the result of Diff shows. *)
From Verif Require Import GoBase GoFacts DiffModel DiffSpec DiffProofs DiffProps DiffShowModel DiffShowSpec.

Lemma shown_lines : forall c, values c <> [] -> (forall v, In v (values c) -> ~ In nl v) ->
  split_on nl (comparison_string c) = map (fun v => symbols (kind c) ++ B " " ++ v) (values c).
Proof.
  intros c N H. unfold comparison_string. apply split_join.
  - destruct (values c); [congruence|discriminate].
  - intros x X. apply in_map_iff in X as (v & <- & V). intros I. apply in_app_or in I as [I|I].
    + destruct (kind c); cbn in I; destruct I as [I|[]]; discriminate.
    + apply in_app_or in I as [I|I]; [cbn in I; destruct I as [I|[]]; discriminate|]. now apply (H v V).
Qed.
Lemma marked_app : forall m a b, marked m (a ++ b) = marked m a ++ marked m b.
Proof. intros. apply flat_map_app. Qed.
Lemma marked_all : forall k l, marked [" "; "-"]%char (map (fun v => symbols k ++ B " " ++ v) l) = (match k with Add => [] | _ => l end) /\
  marked [" "; "+"]%char (map (fun v => symbols k ++ B " " ++ v) l) = (match k with Minus => [] | _ => l end).
Proof.
  intros k l. induction l as [|v l [I1 I2]]; [destruct k; split; reflexivity|].
  cbn [map]. match goal with |- marked _ (?x :: ?y) = _ /\ _ => change (x :: y) with ([x] ++ y) end. rewrite !marked_app, I1, I2. destruct k; split; reflexivity.
Qed.

(* C146.  If no line contains a newline, the lines printed for the comparisons of Diff, one after the other, give back both
   texts: those marked ' ' or '-' are the old one, those marked ' ' or '+' the new one. *)
Theorem C146_shown : forall old new,
  (forall l, In l old -> ~ In nl l) -> (forall l, In l new -> ~ In nl l) ->
  exists cs, diff old new = Some (Ok cs) /\
    old_of (flat_map (fun c => split_on nl (comparison_string c)) cs) = old /\
    new_of (flat_map (fun c => split_on nl (comparison_string c)) cs) = new.
Proof.
  intros old new Ho Hn. destruct (diff_reassembles old new) as (cs & E & Eo & En). exists cs. split; [exact E|].
  assert (V : forall c, In c cs -> forall v, In v (values c) -> ~ In nl v).
  { intros c C v W. destruct (kind c) eqn:K.
    - apply Ho. rewrite <- Eo. apply in_flat_map. exists c. now rewrite K.
    - apply Hn. rewrite <- En. apply in_flat_map. exists c. now rewrite K.
    - apply Ho. rewrite <- Eo. apply in_flat_map. exists c. now rewrite K. }
  rewrite <- Eo, <- En. clear -V. induction cs as [|c cs IH]; [split; reflexivity|]. cbn [flat_map].
  destruct IH as [I1 I2]; [intros x X; apply V; now right|]. unfold old_of, new_of in *. rewrite !marked_app, I1, I2.
  assert (Q : marked [" "; "-"]%char (split_on nl (comparison_string c)) = (match kind c with Add => [] | _ => values c end) /\
              marked [" "; "+"]%char (split_on nl (comparison_string c)) = (match kind c with Minus => [] | _ => values c end)).
  { destruct (values c) as [|v l] eqn:W.
    - unfold comparison_string. rewrite W. cbn. destruct (kind c); split; reflexivity.
    - rewrite <- W. rewrite shown_lines; [apply marked_all|rewrite W; discriminate|apply V; now left]. }
  destruct Q as [-> ->]. split; reflexivity.
Qed.
Print Assumptions C146_shown.
(* With a newline in a line this fails: two different diffs are shown alike. *)
Theorem C146_newlines_matter : forall k a b l, comparison_string {| kind := k; values := (a ++ nl :: symbols k ++ B " " ++ b) :: l |} =
  comparison_string {| kind := k; values := a :: b :: l |}.
Proof.
  intros k a b l. unfold comparison_string. cbn [kind values map join]. destruct l as [|x l].
  - cbn [map join]. rewrite <- !app_assoc. reflexivity.
  - cbn [map join]. rewrite <- !app_assoc. cbn [app]. rewrite <- !app_assoc. reflexivity.
Qed.
Print Assumptions C146_newlines_matter.
Example C146_nonvacuous : exists cs, diff demo_old [B "a"; B "- c"; B "c"; B "d"] = Some (Ok cs) /\
  map comparison_string cs = [B "  a"; B "- b"; B "+ - c"; B "  c" ++ [nl] ++ B "  d"; B "- e"].
Proof. eexists. split; vm_compute; reflexivity. Qed.
