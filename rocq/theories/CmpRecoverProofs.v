(* Proofs for C160. *)
From Verif Require Import GoBase GoFacts CmpModel CmpSpec CmpProofs.

Lemma first_sep : forall (c : ascii) a b x y, ~ In c a -> ~ In c b -> a ++ c :: x = b ++ c :: y -> a = b /\ x = y.
Proof.
  intros c. induction a as [|u a IH]; intros [|v b] x y Na Nb E; cbn [app] in E.
  - split; [reflexivity|congruence].
  - exfalso. apply Nb. left. congruence.
  - exfalso. apply Na. left. congruence.
  - injection E as E1 E2. subst v. destruct (IH b x y) as [-> ->]; auto; intros I; [apply Na|apply Nb]; now right.
Qed.

Definition line (p : nat * (ascii * ascii)) : bytes :=
  ntoa (fst p) ++ B " " ++ octal (fst (snd p)) ++ B " " ++ octal (snd (snd p)) ++ [nl].

Lemma octal_plain : forall c, ~ In " "%char (octal c) /\ ~ In nl (octal c).
Proof. intros [[] [] [] [] [] [] [] []]; vm_compute; split; intuition discriminate. Qed.

Lemma octal_inj : forall c d, octal c = octal d -> c = d.
Proof.
  intros c d E. destruct (octal_ok c) as [Hc _], (octal_ok d) as [Hd _]. rewrite E, Hd in Hc.
  rewrite <- (ascii_N_embedding c), <- (ascii_N_embedding d). now rewrite Hc.
Qed.

Lemma ntoa_plain : forall n, ~ In " "%char (ntoa n).
Proof. intros n I. apply ntoa_digits in I. destruct I as [d I]. discriminate I. Qed.

Lemma line_inj : forall p q x y, line p ++ x = line q ++ y -> p = q /\ x = y.
Proof.
  intros [i [a b]] [j [c d]] x y E. unfold line in E. cbn [fst snd] in E. rewrite <- !app_assoc in E.
  apply (first_sep " "%char) in E as [E1 E]; [|apply ntoa_plain|apply ntoa_plain].
  apply (first_sep " "%char) in E as [E2 E]; [|apply octal_plain|apply octal_plain].
  apply (first_sep nl) in E as [E3 E]; [|apply octal_plain|apply octal_plain].
  apply ntoa_inj in E1. apply octal_inj in E2. apply octal_inj in E3. subst. auto.
Qed.

Lemma lines_inj : forall l l', flat_map line l = flat_map line l' -> l = l'.
Proof.
  assert (N : forall p x, line p ++ x <> []).
  { intros [i [a b]] x E. unfold line in E. apply app_eq_nil in E as [E _]. apply app_eq_nil in E as [_ E]. discriminate. }
  induction l as [|p l IH]; intros [|q l'] E; cbn [flat_map] in E; auto.
  - exfalso. exact (N _ _ (eq_sym E)).
  - exfalso. exact (N _ _ E).
  - apply line_inj in E as [-> E]. f_equal. auto.
Qed.

Lemma recovered : forall w w' f1 f2 args c c2 c2', operands args = [f1; f2] -> f1 <> [] -> f2 <> [] ->
  In (B "-l") args -> ~ In (B "-s") args -> sees w f1 f2 (c, None) (c2, None) -> sees w' f1 f2 (c, None) (c2', None) ->
  out (cmp_main w args) = out (cmp_main w' args) ->
  forall k z x y, nth_error c k = Some z -> nth_error c2 k = Some x -> nth_error c2' k = Some y -> x = y.
Proof.
  intros w w' f1 f2 args c c2 c2' E N1 N2 Hl Hs H H' Q k z x y Hz Hx Hy.
  destruct (cmp_l w f1 f2 args c c2 E N1 N2 Hl Hs H) as [A _], (cmp_l w' f1 f2 args c c2' E N1 N2 Hl Hs H') as [A' _].
  rewrite A, A' in Q. apply lines_inj in Q.
  destruct (ascii_dec z x) as [->|Nx].
  - destruct (ascii_dec x y) as [|Ny]; auto.
    assert (I : In (S k, (x, y)) (differences c c2')) by (apply differences_spec; exists k; auto).
    rewrite <- Q in I. apply differences_spec in I as (k'&Ek&_&Hk&_). injection Ek as <-. congruence.
  - assert (I : In (S k, (z, x)) (differences c c2)) by (apply differences_spec; exists k; auto).
    rewrite Q in I. apply differences_spec in I as (k'&Ek&_&Hk&_). injection Ek as <-. congruence.
Qed.

Lemma same_length_eq : forall (c2 c2' : bytes), length c2 = length c2' ->
  (forall k x y, nth_error c2 k = Some x -> nth_error c2' k = Some y -> x = y) -> c2 = c2'.
Proof.
  induction c2 as [|a c2 IH]; intros [|b c2'] L H; try discriminate; auto. f_equal.
  - apply (H 0); reflexivity.
  - apply IH; [now injection L|]. intros k x y. apply (H (S k)).
Qed.

(* two stretches of equal length are passed with the same output, whatever follows *)
Lemma stretch : forall s p p' i l o, writeAll s = true -> length p = length p' ->
  exists i' l' o', forall t t', cmp_loop s (p ++ t) (p' ++ t') None None i l o = cmp_loop s t t' None None i' l' o'.
Proof.
  intros s. induction p as [|a p IH]; intros [|b p'] i l o W L; try discriminate.
  - exists i, l, o. reflexivity.
  - cbn [app cmp_loop]. rewrite W. injection L as L.
    destruct (Ascii.eqb a b); apply (IH p'); auto.
Qed.

Lemma cut_short : forall s p p' q x r i l o, writeAll s = true -> length p = length p' ->
  cmp_loop s (p ++ q ++ x :: r) (p' ++ q) None None i l o = cmp_loop s (p ++ q ++ x :: r) p' None None i l o.
Proof.
  intros s p p' q x r i l o W L. destruct (stretch s p p' i l o W L) as (i'&l'&o'&H).
  rewrite H. rewrite <- (app_nil_r p') at 1. rewrite H.
  replace q with (q ++ []) at 2 by apply app_nil_r. rewrite cmp_loop_prefix. cbn [cmp_loop].
  destruct q; reflexivity.
Qed.

Lemma cut_long : forall s p p' x r y t i l o, writeAll s = true -> length p = length p' ->
  cmp_loop s p (p' ++ x :: r) None None i l o = cmp_loop s p (p' ++ y :: t) None None i l o.
Proof.
  intros s p p' x r y t i l o W L. destruct (stretch s p p' i l o W L) as (i'&l'&o'&H).
  rewrite <- (app_nil_r p). rewrite !H. reflexivity.
Qed.
