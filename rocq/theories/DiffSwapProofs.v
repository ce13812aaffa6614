(* Proofs for C154: the two files exchanged. *)
From Verif Require Import GoBase GoFacts DiffModel DiffSpec DiffProofs DiffMoreSpec DiffMoreProofs DiffInsertProofs DiffRunSpec DiffFirstProofs.

Local Notation length := List.length.
Definition after_each (s : bytes) (l : list bytes) : list bytes := flat_map (fun w => [w; s]) l.
Definition before_each (t : bytes) (l : list bytes) : list bytes := flat_map (fun w => [t; w]) l.
Lemma after_cons : forall s w l, after_each s (w :: l) = w :: s :: after_each s l. Proof. reflexivity. Qed.
Lemma before_cons : forall s w l, before_each s (w :: l) = s :: w :: before_each s l. Proof. reflexivity. Qed.
Lemma after_in : forall s l x, In x (after_each s l) -> x = s \/ In x l.
Proof. intros s. induction l as [|w l IH]; intros x I; [destruct I|]. rewrite after_cons in I. cbn [In] in *. destruct I as [->|[->|I]]; auto. apply IH in I. tauto. Qed.
Lemma before_in : forall s l x, In x (before_each s l) -> x = s \/ In x l.
Proof. intros s. induction l as [|w l IH]; intros x I; [destruct I|]. rewrite before_cons in I. cbn [In] in *. destruct I as [->|[->|I]]; auto. apply IH in I. tauto. Qed.

Section Swap.
Variables s t y : bytes.
Hypotheses (St : s <> t) (Sy : s <> y) (Ty : t <> y).
Definition fresh (ws : list bytes) : Prop := ~ In s ws /\ ~ In t ws /\ ~ In y ws.
Lemma adj : forall ws o p q r, after_each s ws ++ [y] = o ++ p :: q :: r -> p = s \/ q = s.
Proof.
  induction ws as [|w ws IH]; intros o p q r E.
  - cbn [after_each flat_map app] in E. destruct o as [|? [|? ?]]; discriminate.
  - rewrite after_cons in E. destruct o as [|o1 [|o2 o]]; cbn [app] in E.
    + injection E as _ <- _. auto.
    + injection E as _ <- _. auto.
    + injection E as _ _ E. eauto.
Qed.
Lemma adj2 : forall ws o p q r, s :: after_each s ws ++ [y] = o ++ p :: q :: r -> p = s \/ q = s.
Proof. intros ws [|o1 o] p q r E; cbn [app] in E; [injection E as <- _; auto|]. injection E as _ E. eapply adj; eauto. Qed.
(* a common block has one line only if every two lines of one file include s and the other file has no s *)
Lemma one_line : forall (A B : list bytes) o1 run o2 n1 n2, (forall o p q r, A = o ++ p :: q :: r -> p = s \/ q = s) -> ~ In s B ->
  o1 ++ run ++ o2 = A -> n1 ++ run ++ n2 = B -> length run < 1 \/ exists p, run = [p] /\ In p A /\ In p B.
Proof.
  intros A B' o1 run o2 n1 n2 H N Ea Eb. destruct run as [|p [|q run]].
  - left. cbn. lia.
  - right. exists p. split; auto. rewrite <- Ea, <- Eb, !in_app_iff. cbn [In]. auto.
  - exfalso. apply N. rewrite <- Eb, !in_app_iff. symmetry in Ea. cbn [app] in Ea. destruct (H _ _ _ _ Ea) as [->| ->]; cbn [In]; auto.
Qed.
Lemma fwd_first : forall ws, fresh ws -> first_longest (after_each s ws) [] [y] [] (before_each t ws).
Proof.
  intros ws (F1&F2&F3). split; [discriminate|]. intros o1 n1 run o2 n2 Eo En. cbn [app] in En.
  destruct (one_line (after_each s ws ++ [y] ++ []) (y :: before_each t ws) o1 run o2 n1 n2) as [L|(p&->&_&_)]; auto.
  - intros o p q r E. rewrite app_nil_r in E. eapply adj; eauto.
  - intros [Q|Q]; [congruence|]. apply before_in in Q as [Q|Q]; congruence.
  - right. split; auto. destruct n1 as [|n n1]; [|left; cbn; lia]. right. split; auto.
    cbn [app] in En. injection En as -> _. rewrite app_nil_r in Eo.
    destruct (le_lt_dec (length (after_each s ws)) (length o1)) as [L|L]; auto. exfalso.
    assert (I : In y (after_each s ws)).
    { apply (f_equal (fun l => nth_error l (length o1))) in Eo. rewrite nth_error_app2, Nat.sub_diag in Eo by lia. cbn [nth_error app] in Eo.
      rewrite nth_error_app1 in Eo by lia. symmetry in Eo. now apply nth_error_In in Eo. }
    apply after_in in I as [I|I]; congruence.
Qed.
Lemma fwd_script : forall ws, ws <> [] -> fresh ws ->
  by_longest (after_each s ws ++ [y]) (y :: before_each t ws) [Remove (after_each s ws); Keep [y]; Put (before_each t ws)].
Proof.
  intros ws N F. pose proof (by_keep (after_each s ws) [] [y] [] (before_each t ws) [Remove (after_each s ws)] [Put (before_each t ws)] (fwd_first ws F)) as K.
  cbn [app] in K. destruct ws as [|w ws]; [congruence|]. apply K; constructor; discriminate.
Qed.
Lemma bwd_first1 : forall w ws, fresh (w :: ws) -> first_longest [y; t] [] [w] (before_each t ws) (s :: after_each s ws ++ [y]).
Proof.
  intros w ws (F1&F2&F3). split; [discriminate|]. intros o1 n1 run o2 n2 Eo En. cbn [In] in *.
  destruct (one_line ([] ++ [w] ++ s :: after_each s ws ++ [y]) ([y; t] ++ [w] ++ before_each t ws) n1 run n2 o1 o2) as [L|(p&->&_&_)]; auto.
  - intros o p q r E. apply (adj (w :: ws) o p q r). exact E.
  - cbn [app In]. intros [Q|[Q|[Q|Q]]]; try congruence; [subst; tauto|]. apply before_in in Q as [Q|Q]; [congruence|tauto].
  - right. split; auto. destruct n1 as [|n n1]; [|left; cbn; lia]. right. split; auto.
    cbn [app] in En. injection En as -> _. destruct o1 as [|a [|b o1]]; cbn [app length] in *; try lia.
    + injection Eo as -> _. tauto.
    + injection Eo as _ -> _. tauto.
Qed.
Lemma bwd_first2 : forall w ws, fresh (w :: ws) -> first_longest [t] [s] [w] (before_each t ws) (s :: after_each s ws ++ [y]).
Proof.
  intros w ws (F1&F2&F3). split; [discriminate|]. intros o1 n1 run o2 n2 Eo En. cbn [In] in *.
  assert (Ns : ~ In s ([t] ++ [w] ++ before_each t ws)).
  { cbn [app In]. intros [Q|[Q|Q]]; try congruence; [subst; tauto|]. apply before_in in Q as [Q|Q]; [congruence|tauto]. }
  destruct (one_line ([s] ++ [w] ++ s :: after_each s ws ++ [y]) ([t] ++ [w] ++ before_each t ws) n1 run n2 o1 o2) as [L|(p&->&_&Ip)]; auto.
  - intros o p q r E. apply (adj2 (w :: ws) o p q r). exact E.
  - right. split; auto. destruct n1 as [|n [|n' n1]]; [|right|left; cbn; lia].
    + cbn [app] in En. injection En as -> _. contradiction.
    + split; auto. cbn [app] in En. injection En as _ -> _. destruct o1 as [|a o1]; cbn [app length] in *; [|lia].
      injection Eo as -> _. tauto.
Qed.
Lemma bwd_script2 : forall ws, fresh ws -> exists ps, by_longest (before_each t ws) (s :: after_each s ws ++ [y]) ps /\
  taken ps = repeat t (length ws) /\ put_in ps = repeat s (S (length ws)) ++ [y] /\ kept ps = ws.
Proof.
  induction ws as [|w ws IH]; intros F.
  - exists [Put [s; y]]. split; [constructor; discriminate|auto].
  - destruct IH as (ps&T&Q1&Q2&Q3). { destruct F as (F1&F2&F3). unfold fresh. cbn [In] in *. tauto. }
    exists ([Remove [t]; Put [s]] ++ Keep [w] :: ps). split; [|split; [|split]].
    + apply (by_keep [t] [s] [w] (before_each t ws) (s :: after_each s ws ++ [y])); auto; [now apply bwd_first2|].
      apply by_change; try discriminate. intros l [<-|[]] [Q|[]]; congruence.
    + unfold taken in *. cbn [app flat_map]. now rewrite Q1.
    + unfold put_in in *. cbn [app flat_map]. now rewrite Q2.
    + unfold kept in *. cbn [app flat_map]. now rewrite Q3.
Qed.
Lemma bwd_script : forall ws, ws <> [] -> fresh ws -> exists ps, by_longest (y :: before_each t ws) (after_each s ws ++ [y]) ps /\
  taken ps = y :: repeat t (length ws) /\ put_in ps = repeat s (length ws) ++ [y] /\ kept ps = ws.
Proof.
  intros [|w ws] N F; [congruence|]. destruct (bwd_script2 ws) as (ps&T&Q1&Q2&Q3).
  { destruct F as (F1&F2&F3). unfold fresh. cbn [In] in *. tauto. }
  exists ([Remove [y; t]] ++ Keep [w] :: ps). split; [|split; [|split]].
  - apply (by_keep [y; t] [] [w] (before_each t ws) (s :: after_each s ws ++ [y])); auto; [now apply bwd_first1|].
    apply by_remove. discriminate.
  - unfold taken in *. cbn [app flat_map]. now rewrite Q1.
  - unfold put_in in *. cbn [app flat_map]. now rewrite Q2.
  - unfold kept in *. cbn [app flat_map]. now rewrite Q3.
Qed.
End Swap.

(* ---------- where there is no choice ---------- *)
Lemma only_first : forall o1 n1 run o2 n2, only_longest o1 n1 run o2 n2 -> first_longest o1 n1 run o2 n2 /\ first_longest n1 o1 run n2 o2.
Proof.
  intros o1 n1 run o2 n2 [N H]. split; (split; [exact N|]).
  - intros o1' n1' run' o2' n2' E1 E2. destruct (H o1' n1' run' o2' n2' E1 E2) as [L|(->&->&->)]; auto.
  - intros o1' n1' run' o2' n2' E1 E2. destruct (H n1' o1' run' n2' o2' E2 E1) as [L|(->&->&->)]; auto.
Qed.
Lemma taken_app : forall a b, taken (a ++ b) = taken a ++ taken b. Proof. intros. apply flat_map_app. Qed.
Lemma put_app : forall a b, put_in (a ++ b) = put_in a ++ put_in b. Proof. intros. apply flat_map_app. Qed.
Lemma kept_app : forall a b, kept (a ++ b) = kept a ++ kept b. Proof. intros. apply flat_map_app. Qed.
Lemma no_choice_swap : forall old new, no_choice old new -> exists ps ps', by_longest old new ps /\ by_longest new old ps' /\
  taken ps' = put_in ps /\ put_in ps' = taken ps /\ kept ps' = kept ps.
Proof.
  induction 1 as [new|old|old new D|o1 n1 run o2 n2 F H1 IH1 H2 IH2].
  - destruct new as [|l new]; [exists [], []|exists [Put (l :: new)], [Remove (l :: new)]]; repeat split; constructor; discriminate.
  - destruct old as [|l old]; [exists [], []|exists [Remove (l :: old)], [Put (l :: old)]]; repeat split; constructor; discriminate.
  - destruct old as [|l old]; [|destruct new as [|m new]].
    + destruct new as [|l new]; [exists [], []|exists [Put (l :: new)], [Remove (l :: new)]]; repeat split; constructor; discriminate.
    + exists [Remove (l :: old)], [Put (l :: old)]; repeat split; constructor; discriminate.
    + exists [Remove (l :: old); Put (m :: new)], [Remove (m :: new); Put (l :: old)]. repeat split.
      * apply by_change; try discriminate. exact D.
      * apply by_change; try discriminate. intros x I J. now apply (D x).
  - destruct IH1 as (p1&p1'&T1&T1'&A1&A2&A3), IH2 as (p2&p2'&T2&T2'&A4&A5&A6). destruct (only_first _ _ _ _ _ F) as [F1 F2].
    exists (p1 ++ Keep run :: p2), (p1' ++ Keep run :: p2'). split; [now apply by_keep|]. split; [now apply by_keep|].
    rewrite !taken_app, !put_app, !kept_app. unfold taken, put_in, kept in *. cbn [flat_map].
    rewrite A1, A2, A3, A4, A5, A6. auto.
Qed.

(* ---------- common lines once and in the same order ---------- *)
Lemma filter_all : forall (f : bytes -> bool) l, (forall x, In x l -> f x = true) -> filter f l = l.
Proof. induction l as [|x l IH]; intros H; auto. cbn [filter]. rewrite (H x (or_introl eq_refl)). f_equal. apply IH. intros z I. apply H. now right. Qed.
Lemma minus_eq : forall (f : bytes -> bool) cs, (forall l, In l (assemble_new cs) -> f l = false) -> (forall l, In l (minus_of cs) -> f l = true) ->
  minus_of cs = filter f (assemble_old cs).
Proof.
  induction cs as [|c cs IH]; intros H1 H2; [reflexivity|]. unfold assemble_old, assemble_new, minus_of in *. cbn [flat_map] in *.
  rewrite filter_app, IH; [|intros l I; apply H1, in_or_app; now right|intros l I; apply H2, in_or_app; now right]. f_equal.
  destruct (kind c).
  - symmetry. apply filter_none. intros x I. apply H1, in_or_app. now left.
  - reflexivity.
  - symmetry. apply filter_all. intros x I. apply H2, in_or_app. now left.
Qed.
Lemma add_eq : forall (f : bytes -> bool) cs, (forall l, In l (assemble_old cs) -> f l = false) -> (forall l, In l (add_of cs) -> f l = true) ->
  add_of cs = filter f (assemble_new cs).
Proof.
  induction cs as [|c cs IH]; intros H1 H2; [reflexivity|]. unfold assemble_old, assemble_new, add_of in *. cbn [flat_map] in *.
  rewrite filter_app, IH; [|intros l I; apply H1, in_or_app; now right|intros l I; apply H2, in_or_app; now right]. f_equal.
  destruct (kind c).
  - symmetry. apply filter_none. intros x I. apply H1, in_or_app. now left.
  - symmetry. apply filter_all. intros x I. apply H2, in_or_app. now left.
  - reflexivity.
Qed.
Definition absent (b : list bytes) (l : bytes) : bool := if in_dec (list_eq_dec ascii_dec) l b then false else true.
Lemma ordered_lines : forall old new cs, diff_tree old new cs -> NoDup (common old new) -> common old new = common new old ->
  minus_of cs = filter (absent new) old /\ add_of cs = filter (absent old) new.
Proof.
  intros old new cs T N C. destruct (tree_keeps _ _ _ T N C) as [D1 D2]. destruct (diff_tree_assemble _ _ _ T) as [A1 A2].
  split.
  - rewrite <- A1. apply minus_eq; unfold absent; intros l I.
    + rewrite A2 in I. destruct (in_dec (list_eq_dec ascii_dec) l new); tauto.
    + apply D1 in I. destruct (in_dec (list_eq_dec ascii_dec) l new); tauto.
  - rewrite <- A2. apply add_eq; unfold absent; intros l I.
    + rewrite A1 in I. destruct (in_dec (list_eq_dec ascii_dec) l old); tauto.
    + apply D2 in I. destruct (in_dec (list_eq_dec ascii_dec) l old); tauto.
Qed.
Lemma printed_pieces : forall old new cs hs, (forall l, In l old -> ~ In nl l) -> (forall l, In l new -> ~ In nl l) ->
  diff old new = Some (Ok cs) -> read_diff (format cs) = Some hs ->
  by_longest old new (map piece_of cs) /\ removed_lines hs = taken (map piece_of cs) /\ added_lines hs = put_in (map piece_of cs).
Proof.
  intros old new cs hs Ho Hn E R. destruct (printed_changes old new cs hs Ho Hn E R) as (_&->&->).
  rewrite minus_taken, add_put. split; auto. now apply diff_by_longest.
Qed.
