From Verif Require Import GoBase GoFacts DiffModel DiffSpec DiffProofs DiffPatchProofs.

Section Args.
Variable ae : bytes -> bytes.

(* effect of one item on the settings; None = rejected *)
Definition apply_item (s : settings) (i : item) : option settings :=
  match i with
  | IFlag c =>
      Some (if Ascii.eqb c "b" then set_b s else if Ascii.eqb c "c" then set_c s
            else if Ascii.eqb c "e" then set_e s else if Ascii.eqb c "f" then set_f s
            else if Ascii.eqb c "r" then set_r s else set_u s)
  | IContext x => Some (set_C s (atoi_value x))
  | IUnified x => match atoi x with Some n => Some (set_U s n) | None => None end
  | IOperand x =>
      match file1 s, file2 s with
      | [], _ => Some (set_file1 s x)
      | _, [] => Some (set_file2 s x)
      | _, _ => None
      end
  end.

Lemma not_option_words : forall x, ~ In x option_words ->
  beqb x (B "-b") = false /\ beqb x (B "-c") = false /\ beqb x (B "-C") = false /\
  beqb x (B "-e") = false /\ beqb x (B "-f") = false /\ beqb x (B "-r") = false /\
  beqb x (B "-u") = false /\ beqb x (B "-U") = false.
Proof.
  intros x H. repeat split; apply beqb_neq; intros ->; apply H; simpl; tauto.
Qed.

Lemma parse_item : forall s i rest, item_ok i ->
  match apply_item s i with
  | Some s' => parse_loop ae s (item_words i ++ rest) = parse_loop ae s' rest
  | None => exists m, parse_loop ae s (item_words i ++ rest) = Err m
  end.
Proof.
  intros s i rest H. destruct i as [c|x|x|x]; simpl in H.
  - destruct H as [<-|[<-|[<-|[<-|[<-|[<-|[]]]]]]]; reflexivity.
  - reflexivity.
  - destruct H as [n Hn]. simpl. now rewrite Hn.
  - apply not_option_words in H as (E1&E2&E3&E4&E5&E6&E7&E8).
    cbn [apply_item item_words app parse_loop]. rewrite E1, E2, E3, E4, E5, E6, E7, E8.
    destruct (file1 s) as [|a f1] eqn:F1; cbn [beqb]; auto.
    destruct (file2 s) as [|b f2] eqn:F2; cbn [beqb]; eauto.
Qed.

Fixpoint apply_items (s : settings) (is : list item) : option settings :=
  match is with
  | [] => Some s
  | i :: r => match apply_item s i with Some s' => apply_items s' r | None => None end
  end.

Lemma parse_items : forall is s rest, Forall item_ok is ->
  match apply_items s is with
  | Some s' => parse_loop ae s (flat_map item_words is ++ rest) = parse_loop ae s' rest
  | None => exists m, parse_loop ae s (flat_map item_words is ++ rest) = Err m
  end.
Proof.
  induction is as [|i is IH]; intros s rest H; simpl; auto.
  inversion H; subst. pose proof (parse_item s i (flat_map item_words is ++ rest) H2) as P.
  rewrite <- app_assoc. destruct (apply_item s i) as [s'|].
  - rewrite P. now apply IH.
  - auto.
Qed.

(* every argument list that the loop accepts is a list of items *)
Lemma parse_loop_items : forall m args s s', length args <= m -> parse_loop ae s args = Ok s' ->
  exists is, args = flat_map item_words is /\ Forall item_ok is /\ apply_items s is = Some s'.
Proof.
  induction m as [|m IH]; intros args s s' Hm H.
  { destruct args; [|simpl in Hm; lia]. simpl in H. inversion H; subst. exists []. auto. }
  destruct args as [|a r]. { simpl in H. inversion H; subst. exists []. auto. }
  simpl in Hm.
  assert (FL : forall c s1, In c ["b"; "c"; "e"; "f"; "r"; "u"]%char -> a = ["-"%char; c] ->
     apply_item s (IFlag c) = Some s1 -> parse_loop ae s1 r = Ok s' ->
     exists is, a :: r = flat_map item_words is /\ Forall item_ok is /\ apply_items s is = Some s').
  { intros c s1 Hc -> E1 E2. destruct (IH r s1 s') as (is&->&F&A); auto; [lia|].
    exists (IFlag c :: is). split; [reflexivity|]. split; [constructor; auto|].
    cbn [apply_items]. now rewrite E1. }
  cbn [parse_loop] in H.
  destruct (beqb a (B "-b")) eqn:E1; [apply beqb_eq in E1; eapply (FL "b"%char); simpl; eauto|].
  destruct (beqb a (B "-c")) eqn:E2; [apply beqb_eq in E2; eapply (FL "c"%char); simpl; eauto|].
  destruct (beqb a (B "-C")) eqn:E3.
  { apply beqb_eq in E3. subst a. destruct r as [|x r']; [discriminate|].
    simpl in Hm. apply IH in H; [|lia]; destruct H as (is&->&F&A).
    exists (IContext x :: is). split; [reflexivity|]. split; [constructor; simpl; auto|]. exact A. }
  destruct (beqb a (B "-e")) eqn:E4; [apply beqb_eq in E4; eapply (FL "e"%char); simpl; eauto 8|].
  destruct (beqb a (B "-f")) eqn:E5; [apply beqb_eq in E5; eapply (FL "f"%char); simpl; eauto 8|].
  destruct (beqb a (B "-r")) eqn:E6; [apply beqb_eq in E6; eapply (FL "r"%char); simpl; eauto 10|].
  destruct (beqb a (B "-u")) eqn:E7; [apply beqb_eq in E7; eapply (FL "u"%char); simpl; eauto 10|].
  destruct (beqb a (B "-U")) eqn:E8.
  { apply beqb_eq in E8. subst a. destruct r as [|x r']; [discriminate|].
    destruct (atoi x) as [n|] eqn:En; [|discriminate].
    simpl in Hm. apply IH in H; [|lia]; destruct H as (is&->&F&A).
    exists (IUnified x :: is). split; [reflexivity|]. split; [constructor; simpl; eauto|].
    cbn [apply_items apply_item]. now rewrite En. }
  assert (OK : item_ok (IOperand a)).
  { cbn [item_ok]. apply beqb_neq in E1, E2, E3, E4, E5, E6, E7, E8. intros Hin. unfold option_words in Hin. cbn [map In] in Hin.
    repeat (destruct Hin as [Hin|Hin]; [congruence|]). contradiction. }
  destruct (beqb (file1 s) []) eqn:F1.
  { apply beqb_eq in F1. apply IH in H; [|lia]; destruct H as (is&->&F&A).
    exists (IOperand a :: is). split; [reflexivity|]. split; [constructor; auto|].
    cbn [apply_items apply_item]. now rewrite F1. }
  destruct (beqb (file2 s) []) eqn:F2; [|discriminate].
  apply beqb_eq in F2. apply beqb_neq in F1. apply IH in H; [|lia]; destruct H as (is&->&F&A).
  exists (IOperand a :: is). split; [reflexivity|]. split; [constructor; auto|].
  cbn [apply_items apply_item]. rewrite F2. destruct (file1 s); [congruence|auto].
Qed.

(* files after a list of items *)
Fixpoint files_after (f1 f2 : bytes) (ops : list bytes) : option (bytes * bytes) :=
  match ops with
  | [] => Some (f1, f2)
  | x :: r => match f1, f2 with
              | [], _ => files_after x f2 r
              | _, [] => files_after f1 x r
              | _, _ => None
              end
  end.

Lemma item_keeps_files : forall s i s', apply_item s i = Some s' ->
  match i with IOperand _ => True | _ => file1 s' = file1 s /\ file2 s' = file2 s end.
Proof.
  intros s i s' H. destruct i as [c|x|x|x]; cbn [apply_item] in H; auto.
  - inversion H; subst.
    repeat match goal with |- context [if ?b then _ else _] => destruct b end; auto.
  - inversion H; subst. auto.
  - destruct (atoi x); inversion H; subst; auto.
Qed.

Lemma apply_items_files : forall is s, Forall item_ok is ->
  option_map (fun s' => (file1 s', file2 s')) (apply_items s is)
   = files_after (file1 s) (file2 s) (operands is).
Proof.
  induction is as [|i is IH]; intros s H; auto. inversion H; subst.
  cbn [apply_items]. unfold operands in *. cbn [flat_map].
  destruct i as [c|x|x|x].
  - cbn [apply_item]. rewrite IH by auto. cbn [app].
    repeat match goal with |- context [if ?b then _ else _] => destruct b end; auto.
  - cbn [apply_item]. rewrite IH by auto. reflexivity.
  - cbn [apply_item]. destruct H2 as [n ->]. rewrite IH by auto. reflexivity.
  - cbn [apply_item app files_after].
    destruct (file1 s) as [|a f1] eqn:F1.
    + rewrite IH by auto. reflexivity.
    + destruct (file2 s) as [|b f2] eqn:F2; [|reflexivity].
      rewrite IH by auto. cbn [set_file2 file1 file2]. now rewrite F1.
Qed.

Lemma files_after_two : forall ops f1 f2, f1 <> [] -> f2 <> [] ->
  (files_after [] [] ops = Some (f1, f2) <-> two_files ops f1 f2).
Proof.
  assert (H2 : forall ops g f1 f2, f1 <> [] -> f2 <> [] -> g <> [] ->
     files_after g [] ops = Some (f1, f2) <-> g = f1 /\ exists k, ops = repeat [] k ++ [f2]).
  { induction ops as [|x r IH]; intros g f1 f2 H1 H2 Hg; simpl.
    - split; [intros E; destruct g; congruence|]. intros (_&k&E). destruct k; discriminate.
    - destruct g as [|g0 g]; [congruence|]. destruct x as [|x0 x].
      + rewrite IH by auto. split; intros (E&k&Ek); split; auto.
        * exists (S k). simpl. now rewrite Ek.
        * destruct k as [|k]; simpl in Ek; [congruence|]. exists k. now inversion Ek.
      + destruct r as [|y r].
        * simpl. split; [intros E; inversion E; subst; split; auto; exists 0; auto|].
          intros (E&k&Ek). destruct k as [|k]; simpl in Ek; inversion Ek; subst; auto.
        * simpl. split; [congruence|]. intros (E&k&Ek). destruct k; simpl in Ek; inversion Ek. }
  induction ops as [|x r IH]; intros f1 f2 H1 H3; simpl.
  - split; [congruence|]. intros (_&_&j&k&E). destruct j; discriminate.
  - destruct x as [|x0 x].
    + rewrite IH by auto. unfold two_files. split; intros (_&_&j&k&E); (split; [auto|split; [auto|]]).
      * exists (S j), k. simpl. now rewrite E.
      * destruct j as [|j]; simpl in E; [congruence|]. exists j, k. now inversion E.
    + rewrite H2 by (auto; discriminate). unfold two_files. split.
      * intros (<-&k&->). split; [auto|split; [auto|]]. exists 0, k. reflexivity.
      * intros (_&_&j&k&E). destruct j as [|j]; simpl in E; [|congruence]. inversion E; subst. split; eauto.
Qed.

(* flags after a list of items *)
Lemma apply_items_flags : forall is s s', Forall item_ok is -> apply_items s is = Some s' ->
  ignore_ws s' = (ignore_ws s || flag_given "b" is) /\
  provide_context s' = (provide_context s || (flag_given "c" is || context_given is)) /\
  ed_format s' = (ed_format s || flag_given "e" is) /\
  f_format s' = (f_format s || flag_given "f" is) /\
  recursive s' = (recursive s || flag_given "r" is) /\
  unified s' = (unified s || (flag_given "u" is || unified_given is)).
Proof.
  induction is as [|i is IH]; intros s s' Hok H; cbn [apply_items] in H.
  - inversion H; subst. simpl. now rewrite !orb_false_r.
  - inversion Hok; subst.
    destruct (apply_item s i) as [s1|] eqn:E; [|discriminate].
    destruct (IH s1 s') as (A1&A2&A3&A4&A5&A6); auto.
    rewrite A1, A2, A3, A4, A5, A6. clear A1 A2 A3 A4 A5 A6 IH H.
    unfold flag_given, context_given, unified_given. cbn [existsb].
    set (fb := existsb _ is). 
    destruct i as [c|x|x|x]; cbn [apply_item] in E.
    + simpl in H2. destruct H2 as [<-|[<-|[<-|[<-|[<-|[<-|[]]]]]]]; simpl in E; inversion E; subst; simpl;
        rewrite ?orb_true_r, ?orb_false_r; auto 10.
    + inversion E; subst. simpl. rewrite ?orb_true_r; auto 10.
    + destruct (atoi x); inversion E; subst. simpl. rewrite ?orb_true_r; auto 10.
    + destruct (file1 s); [inversion E; subst; simpl; auto 10|].
      destruct (file2 s); [inversion E; subst; simpl; auto 10|discriminate].
Qed.

Lemma apply_items_app : forall a b s, apply_items s (a ++ b) =
  match apply_items s a with Some s' => apply_items s' b | None => None end.
Proof.
  induction a as [|i a IH]; intros b s; simpl; auto. destruct (apply_item s i); auto.
Qed.

Lemma apply_items_size : forall is s s', apply_items s is = Some s' ->
  forallb (fun i => negb (sets_size i)) is = true -> context_size s' = context_size s.
Proof.
  induction is as [|i is IH]; intros s s' H Hs; cbn [apply_items] in H.
  - now inversion H.
  - destruct (apply_item s i) as [s1|] eqn:E; [|discriminate]. cbn [forallb] in Hs.
    apply andb_true_iff in Hs as [H1 H2]. rewrite (IH _ _ H H2).
    destruct i as [c|x|x|x]; cbn [apply_item sets_size negb] in *; try discriminate.
    + inversion E; subst. repeat match goal with |- context [if ?b then _ else _] => destruct b end; auto.
    + destruct (file1 s); [inversion E; subst; auto|]. destruct (file2 s); inversion E; subst; auto.
Qed.

Lemma parse_accepts : forall is f1 f2, Forall item_ok is -> two_files (operands is) f1 f2 ->
  exists s, parse_settings ae (flat_map item_words is) = Ok s /\
    apply_items default_settings is = Some s /\ file1 s = f1 /\ file2 s = f2.
Proof.
  intros is f1 f2 Hok Ht. pose proof Ht as (N1&N2&_).
  apply files_after_two in Ht; auto.
  pose proof (apply_items_files is default_settings Hok) as F. simpl in F. rewrite Ht in F.
  destruct (apply_items default_settings is) as [s|] eqn:E; [|discriminate].
  simpl in F. inversion F; subst. exists s. split; auto.
  pose proof (parse_items is default_settings [] Hok) as P. rewrite E, app_nil_r in P.
  unfold parse_settings. rewrite P. simpl.
  destruct (beqb (file1 s) []) eqn:E1; [apply beqb_eq in E1; congruence|].
  destruct (beqb (file2 s) []) eqn:E2; [apply beqb_eq in E2; congruence|]. auto.
Qed.

Lemma parse_accepts_full : forall is f1 f2, Forall item_ok is -> two_files (operands is) f1 f2 ->
  exists s, parse_settings ae (flat_map item_words is) = Ok s /\
    file1 s = f1 /\ file2 s = f2 /\
    ignore_ws s = flag_given "b" is /\
    provide_context s = (flag_given "c" is || context_given is) /\
    ed_format s = flag_given "e" is /\ f_format s = flag_given "f" is /\
    recursive s = flag_given "r" is /\
    unified s = (flag_given "u" is || unified_given is).
Proof.
  intros is f1 f2 Hok Ht. destruct (parse_accepts is f1 f2 Hok Ht) as (s&P&A&F1&F2).
  exists s. split; auto. split; auto. split; auto.
  apply (apply_items_flags is default_settings s Hok A).
Qed.

Lemma parse_context_size : forall is1 i is2 x n s, Forall item_ok (is1 ++ i :: is2) ->
  i = IContext x \/ i = IUnified x -> atoi x = Some n ->
  forallb (fun i => negb (sets_size i)) is2 = true ->
  parse_settings ae (flat_map item_words (is1 ++ i :: is2)) = Ok s -> context_size s = n.
Proof.
  intros is1 i is2 x n s Hok Hi Hx H2 P.
  pose proof (parse_items (is1 ++ i :: is2) default_settings [] Hok) as Q. rewrite app_nil_r in Q.
  unfold parse_settings in P.
  destruct (apply_items default_settings (is1 ++ i :: is2)) as [s'|] eqn:E.
  - rewrite Q in P. simpl in P. destruct (beqb (file1 s') []); [discriminate|].
    destruct (beqb (file2 s') []); [discriminate|]. inversion P; subst s'.
    rewrite apply_items_app in E. destruct (apply_items default_settings is1) as [s1|]; [|discriminate].
    cbn [apply_items] in E. destruct (apply_item s1 i) as [s2|] eqn:E2; [|discriminate].
    rewrite (apply_items_size is2 s2 s); auto.
    destruct Hi as [->| ->]; cbn [apply_item] in E2.
    + inversion E2; subst. simpl. unfold atoi in Hx. unfold atoi_value.
      destruct (parse_dec x); [|discriminate]. destruct (in_int64 z) eqn:Ez; inversion Hx; subst.
      unfold in_int64 in Ez. lia.
    + rewrite Hx in E2. inversion E2; subst. reflexivity.
  - destruct Q as [m Q]. rewrite Q in P. discriminate.
Qed.

Lemma parse_default_size : forall is s, Forall item_ok is ->
  forallb (fun i => negb (sets_size i)) is = true ->
  parse_settings ae (flat_map item_words is) = Ok s -> context_size s = 3%Z.
Proof.
  intros is s Hok H2 P.
  pose proof (parse_items is default_settings [] Hok) as Q. rewrite app_nil_r in Q.
  unfold parse_settings in P.
  destruct (apply_items default_settings is) as [s'|] eqn:E.
  - rewrite Q in P. simpl in P. destruct (beqb (file1 s') []); [discriminate|].
    destruct (beqb (file2 s') []); [discriminate|]. inversion P; subst s'.
    now rewrite (apply_items_size is default_settings s E H2).
  - destruct Q as [m Q]. rewrite Q in P. discriminate.
Qed.

Lemma parse_only : forall args s, parse_settings ae args = Ok s ->
  exists is, args = flat_map item_words is /\ Forall item_ok is /\
    two_files (operands is) (file1 s) (file2 s).
Proof.
  intros args s H. unfold parse_settings in H.
  destruct (parse_loop ae default_settings args) as [s'| |] eqn:E; try discriminate.
  destruct (beqb (file1 s') []) eqn:F1; [discriminate|].
  destruct (beqb (file2 s') []) eqn:F2; [discriminate|]. inversion H; subst s'.
  apply beqb_neq in F1, F2.
  destruct (parse_loop_items (length args) args default_settings s (le_n _) E) as (is&->&Hok&A).
  exists is. split; auto. split; auto. apply files_after_two; auto.
  pose proof (apply_items_files is default_settings Hok) as F. rewrite A in F. simpl in F. auto.
Qed.

Lemma parse_never_panics : forall args, parse_settings ae args <> Panic.
Proof.
  assert (P : forall m args s, length args <= m -> parse_loop ae s args <> Panic).
  { induction m as [|m IH]; intros args s Hm.
    { destruct args; [discriminate|simpl in Hm; lia]. }
    destruct args as [|a r]; [discriminate|]. simpl in Hm. cbn [parse_loop].
    repeat match goal with
    | |- context [if ?b then _ else _] => destruct b
    | |- context [match r with _ => _ end] => destruct r; simpl in Hm
    | |- context [match atoi ?x with _ => _ end] => destruct (atoi x)
    end; try discriminate; apply IH; lia. }
  intros args H. unfold parse_settings in H. specialize (P _ args default_settings (le_n _)).
  destruct (parse_loop ae default_settings args); try congruence.
  destruct (beqb (file1 a) []); [discriminate|]. destruct (beqb (file2 a) []); discriminate.
Qed.

Lemma parse_context_size_any : forall is1 is2 x s, Forall item_ok (is1 ++ IContext x :: is2) ->
  forallb (fun i => negb (sets_size i)) is2 = true ->
  parse_settings ae (flat_map item_words (is1 ++ IContext x :: is2)) = Ok s -> context_size s = atoi_value x.
Proof.
  intros is1 is2 x s Hok H2 P.
  pose proof (parse_items (is1 ++ IContext x :: is2) default_settings [] Hok) as Q. rewrite app_nil_r in Q.
  unfold parse_settings in P.
  destruct (apply_items default_settings (is1 ++ IContext x :: is2)) as [s'|] eqn:E.
  - rewrite Q in P. simpl in P. destruct (beqb (file1 s') []); [discriminate|].
    destruct (beqb (file2 s') []); [discriminate|]. inversion P; subst s'.
    rewrite apply_items_app in E. destruct (apply_items default_settings is1) as [s1|]; [|discriminate].
    cbn [apply_items apply_item] in E. rewrite (apply_items_size is2 _ s E); auto.
  - destruct Q as [m Q]. rewrite Q in P. discriminate.
Qed.

Lemma parse_context_not_an_int : forall is1 is2 x s, Forall item_ok (is1 ++ IContext x :: is2) ->
  forallb (fun i => negb (sets_size i)) is2 = true ->
  parse_settings ae (flat_map item_words (is1 ++ IContext x :: is2)) = Ok s ->
  (parse_dec x = None -> context_size s = 0%Z) /\
  (forall z, parse_dec x = Some z -> (max_int64 < z)%Z -> context_size s = max_int64) /\
  (forall z, parse_dec x = Some z -> (z < min_int64)%Z -> context_size s = min_int64).
Proof.
  intros is1 is2 x s Hok H2 P. rewrite (parse_context_size_any is1 is2 x s Hok H2 P). unfold atoi_value.
  split; [intros ->; auto|]. split; intros z -> Hz; unfold max_int64, min_int64 in *; lia.
Qed.

(* what the files are after a list of operands *)
Lemma all_empty_after : forall ops f2, files_after [] f2 ops = Some ([], f2) <-> no_file ops.
Proof.
  assert (K : forall ops f1 f2 g2, f1 <> [] -> files_after f1 f2 ops = Some ([], g2) -> False).
  { induction ops as [|x r IH]; intros f1 f2 g2 N H; simpl in H; [congruence|].
    destruct f1; [congruence|]. destruct f2; [|discriminate]. eapply IH in H; auto. }
  induction ops as [|x r IH]; intros f2; simpl.
  - split; [exists 0; reflexivity|auto].
  - destruct x as [|x0 x].
    + rewrite IH. split; intros [j E].
      * exists (S j). simpl. now rewrite E.
      * destruct j as [|j]; simpl in E; [discriminate|]. exists j. congruence.
    + split; [intros H; exfalso; eapply K in H; auto; discriminate|].
      intros [j E]. destruct j; discriminate.
Qed.

Lemma one_after_1 : forall ops g f, g <> [] ->
  (files_after g [] ops = Some (f, []) <-> g = f /\ no_file ops).
Proof.
  induction ops as [|x r IH]; intros g f N; simpl.
  - split; [intros E; inversion E; split; auto; exists 0; reflexivity|]. intros [-> _]. auto.
  - destruct g as [|g0 g]; [congruence|]. destruct x as [|x0 x].
    + rewrite IH by auto. split; intros [E [j Ej]]; split; auto.
      * exists (S j). simpl. now rewrite Ej.
      * destruct j as [|j]; simpl in Ej; [discriminate|]. exists j. congruence.
    + split; [|intros [_ [j Ej]]; destruct j; discriminate].
      destruct r; simpl; [intros E; inversion E|discriminate].
Qed.

Lemma one_after : forall ops,
  (exists f, f <> [] /\ files_after [] [] ops = Some (f, [])) <-> one_file ops.
Proof.
  induction ops as [|x r IH]; simpl.
  - split; [intros (f&N&E); congruence|]. intros (j&k&f&_&E). destruct j; discriminate.
  - destruct x as [|x0 x].
    + rewrite IH. split; intros (j&k&f&N&E).
      * exists (S j), k, f. split; auto. simpl. now rewrite E.
      * destruct j as [|j]; simpl in E; [congruence|]. exists j, k, f. split; auto. congruence.
    + split.
      * intros (f&N&E). apply one_after_1 in E; [|discriminate]. destruct E as [<- [k ->]].
        exists 0, k, (x0 :: x). split; auto.
      * intros (j&k&f&N&E). destruct j as [|j]; simpl in E; [|discriminate]. inversion E; subst.
        exists (x0 :: x). split; auto. apply one_after_1; auto. split; auto. exists k; auto.
Qed.

Lemma files_after_room : forall ops,
  (exists p, files_after [] [] ops = Some p) <-> at_most_two ops.
Proof.
  intros ops. split.
  - intros [[f1 f2] E]. destruct f1 as [|a f1].
    + left. apply (all_empty_after ops []). assert (f2 = []); [|subst; auto].
      revert E. clear. intros E.
      assert (K : forall ops f1 f2 g2, f1 <> [] -> files_after f1 f2 ops = Some ([], g2) -> False).
      { induction ops0 as [|x r IH]; intros f1 f3 g2 N H; simpl in H; [congruence|].
        destruct f1; [congruence|]. destruct f3; [|discriminate]. eapply IH in H; auto. }
      induction ops as [|x r IH]; simpl in E; [congruence|]. destruct x as [|x0 x]; auto.
      exfalso. eapply K in E; auto; discriminate.
    + right. destruct f2 as [|b f2].
      * left. apply one_after. exists (a :: f1). split; auto; discriminate.
      * right. exists (a :: f1), (b :: f2). apply files_after_two; auto; discriminate.
  - intros [H|[H|(f1&f2&H)]].
    + apply (all_empty_after ops []) in H. eauto.
    + apply one_after in H. destruct H as (f&_&H). eauto.
    + pose proof H as (N1&N2&_). apply files_after_two in H; eauto.
Qed.

Lemma room_applies : forall is, Forall item_ok is -> at_most_two (operands is) ->
  exists s, apply_items default_settings is = Some s.
Proof.
  intros is Hok H. apply files_after_room in H. destruct H as [p E].
  pose proof (apply_items_files is default_settings Hok) as F. simpl in F. rewrite E in F.
  destruct (apply_items default_settings is); [eauto|discriminate].
Qed.

Lemma applies_room : forall is s, Forall item_ok is -> apply_items default_settings is = Some s ->
  at_most_two (operands is).
Proof.
  intros is s Hok H. apply files_after_room.
  pose proof (apply_items_files is default_settings Hok) as F. rewrite H in F. simpl in F. eauto.
Qed.

Lemma mistake_reported : forall args m, mistake ae args m -> parse_settings ae args = Err m.
Proof.
  intros args m H. unfold parse_settings. destruct H as [is o Hok R Ho|is x rest Hok R Hx|is f1 f2 x rest Hok Ht Hx|is Hok Hn|is Hok Hn].
  - destruct (room_applies is Hok R) as [s A]. pose proof (parse_items is default_settings [o] Hok) as Q.
    rewrite A in Q. rewrite Q. destruct Ho as [-> | ->]; reflexivity.
  - destruct (room_applies is Hok R) as [s A].
    pose proof (parse_items is default_settings (B "-U" :: x :: rest) Hok) as Q.
    rewrite A in Q. rewrite Q. simpl. now rewrite Hx.
  - destruct (parse_accepts is f1 f2 Hok Ht) as (s&_&A&F1&F2). pose proof Ht as (N1&N2&_).
    pose proof (parse_items is default_settings (x :: rest) Hok) as Q. rewrite A in Q. rewrite Q.
    apply not_option_words in Hx as (E1&E2&E3&E4&E5&E6&E7&E8).
    cbn [parse_loop]. rewrite E1, E2, E3, E4, E5, E6, E7, E8, F1, F2.
    destruct f1; [congruence|]. destruct f2; [congruence|]. reflexivity.
  - destruct (room_applies is Hok) as [s A]; [left; auto|].
    pose proof (parse_items is default_settings [] Hok) as Q. rewrite A, app_nil_r in Q. rewrite Q.
    pose proof (apply_items_files is default_settings Hok) as F. rewrite A in F. simpl in F.
    apply (all_empty_after _ []) in Hn. rewrite Hn in F. assert (F1 : file1 s = []) by congruence.
    cbn [parse_loop]. rewrite F1. reflexivity.
  - destruct (room_applies is Hok) as [s A]; [right; left; auto|].
    pose proof (parse_items is default_settings [] Hok) as Q. rewrite A, app_nil_r in Q. rewrite Q.
    pose proof (apply_items_files is default_settings Hok) as F. rewrite A in F. simpl in F.
    apply one_after in Hn. destruct Hn as (f&N&Hn). rewrite Hn in F.
    assert (F1 : file1 s = f) by congruence. assert (F2 : file2 s = []) by congruence.
    cbn [parse_loop]. rewrite F1, F2. destruct f; [congruence|]. reflexivity.
Qed.

(* every error of the loop is one of the first three mistakes *)
Lemma parse_loop_err : forall k args s m, length args <= k -> parse_loop ae s args = Err m ->
  exists is s1 rest, args = flat_map item_words is ++ rest /\ Forall item_ok is /\
    apply_items s is = Some s1 /\
    ((exists o, (o = B "-C" \/ o = B "-U") /\ rest = [o] /\
        m = B "ah heck I though that a number was gonna follow " ++ o) \/
     (exists x r, rest = B "-U" :: x :: r /\ atoi x = None /\ m = ae x) \/
     (exists x r, rest = x :: r /\ item_ok (IOperand x) /\ file1 s1 <> [] /\ file2 s1 <> [] /\
        m = B "aww jeez you can only compare two files, " ++ x ++ B " is the third")).
Proof.
  induction k as [|k IH]; intros args s m Hm H.
  { destruct args; [discriminate|simpl in Hm; lia]. }
  destruct args as [|a r]; [discriminate|]. simpl in Hm.
  assert (FL : forall i s1 r', item_ok i -> a :: r = item_words i ++ r' -> length r' <= k ->
     apply_item s i = Some s1 -> parse_loop ae s1 r' = Err m ->
     exists is s1 rest, a :: r = flat_map item_words is ++ rest /\ Forall item_ok is /\
      apply_items s is = Some s1 /\
      ((exists o, (o = B "-C" \/ o = B "-U") /\ rest = [o] /\
        m = B "ah heck I though that a number was gonna follow " ++ o) \/
      (exists x r, rest = B "-U" :: x :: r /\ atoi x = None /\ m = ae x) \/
      (exists x r, rest = x :: r /\ item_ok (IOperand x) /\ file1 s1 <> [] /\ file2 s1 <> [] /\
        m = B "aww jeez you can only compare two files, " ++ x ++ B " is the third"))).
  { intros i s1 r' Hi Ea Hr E1 E2. destruct (IH r' s1 m Hr E2) as (is&s2&rest&E&F&A&D).
    exists (i :: is), s2, rest. split; [rewrite Ea, E; cbn [flat_map]; now rewrite app_assoc|].
    split; [constructor; auto|]. split; [cbn [apply_items]; now rewrite E1|]. exact D. }
  assert (NOW : forall (D : Prop), D -> (a :: r = flat_map item_words [] ++ a :: r /\ Forall item_ok [] /\ apply_items s [] = Some s /\ D)).
  { intros D HD. repeat split; auto. }
  cbn [parse_loop] in H.
  destruct (beqb a (B "-b")) eqn:E1; [apply beqb_eq in E1; subst a; eapply (FL (IFlag "b") _ r); simpl; eauto; lia|].
  destruct (beqb a (B "-c")) eqn:E2; [apply beqb_eq in E2; subst a; eapply (FL (IFlag "c") _ r); simpl; eauto; lia|].
  destruct (beqb a (B "-C")) eqn:E3.
  { apply beqb_eq in E3. subst a. destruct r as [|x r'].
    - assert (Em : m = B "ah heck I though that a number was gonna follow " ++ B "-C").
      { unfold msg_number_missing in H. clear - H. now apply (f_equal (fun r => match r with Err y => y | _ => [] end)) in H. }
      exists [], s, [B "-C"]. apply NOW. left. exists (B "-C"). auto.
    - eapply (FL (IContext x) _ r'); simpl; eauto. simpl in Hm. lia. }
  destruct (beqb a (B "-e")) eqn:E4; [apply beqb_eq in E4; subst a; eapply (FL (IFlag "e") _ r); simpl; eauto 8; lia|].
  destruct (beqb a (B "-f")) eqn:E5; [apply beqb_eq in E5; subst a; eapply (FL (IFlag "f") _ r); simpl; eauto 8; lia|].
  destruct (beqb a (B "-r")) eqn:E6; [apply beqb_eq in E6; subst a; eapply (FL (IFlag "r") _ r); simpl; eauto 10; lia|].
  destruct (beqb a (B "-u")) eqn:E7; [apply beqb_eq in E7; subst a; eapply (FL (IFlag "u") _ r); simpl; eauto 10; lia|].
  destruct (beqb a (B "-U")) eqn:E8.
  { apply beqb_eq in E8. subst a. destruct r as [|x r'].
    - assert (Em : m = B "ah heck I though that a number was gonna follow " ++ B "-U").
      { unfold msg_number_missing in H. clear - H. now apply (f_equal (fun r => match r with Err y => y | _ => [] end)) in H. }
      exists [], s, [B "-U"]. apply NOW. left. exists (B "-U"). auto.
    - destruct (atoi x) as [n|] eqn:En.
      + eapply (FL (IUnified x) _ r'); simpl; eauto; [simpl in Hm; lia|]. now rewrite En.
      + exists [], s, (B "-U" :: x :: r'). apply NOW. right; left. exists x, r'.
        apply (f_equal (fun r => match r with Err y => y | _ => [] end)) in H. auto. }
  assert (OK : item_ok (IOperand a)).
  { cbn [item_ok]. apply beqb_neq in E1, E2, E3, E4, E5, E6, E7, E8. intros Hin. unfold option_words in Hin. cbn [map In] in Hin.
    repeat (destruct Hin as [Hin|Hin]; [congruence|]). contradiction. }
  destruct (beqb (file1 s) []) eqn:F1.
  { apply beqb_eq in F1. eapply (FL (IOperand a) _ r OK); [reflexivity|lia| |exact H].
    cbn [apply_item]. now rewrite F1. }
  destruct (beqb (file2 s) []) eqn:F2; apply beqb_neq in F1.
  { apply beqb_eq in F2. eapply (FL (IOperand a) _ r OK); [reflexivity|lia| |exact H].
    cbn [apply_item]. rewrite F2. destruct (file1 s); [congruence|auto]. }
  apply beqb_neq in F2. exists [], s, (a :: r). apply NOW. right; right. exists a, r.
  apply (f_equal (fun r => match r with Err y => y | _ => [] end)) in H. auto 8.
Qed.

Lemma reported_mistake : forall args m, parse_settings ae args = Err m -> mistake ae args m.
Proof.
  intros args m H. unfold parse_settings in H.
  destruct (parse_loop ae default_settings args) as [s|m'|] eqn:E; [| |discriminate].
  - destruct (parse_loop_items (length args) args default_settings s (le_n _) E) as (is&->&Hok&A).
    pose proof (apply_items_files is default_settings Hok) as F. rewrite A in F. simpl in F.
    destruct (beqb (file1 s) []) eqn:F1.
    + apply beqb_eq in F1. rewrite F1 in F.
      assert (Em : m = B "oh no you forgot to give any files").
      { now apply (f_equal (fun r => match r with Err y => y | _ => [] end)) in H. }
      rewrite Em. apply files_missing; auto.
      pose proof (applies_room is s Hok A) as [R|[R|(f1&f2&R)]]; auto.
      * exfalso. apply one_after in R. destruct R as (f&N&R). congruence.
      * exfalso. pose proof R as (N1&N2&_). apply files_after_two in R; auto. congruence.
    + destruct (beqb (file2 s) []) eqn:F2; [|discriminate]. apply beqb_neq in F1. apply beqb_eq in F2.
      assert (Em : m = B "oh no you forgot to give the second file").
      { now apply (f_equal (fun r => match r with Err y => y | _ => [] end)) in H. }
      rewrite Em. apply second_missing; auto. apply one_after. exists (file1 s). split; auto. rewrite F2 in F. symmetry. exact F.
  - assert (m' = m) by (now apply (f_equal (fun r => match r with Err y => y | _ => [] end)) in H). subst m'.
    destruct (parse_loop_err (length args) args default_settings m (le_n _) E) as (is&s1&rest&->&Hok&A&D).
    pose proof (applies_room is s1 Hok A) as R.
    destruct D as [(o&Ho&->&->)|[(x&r&->&Hx&->)|(x&r&->&Hx&N1&N2&->)]].
    + now apply number_missing.
    + now apply number_bad.
    + apply (third_file ae is (file1 s1) (file2 s1)); auto. apply files_after_two; auto.
      pose proof (apply_items_files is default_settings Hok) as F. rewrite A in F. simpl in F. auto.
Qed.

(* ---------- the command ---------- *)
Lemma diff_main_output : forall fs args s, parse_settings ae args = Ok s ->
  exists cs, diff (read_lines fs (file1 s)) (read_lines fs (file2 s)) = Some (Ok cs) /\
    diff_main ae fs args = Some {| out := format cs ++ [nl]; errout := []; fin := Exit 0 |}.
Proof.
  intros fs args s H. unfold diff_main. rewrite H.
  destruct (diff_total (read_lines fs (file1 s)) (read_lines fs (file2 s))) as (cs&E&_).
  exists cs. rewrite E. auto.
Qed.

Lemma diff_main_status : forall fs args s, parse_settings ae args = Ok s ->
  (forall c1 c2, fs (file1 s) = Some c1 -> fs (file2 s) = Some c2 -> c1 <> c2 ->
     exists r, diff_main ae fs args = Some r /\ fin r = Exit 0) /\
  (fs (file1 s) = None \/ fs (file2 s) = None ->
     exists r, diff_main ae fs args = Some r /\ fin r = Exit 0 /\ errout r = []).
Proof.
  intros fs args s H. destruct (diff_main_output fs args s H) as (cs&_&->).
  split; intros; eexists; split; eauto.
Qed.

Lemma diff_main_mistake : forall fs args m, mistake ae args m ->
  diff_main ae fs args = Some {| out := B "Oh heck an error: " ++ m ++ [nl]; errout := []; fin := Exit 1 |}.
Proof. intros fs args m H. unfold diff_main. rewrite (mistake_reported args m H). reflexivity. Qed.

Lemma read_lines_plain : forall fs f l, fs f = Some (unlines l) -> Forall plain_line l ->
  read_lines fs f = l.
Proof. intros fs f l H Hl. unfold read_lines. rewrite H, scan_lines_plain; auto. Qed.

Lemma diff_main_identical : forall fs args s c, parse_settings ae args = Ok s ->
  fs (file1 s) = Some c -> fs (file2 s) = Some c ->
  diff_main ae fs args = Some {| out := [nl]; errout := []; fin := Exit 0 |}.
Proof.
  intros fs args s c H H1 H2. destruct (diff_main_output fs args s H) as (cs&E&->).
  unfold read_lines in E. rewrite H1, H2 in E.
  apply format_empty_iff_equal in E. destruct E as [_ E]. rewrite E; auto.
Qed.
End Args.
