(* Proofs for C147. *)
From Verif Require Import GoBase GoFacts LocaleModel LocaleSpec LocaleProofs LocaleShellSpec.

Lemma quoted_word : forall s, Forall inside s -> word (quoted s) s.
Proof.
  intros s F. pose proof (word_double s [] [] F word_end) as H. now rewrite !app_nil_r in H.
Qed.
Lemma plain_word : forall s, Forall plain s -> word s s.
Proof. intros s F. induction F; constructor; auto. Qed.
Lemma plain_inside : forall c, plain c -> inside c.
Proof. intros c [H _] I. apply H. cbn in I |- *. tauto. Qed.

Lemma split_first : forall (c : ascii) a b x y, ~ In c a -> ~ In c b -> a ++ c :: x = b ++ c :: y -> a = b /\ x = y.
Proof.
  intros c a. induction a as [|h a IH]; intros [|k b] x y Na Nb E; cbn [app] in E.
  - injection E as E. auto.
  - injection E as E1 E2. subst. exfalso. apply Nb. now left.
  - injection E as E1 E2. subst. exfalso. apply Na. now left.
  - injection E as E1 E2. subst. cbn in *. destruct (IH b x y) as [-> ->]; auto.
Qed.
Lemma inside_no_dq : forall s, Forall inside s -> ~ In "034"%char s.
Proof. intros s F I. rewrite Forall_forall in F. apply (F _ I). cbn. tauto. Qed.
Lemma not_plain : forall c, In c ["|"; "&"; ";"; "<"; ">"; "("; ")"; "$"; "`"; "\"; "034"; "'"; " "; "~"]%char -> ~ plain c.
Proof. intros c I [H _]. auto. Qed.
Lemma quoted_shape : forall s t x, (quoted s ++ t) ++ x = "034"%char :: s ++ "034"%char :: (t ++ x).
Proof. intros. unfold quoted. cbn. now rewrite <- !app_assoc. Qed.
Lemma single_shape : forall s t x, (B "'" ++ s ++ B "'" ++ t) ++ x = "'"%char :: s ++ "'"%char :: (t ++ x).
Proof. intros. cbn. now rewrite <- !app_assoc. Qed.

(* A word before a newline ends in one way only. *)
Lemma word_unique : forall t v, word t v -> forall t' v' r r', word t' v' -> t ++ nl :: r = t' ++ nl :: r' -> t = t' /\ v = v' /\ r = r'.
Proof.
  intros t v W. induction W as [|c t v P W IH|c t v C W IH|s t v C W IH|s t v C W IH]; intros t' v' r r' W' E.
  - inversion W'; subst.
    + injection E as E. auto.
    + exfalso. cbn in E. injection E as E _. subst. now destruct H as [_ [_ H]].
    + exfalso. discriminate E.
    + exfalso. discriminate E.
    + exfalso. discriminate E.
  - inversion W'; subst.
    + exfalso. cbn in E. injection E as E _. subst. now destruct P as [_ [_ P]].
    + cbn in E. injection E as <- E. destruct (IH _ _ _ _ H0 E) as (->&->&->). auto.
    + exfalso. cbn in E. injection E as -> _. apply (not_plain "\"%char); cbn; tauto.
    + exfalso. cbn in E. injection E as -> _. apply (not_plain "'"%char); cbn; tauto.
    + exfalso. cbn in E. injection E as -> _. apply (not_plain "034"%char); cbn; tauto.
  - inversion W'; subst; try (exfalso; discriminate E).
    + exfalso. cbn in E. injection E as <- _. apply (not_plain "\"%char); cbn; tauto.
    + cbn in E. injection E as <- E. destruct (IH _ _ _ _ H0 E) as (->&->&->). auto.
  - inversion W'; subst; try (exfalso; discriminate E).
    + exfalso. cbn in E. injection E as <- _. apply (not_plain "'"%char); cbn; tauto.
    + rewrite !single_shape in E. injection E as E. apply split_first in E as [-> E]; auto.
      destruct (IH _ _ _ _ H0 E) as (->&->&->). auto.
  - inversion W'; subst; try (exfalso; discriminate E).
    + exfalso. cbn in E. injection E as <- _. apply (not_plain "034"%char); cbn; tauto.
    + rewrite !quoted_shape in E. injection E as E. apply split_first in E as [-> E]; auto using inside_no_dq.
      destruct (IH _ _ _ _ H0 E) as (->&->&->). auto.
Qed.
Lemma assignment_shape : forall var t x, assignment var t ++ x = var ++ "="%char :: (t ++ nl :: x).
Proof. intros. unfold assignment. rewrite <- !app_assoc. reflexivity. Qed.
Lemma name_no_eq : forall s, name s -> ~ In "="%char s.
Proof. intros s F I. unfold name in F. rewrite Forall_forall in F. now destruct (F _ I). Qed.

(* The first line of a script. *)
Lemma script_first : forall var t v rest l, name var -> word t v -> script (assignment var t ++ rest) l ->
  exists l', l = (var, v) :: l' /\ script rest l'.
Proof.
  intros var t v rest l N W H. inversion H as [E|var' t' v' rest' l' N' W' H' E].
  - exfalso. symmetry in E. rewrite assignment_shape in E. destruct var; discriminate E.
  - rewrite !assignment_shape in E. apply split_first in E as [-> E]; auto using name_no_eq.
    destruct (word_unique _ _ W' _ _ _ _ W E) as (->&->&->). eauto.
Qed.

(* A character that ends a word, outside quotes, spoils the line. *)
Lemma ends_not_plain : forall c, ends_word c -> ~ plain c.
Proof. intros c [I| ->] [H [T _]]; [|congruence]. apply H. cbn in I |- *. tauto. Qed.
Lemma ends_not_special : forall c, ends_word c -> c <> nl /\ c <> "\"%char /\ c <> "'"%char /\ c <> "034"%char.
Proof.
  intros c [I| ->]; [|repeat split; discriminate]. cbn [In] in I.
  repeat (destruct I as [<-|I]; [repeat split; discriminate|]). destruct I.
Qed.
Lemma no_word : forall p, Forall plain p -> forall c r t v rest, ends_word c -> word t v -> t ++ nl :: rest = p ++ c :: r -> False.
Proof.
  intros p F. induction F as [|x p P F IH]; intros c r t v rest C W E; destruct (ends_not_special _ C) as (C1&C2&C3&C4).
  - inversion W; subst; cbn in E; injection E as E _; subst; try congruence. now apply ends_not_plain in C.
  - inversion W; subst; cbn in E; injection E as E E2.
    + subst. now destruct P as [_ [_ P]].
    + now apply (IH c r t0 v0 rest).
    + subst. apply (not_plain "\"%char); cbn; tauto.
    + subst. apply (not_plain "'"%char); cbn; tauto.
    + subst. apply (not_plain "034"%char); cbn; tauto.
Qed.
Lemma spoiled : forall var p c r rest l, name var -> Forall plain p -> ends_word c ->
  ~ script (assignment var (p ++ c :: r) ++ rest) l.
Proof.
  intros var p c r rest l N F C H. inversion H as [E|var' t' v' rest' l' N' W' H' E].
  - symmetry in E. rewrite assignment_shape in E. destruct var; discriminate E.
  - rewrite !assignment_shape in E. apply split_first in E as [-> E]; auto using name_no_eq.
    rewrite <- app_assoc in E. cbn [app] in E. eapply no_word; eauto.
Qed.

Lemma name_ok : forall v, In v variables -> name v.
Proof.
  intros v I. unfold variables, categories in I. cbn [In app] in I.
  repeat (destruct I as [<-|I]; [cbn; repeat constructor; cbn; intuition discriminate|]). destruct I.
Qed.

(* Lines for a list of variables. *)
Definition lines (l : list (bytes * bytes)) : bytes := concat (map (fun '(c, v) => assignment c v) l).
Lemma lines_script : forall l, Forall (fun '(var, t, v) => name var /\ word t v) l ->
  script (lines (map fst l)) (map (fun '(var, t, v) => (var, v)) l).
Proof.
  intros l F. induction F as [|[[var t] v] l [N W] F IH]; cbn; [constructor|]. now constructor.
Qed.
Lemma lines_only : forall l, Forall (fun '(var, t, v) => name var /\ word t v) l -> forall rest asg,
  script (lines (map fst l) ++ rest) asg -> exists asg', asg = map (fun '(var, t, v) => (var, v)) l ++ asg' /\ script rest asg'.
Proof.
  intros l F. induction F as [|[[var t] v] l [N W] F IH]; intros rest asg H; [cbn in *; eauto|].
  unfold lines in H. cbn [map concat fst] in H. rewrite <- app_assoc in H. apply script_first with (v := v) in H as (l'&->&H); auto.
  destruct (IH _ _ H) as (asg'&->&H'). exists asg'. auto.
Qed.

(* The text and the value of the report for one variable. *)
Definition shown_value (env : bytes -> bytes) (var : bytes) : bytes :=
  if beqb (env (B "LC_ALL")) [] then if beqb (env var) [] then env (B "LANG") else env var else env (B "LC_ALL").
Definition shown_text (env : bytes -> bytes) (var : bytes) : bytes := getVal (FromEnv env) (env var).
Definition report_lines (env : bytes -> bytes) : list (bytes * bytes * bytes) :=
  (B "LANG", quoted (env (B "LANG")), env (B "LANG"))
  :: map (fun c => (c, shown_text env c, shown_value env c)) categories
  ++ [(B "LC_ALL", env (B "LC_ALL"), env (B "LC_ALL"))].
Lemma report_is_lines : forall env, locale_string (FromEnv env) = lines (map fst (report_lines env)).
Proof.
  intros env. apply (reports_unique env); [apply report_string|].
  exists (map (shown_text env) categories). split.
  - unfold categories, shown_text. cbn [map]. repeat (constructor; [apply getVal_shows|]). constructor.
  - unfold report_lines, lines, categories. cbn [map app fst concat combine]. rewrite !app_nil_r, <- !app_assoc. reflexivity.
Qed.
Lemma shown_word : forall env var, Forall inside (env (B "LANG")) -> Forall inside (env (B "LC_ALL")) ->
  (env (B "LC_ALL") = [] -> Forall plain (env var)) -> word (shown_text env var) (shown_value env var).
Proof.
  intros env var L A C. unfold shown_text, shown_value, getVal. cbn [l_all l_lang FromEnv].
  destruct (beqb_spec (env (B "LC_ALL")) []) as [E|E]; cbn [negb].
  - destruct (beqb_spec (env var) []) as [E2|E2]; cbn [negb]; [now apply quoted_word|apply plain_word; auto].
  - now apply quoted_word.
Qed.

Lemma report_lines_ok : forall env, readable env -> Forall (fun '(var, t, v) => name var /\ word t v) (report_lines env).
Proof.
  intros env (L&A&C). unfold report_lines. constructor; [split; [apply name_ok; cbn; tauto|now apply quoted_word]|].
  apply Forall_app. split; [|constructor; [split; [apply name_ok; cbn; tauto|now apply plain_word]|constructor]].
  rewrite Forall_map, Forall_forall. intros c I. split; [apply name_ok; right; apply in_or_app; auto|].
  apply shown_word; auto. eapply Forall_impl; [|exact A]. exact plain_inside.
Qed.
Definition assigned (env : bytes -> bytes) : list (bytes * bytes) := map (fun '(var, t, v) => (var, v)) (report_lines env).
Lemma report_script : forall env, readable env -> script (locale_string (FromEnv env)) (assigned env).
Proof. intros env R. rewrite report_is_lines. apply lines_script. now apply report_lines_ok. Qed.
Lemma report_script_only : forall env l, readable env -> script (locale_string (FromEnv env)) l -> l = assigned env.
Proof.
  intros env l R H. rewrite report_is_lines, <- (app_nil_r (lines _)) in H.
  apply lines_only in H as (l'&->&H); [|now apply report_lines_ok]. inversion H as [E|v t ? ? ? ? ? ? E].
  - now rewrite app_nil_r.
  - rewrite assignment_shape in E. destruct v; discriminate E.
Qed.

Lemma assigned_effect : forall env env0 c v, In c categories -> (in_effect (after (assigned env) env0) c v <-> in_effect env c v).
Proof.
  intros env env0 c v I.
  assert (EA : after (assigned env) env0 (B "LC_ALL") = env (B "LC_ALL")) by reflexivity.
  assert (EL : after (assigned env) env0 (B "LANG") = env (B "LANG")) by reflexivity.
  assert (EC : after (assigned env) env0 c = shown_value env c).
  { unfold categories in I. cbn [In] in I. repeat (destruct I as [<-|I]; [reflexivity|]). destruct I. }
  revert EA EL EC. generalize (after (assigned env) env0). intros e EA EL EC. unfold shown_value in EC.
  destruct (beqb_spec (env (B "LC_ALL")) []) as [Q|Q].
  - destruct (beqb_spec (env c) []) as [Q2|Q2].
    + split; intros H; destruct H; try congruence.
      * rewrite EC. now apply eff_lang.
      * rewrite EL. now apply eff_lang.
      * destruct (beqb_spec (env (B "LANG")) []) as [Z|Z].
        -- rewrite <- EL. apply eff_lang; congruence.
        -- rewrite <- EC. apply eff_own; congruence.
    + split; intros H; destruct H; try congruence.
      * rewrite EC. now apply eff_own.
      * rewrite <- EC. apply eff_own; congruence.
  - split; intros H; destruct H; try congruence.
    + rewrite EA. now apply eff_all.
    + rewrite <- EA. apply eff_all; congruence.
Qed.

(* The lines before a variable, when the others are as they should be. *)
Lemma lines_app : forall a b, lines (a ++ b) = lines a ++ lines b.
Proof. intros. unfold lines. now rewrite map_app, concat_app. Qed.
Lemma spoiled_report : forall a var p c r b l, Forall (fun '(var, t, v) => name var /\ word t v) a ->
  name var -> Forall plain p -> ends_word c -> ~ script (lines (map fst a ++ (var, p ++ c :: r) :: b)) l.
Proof.
  intros a var p c r b l F N P C H. rewrite lines_app in H. apply lines_only in H as (l'&_&H); auto.
  revert H. unfold lines. cbn [map concat]. now apply spoiled.
Qed.
Lemma category_spoils : forall env cat p c r l, In cat categories -> env (B "LC_ALL") = [] -> Forall inside (env (B "LANG")) ->
  (forall d, In d categories -> d <> cat -> Forall plain (env d)) ->
  Forall plain p -> ends_word c -> env cat = p ++ c :: r -> ~ script (locale_string (FromEnv env)) l.
Proof.
  intros env cat p c r l I A L O P C E. rewrite report_is_lines.
  apply in_split in I as (before&rest&Q).
  assert (T : shown_text env cat = p ++ c :: r).
  { unfold shown_text, getVal. cbn [l_all l_lang FromEnv]. rewrite A, E.
    destruct p; reflexivity. }
  assert (D : NoDup categories).
  { unfold categories. repeat constructor; cbn; intuition discriminate. }
  set (f := fun c : bytes => (c, shown_text env c, shown_value env c)).
  assert (R : map fst (report_lines env) = map fst ((B "LANG", quoted (env (B "LANG")), env (B "LANG")) :: map f before) ++
    (cat, p ++ c :: r) :: map fst (map f rest ++ [(B "LC_ALL", env (B "LC_ALL"), env (B "LC_ALL"))])).
  { unfold report_lines. fold f. rewrite Q, <- T, (map_app f). cbn [map app fst]. rewrite !map_app, <- app_assoc. reflexivity. }
  rewrite R. apply (spoiled_report _ cat p c r); auto.
  - constructor; [split; [apply name_ok; cbn; tauto|now apply quoted_word]|].
    rewrite Forall_map, Forall_forall. intros d Id. split.
    + apply name_ok. right. apply in_or_app. left. rewrite Q. apply in_or_app. auto.
    + apply shown_word; auto; [rewrite A; constructor|]. intros _. apply O.
      * rewrite Q. apply in_or_app. auto.
      * intros ->. rewrite Q in D. apply NoDup_remove_2 in D. apply D. apply in_or_app. auto.
  - apply name_ok. right. apply in_or_app. left. rewrite Q. apply in_or_app. right. now left.
Qed.
Lemma all_spoils : forall env p c r l, Forall inside (env (B "LANG")) -> Forall inside (env (B "LC_ALL")) ->
  Forall plain p -> ends_word c -> env (B "LC_ALL") = p ++ c :: r -> ~ script (locale_string (FromEnv env)) l.
Proof.
  intros env p c r l L A P C E. rewrite report_is_lines. unfold report_lines.
  rewrite app_comm_cons, map_app.
  change (map fst [(B "LC_ALL", env (B "LC_ALL"), env (B "LC_ALL"))]) with [(B "LC_ALL", env (B "LC_ALL"))].
  replace [(B "LC_ALL", env (B "LC_ALL"))] with [(B "LC_ALL", p ++ c :: r)] by now rewrite E.
  apply (spoiled_report _ (B "LC_ALL") p c r); auto.
  - constructor; [split; [apply name_ok; cbn; tauto|now apply quoted_word]|].
    rewrite Forall_map, Forall_forall. intros d Id. split; [apply name_ok; right; apply in_or_app; auto|].
    apply shown_word; auto. intros Z. rewrite Z in E. destruct p; discriminate E.
  - apply name_ok. cbn. tauto.
Qed.
