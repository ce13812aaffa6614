From Verif Require Import GoBase GoFacts CmpModel CmpSpec.

Lemma sees_open : forall w s s1 s2, sees w (file1 s) (file2 s) s1 s2 -> open_both w s = Ok (s1, s2).
Proof.
  intros w s s1 s2 H. unfold open_both, open. destruct H as [(E1&E2&Eb)|(N&C1&C2)].
  - rewrite E1, E2, Eb. reflexivity.
  - destruct C1 as [[E1 ->]|[E1 O1]]; destruct C2 as [[E2 ->]|[E2 O2]].
    + destruct N; contradiction.
    + rewrite E1. apply beqb_neq in E2. rewrite E2, O2. reflexivity.
    + rewrite E2. apply beqb_neq in E1. rewrite E1, O1. reflexivity.
    + apply beqb_neq in E1, E2. rewrite E1, E2, O1, O2. reflexivity.
Qed.

Lemma eqb_refl' : forall c, Ascii.eqb c c = true.
Proof. intros. apply Ascii.eqb_refl. Qed.
Lemma eqb_neq' : forall c d, c <> d -> Ascii.eqb c d = false.
Proof. intros. now apply Ascii.eqb_neq. Qed.

(* common prefix is skipped *)
Lemma cmp_loop_prefix : forall s p r1 r2 e1 e2 i l o,
  cmp_loop s (p ++ r1) (p ++ r2) e1 e2 i l o =
  cmp_loop s r1 r2 e1 e2 (length p + i) (newlines p + l) o.
Proof.
  intros s p. unfold newlines. induction p as [|c p IH]; intros r1 r2 e1 e2 i l o; [reflexivity|].
  cbn [app cmp_loop]. rewrite eqb_refl', IH. simpl length. simpl count_occ. f_equal; [lia|].
  destruct (ascii_dec c nl) as [->|N].
  - rewrite eqb_refl'. lia.
  - apply Ascii.eqb_neq in N. rewrite N. reflexivity.
Qed.

Lemma cmp_loop_equal : forall s c i l o,
  cmp_loop s c c None None i l o = {| out := o; errout := []; fin := Exit 0 |}.
Proof.
  intros. replace c with (c ++ []) by apply app_nil_r. rewrite cmp_loop_prefix. reflexivity.
Qed.

Lemma parse_two : forall s f1 f2, file1 s = [] -> file2 s = [] ->
  f1 <> [] -> f2 <> [] -> is_option f1 = false -> is_option f2 = false ->
  parse_settings_from s [f1; f2] = Ok {| writeAll := writeAll s; silent := silent s; file1 := f1; file2 := f2 |}.
Proof.
  intros s f1 f2 E1 E2 N1 N2 O1 O2. unfold is_option in *. apply orb_false_elim in O1 as [A1 A2], O2 as [A3 A4].
  cbn [parse_settings_from]. rewrite A1, A2, A3, A4, E1.
  cbn [parse_settings_from file1 file2 writeAll silent beqb]. rewrite E2. apply beqb_neq in N1. rewrite N1. reflexivity.
Qed.

Lemma parse_spec : forall args s,
  (forall a, In a (operands args) -> a <> []) ->
  let slots := (if beqb (file1 s) [] then [] else [file1 s]) ++ (if beqb (file2 s) [] then [] else [file2 s]) in
  (file1 s = [] -> file2 s = []) ->
  match slots ++ operands args with
  | a :: b :: c :: _ => parse_settings_from s args = Err (B "too many files: " ++ c)
  | l => parse_settings_from s args =
      Ok {| writeAll := writeAll s || existsb (beqb (B "-l")) args;
            silent := silent s || existsb (beqb (B "-s")) args;
            file1 := nth 0 l []; file2 := nth 1 l [] |}
  end.
Proof.
  induction args as [|a r IH]; intros s Hne slots Hs.
  - unfold slots. cbn [operands filter app]. rewrite app_nil_r. cbn [parse_settings_from existsb].
    rewrite !orb_false_r. destruct s as [wa si f1 f2]. cbn [file1 file2 writeAll silent] in *.
    destruct (beqb f1 []) eqn:E1; destruct (beqb f2 []) eqn:E2; try apply beqb_eq in E1; try apply beqb_eq in E2; subst; try reflexivity.
    specialize (Hs eq_refl). subst. discriminate.
  - cbn [parse_settings_from existsb].
    assert (El : beqb (B "-l") a = beqb a (B "-l")) by apply beqb_sym.
    assert (Es : beqb (B "-s") a = beqb a (B "-s")) by apply beqb_sym.
    rewrite El, Es.
    assert (Ho : operands (a :: r) = (if is_option a then [] else [a]) ++ operands r).
    { unfold operands. cbn [filter]. destruct (is_option a); reflexivity. }
    rewrite Ho in *. unfold is_option in *.
    destruct (beqb a (B "-l")) eqn:Al.
    { assert (As : beqb a (B "-s") = false) by (apply beqb_eq in Al; subst; reflexivity). rewrite As.
      rewrite !orb_true_l, !orb_true_r, ?orb_false_l.
      specialize (IH {| writeAll := true; silent := silent s; file1 := file1 s; file2 := file2 s |}).
      cbn [file1 file2 writeAll silent orb] in IH. simpl app. apply IH; auto. }
    destruct (beqb a (B "-s")) eqn:As.
    { rewrite !orb_true_l, !orb_true_r, ?orb_false_l.
      specialize (IH {| writeAll := writeAll s; silent := true; file1 := file1 s; file2 := file2 s |}).
      cbn [file1 file2 writeAll silent orb] in IH. simpl app. apply IH; auto. }
    rewrite !orb_false_l. cbn [orb] in *.
    assert (Na : a <> []) by (apply Hne; left; auto).
    assert (Hr : forall x, In x (operands r) -> x <> []) by (intros; apply Hne; right; auto).
    assert (Na' := Na). apply beqb_neq in Na'.
    unfold slots. destruct (beqb (file1 s) []) eqn:E1.
    { apply beqb_eq in E1. rewrite (Hs E1). change (beqb [] []) with true. cbn [app].
      specialize (IH {| writeAll := writeAll s; silent := silent s; file1 := a; file2 := file2 s |}).
      cbn [file1 file2 writeAll silent] in IH. rewrite Na' in IH. rewrite (Hs E1) in IH. cbn [app beqb] in IH.
      apply IH; auto; contradiction. }
    destruct (beqb (file2 s) []) eqn:E2.
    { specialize (IH {| writeAll := writeAll s; silent := silent s; file1 := file1 s; file2 := a |}).
      cbn [file1 file2 writeAll silent] in IH. rewrite Na', E1 in IH. cbn [app] in *.
      apply IH; auto. intros C. rewrite C in E1. discriminate. }
    cbn [app]. reflexivity.
Qed.

Lemma parse_settings_spec : forall args, (forall a, In a (operands args) -> a <> []) ->
  match operands args with
  | _ :: _ :: c :: _ => parse_settings args = Err (B "too many files: " ++ c)
  | l => parse_settings args =
      Ok {| writeAll := existsb (beqb (B "-l")) args; silent := existsb (beqb (B "-s")) args;
            file1 := nth 0 l []; file2 := nth 1 l [] |}
  end.
Proof.
  intros args H. pose proof (parse_spec args no_settings H) as P.
  cbn [no_settings file1 file2 writeAll silent beqb app orb] in P. apply P. reflexivity.
Qed.

(* the settings of a two-operand command line *)
Lemma parse_operands : forall args f1 f2, operands args = [f1; f2] -> f1 <> [] -> f2 <> [] ->
  parse_settings args =
    Ok {| writeAll := existsb (beqb (B "-l")) args; silent := existsb (beqb (B "-s")) args;
          file1 := f1; file2 := f2 |}.
Proof.
  intros args f1 f2 E N1 N2. pose proof (parse_settings_spec args) as P. rewrite E in P.
  apply P. intros a [<-|[<-|[]]]; auto.
Qed.

Lemma existsb_not_in : forall a (l : list bytes), ~ In a l -> existsb (beqb a) l = false.
Proof.
  intros a l H. destruct (existsb (beqb a) l) eqn:E; auto. apply existsb_exists in E as (x&Hx&E).
  apply beqb_eq in E. subst. contradiction.
Qed.
Lemma existsb_in : forall a (l : list bytes), In a l -> existsb (beqb a) l = true.
Proof. intros a l H. apply existsb_exists. exists a. split; auto. apply beqb_refl. Qed.

Lemma cmp_run : forall w args f1 f2 c1 e1 c2 e2, operands args = [f1; f2] -> f1 <> [] -> f2 <> [] ->
  sees w f1 f2 (c1, e1) (c2, e2) ->
  cmp_main w args = cmp_loop {| writeAll := existsb (beqb (B "-l")) args; silent := existsb (beqb (B "-s")) args;
          file1 := f1; file2 := f2 |} c1 c2 e1 e2 1 1 [].
Proof.
  intros w args f1 f2 c1 e1 c2 e2 E N1 N2 H. unfold cmp_main. rewrite (parse_operands args f1 f2 E N1 N2).
  unfold cmp. rewrite (sees_open w _ (c1, e1) (c2, e2)) by exact H. reflexivity.
Qed.

(* C20 *)
Lemma cmp_plain : forall w f1 f2 args c1 c2, operands args = [f1; f2] -> f1 <> [] -> f2 <> [] ->
  ~ In (B "-l") args -> ~ In (B "-s") args -> sees w f1 f2 (c1, None) (c2, None) ->
  (cmp_main w args = {| out := []; errout := []; fin := Exit 0 |} <-> c1 = c2) /\
  (forall p x y r1 r2, c1 = p ++ x :: r1 -> c2 = p ++ y :: r2 -> x <> y ->
     cmp_main w args = {| out := f1 ++ B " " ++ f2 ++ B " differ: char " ++ ntoa (length p + 1) ++ B ", line "
                            ++ ntoa (newlines p + 1) ++ [nl]; errout := []; fin := Exit 1 |}) /\
  (forall x r, c2 = c1 ++ x :: r ->
     cmp_main w args = {| out := []; errout := B "cmp: EOF on " ++ f1 ++ [nl]; fin := Exit 1 |}) /\
  (forall x r, c1 = c2 ++ x :: r ->
     cmp_main w args = {| out := []; errout := B "cmp: EOF on " ++ f2 ++ [nl]; fin := Exit 1 |}).
Proof.
  intros w f1 f2 args c1 c2 E N1 N2 Nl Ns H.
  rewrite (cmp_run w args f1 f2 _ _ _ _ E N1 N2 H).
  rewrite (existsb_not_in _ _ Nl), (existsb_not_in _ _ Ns).
  set (s := {| writeAll := false; silent := false; file1 := f1; file2 := f2 |}).
  assert (D1 : forall p x y r1 r2, c1 = p ++ x :: r1 -> c2 = p ++ y :: r2 -> x <> y ->
     cmp_loop s c1 c2 None None 1 1 [] = {| out := f1 ++ B " " ++ f2 ++ B " differ: char " ++ ntoa (length p + 1) ++ B ", line "
                            ++ ntoa (newlines p + 1) ++ [nl]; errout := []; fin := Exit 1 |}).
  { intros p x y r1 r2 -> -> Nxy. rewrite cmp_loop_prefix. cbn [cmp_loop]. rewrite (eqb_neq' x y Nxy). reflexivity. }
  assert (D2 : forall x r, c2 = c1 ++ x :: r ->
     cmp_loop s c1 c2 None None 1 1 [] = {| out := []; errout := B "cmp: EOF on " ++ f1 ++ [nl]; fin := Exit 1 |}).
  { intros x r ->. replace c1 with (c1 ++ []) at 1 by apply app_nil_r. rewrite cmp_loop_prefix. reflexivity. }
  assert (D3 : forall x r, c1 = c2 ++ x :: r ->
     cmp_loop s c1 c2 None None 1 1 [] = {| out := []; errout := B "cmp: EOF on " ++ f2 ++ [nl]; fin := Exit 1 |}).
  { intros x r ->. replace c2 with (c2 ++ []) at 2 by apply app_nil_r. rewrite cmp_loop_prefix. reflexivity. }
  split; [|split; [exact D1|split; [exact D2|exact D3]]]. split; [|intros ->; apply cmp_loop_equal].
  intros R. clear H.
  assert (T : c1 = c2 \/ (exists p x y r1 r2, c1 = p ++ x :: r1 /\ c2 = p ++ y :: r2 /\ x <> y) \/
     (exists x r, c2 = c1 ++ x :: r) \/ (exists x r, c1 = c2 ++ x :: r)).
  { clear. revert c2. induction c1 as [|a c1 IH]; intros [|b c2]; auto.
    - right; right; left. exists b, c2. auto.
    - right; right; right. exists a, c1. auto.
    - destruct (ascii_dec a b) as [->|N].
      + destruct (IH c2) as [->|[(p&x&y&r1&r2&->&->&Nxy)|[(x&r&->)|(x&r&->)]]]; auto.
        * right; left. exists (b :: p), x, y, r1, r2. auto.
        * right; right; left. exists x, r. auto.
        * right; right; right. exists x, r. auto.
      + right; left. exists [], a, b, c1, c2. auto. }
  destruct T as [->|[(p&x&y&r1&r2&E1&E2&Nxy)|[(x&r&E1)|(x&r&E1)]]]; auto.
  - rewrite (D1 _ _ _ _ _ E1 E2 Nxy) in R. discriminate.
  - rewrite (D2 _ _ E1) in R. discriminate.
  - rewrite (D3 _ _ E1) in R. discriminate.
Qed.

(* C21 *)
Definition diff_line (p : nat * (ascii * ascii)) : bytes :=
  ntoa (fst p) ++ B " " ++ octal (fst (snd p)) ++ B " " ++ octal (snd (snd p)) ++ [nl].

Lemma cmp_loop_all : forall s c1 c2 i l o, writeAll s = true ->
  let ds := filter (fun p => negb (Ascii.eqb (fst (snd p)) (snd (snd p))))
      (combine (seq i (length c1)) (combine c1 c2)) in
  out (cmp_loop s c1 c2 None None i l o) = o ++ (if silent s then [] else flat_map diff_line ds) /\
  fin (cmp_loop s c1 c2 None None i l o) = Exit (if length c1 =? length c2 then 0 else 1).
Proof.
  intros s. induction c1 as [|a c1 IH]; intros c2 i l o W ds.
  - destruct c2; simpl in *; unfold ds; simpl; destruct (silent s); rewrite ?app_nil_r; auto.
  - destruct c2 as [|b c2].
    + simpl. unfold ds. simpl. destruct (silent s); rewrite ?app_nil_r; auto.
    + cbn [cmp_loop]. unfold ds. cbn [length seq combine filter fst snd].
      destruct (Ascii.eqb a b) eqn:E; cbn [negb].
      * apply IH; auto.
      * rewrite W. match goal with |- context [cmp_loop s c1 c2 None None (S i) ?l' ?o'] => destruct (IH c2 (S i) l' o' W) as [I1 I2] end.
        rewrite I1, I2. split; auto. destruct (silent s); auto.
        cbn [flat_map]. unfold diff_line at 2. cbn [fst snd]. now rewrite <- app_assoc.
Qed.

Lemma cmp_l : forall w f1 f2 args c1 c2, operands args = [f1; f2] -> f1 <> [] -> f2 <> [] ->
  In (B "-l") args -> ~ In (B "-s") args -> sees w f1 f2 (c1, None) (c2, None) ->
  out (cmp_main w args) = flat_map (fun p => ntoa (fst p) ++ B " " ++ octal (fst (snd p)) ++ B " "
       ++ octal (snd (snd p)) ++ [nl]) (differences c1 c2) /\
  fin (cmp_main w args) = Exit (if length c1 =? length c2 then 0 else 1).
Proof.
  intros w f1 f2 args c1 c2 E N1 N2 Nl Ns H.
  rewrite (cmp_run w args f1 f2 _ _ _ _ E N1 N2 H).
  rewrite (existsb_in _ _ Nl), (existsb_not_in _ _ Ns).
  match goal with |- context [cmp_loop ?s _ _ _ _ _ _ _] => destruct (cmp_loop_all s c1 c2 1 1 [] eq_refl) as [A1 A2] end.
  rewrite A1, A2. split; reflexivity.
Qed.

Lemma octal_ok : forall c, octal_value (octal c) = N_of_ascii c /\ (1 < length (octal c) -> hd "0"%char (octal c) <> "0"%char).
Proof.
  intros [[] [] [] [] [] [] [] []]; (split; [reflexivity|]); vm_compute; intros H E; try discriminate E;
  inversion H; lia.
Qed.

(* C23 *)
Lemma cmp_loop_silent : forall s s' c1 c2 e1 e2 i l o o', writeAll s = writeAll s' ->
  file1 s = file1 s' -> file2 s = file2 s' ->
  fin (cmp_loop s c1 c2 e1 e2 i l o) = fin (cmp_loop s' c1 c2 e1 e2 i l o').
Proof.
  intros s s'. induction c1 as [|a c1 IH]; intros c2 e1 e2 i l o o' W F1 F2.
  - simpl. destruct e1; [reflexivity|]. destruct c2; [destruct e2; reflexivity|reflexivity].
  - destruct c2 as [|b c2]; simpl; [destruct e2; reflexivity|].
    destruct (Ascii.eqb a b); [apply IH; auto|]. rewrite <- W. destruct (writeAll s); [apply IH; auto|reflexivity].
Qed.
Lemma cmp_loop_quiet : forall s c1 c2 e1 e2 i l o, silent s = true -> out (cmp_loop s c1 c2 e1 e2 i l o) = o.
Proof.
  intros s. induction c1 as [|a c1 IH]; intros c2 e1 e2 i l o H.
  - simpl. destruct e1; [reflexivity|]. destruct c2; [destruct e2; reflexivity|reflexivity].
  - destruct c2 as [|b c2]; simpl; [destruct e2; reflexivity|].
    destruct (Ascii.eqb a b); [apply IH; auto|]. rewrite H. destruct (writeAll s); [apply IH; auto|reflexivity].
Qed.

Definition same_but_silent (s s' : settings) : Prop :=
  writeAll s = writeAll s' /\ file1 s = file1 s' /\ file2 s = file2 s'.

Lemma parse_drop_s : forall args s s', same_but_silent s s' ->
  match parse_settings_from s args, parse_settings_from s' (filter (fun a => negb (beqb a (B "-s"))) args) with
  | Ok a, Ok b => same_but_silent a b /\ silent a = silent s || existsb (beqb (B "-s")) args
  | Err m, Err m' => m = m'
  | _, _ => False
  end.
Proof.
  induction args as [|a r IH]; intros s s' (W&F1&F2).
  - simpl. split; [split; auto|]. now rewrite orb_false_r.
  - cbn [filter parse_settings_from existsb]. rewrite (beqb_sym (B "-s") a).
    destruct (beqb a (B "-s")) eqn:Es.
    + assert (El : beqb a (B "-l") = false) by (apply beqb_eq in Es; subst; reflexivity). rewrite El.
      cbn [negb]. specialize (IH {| writeAll := writeAll s; silent := true; file1 := file1 s; file2 := file2 s |} s').
      cbn [silent] in IH. rewrite orb_true_l in *. rewrite orb_true_r. apply IH. split; auto.
    + cbn [negb parse_settings_from]. rewrite Es. rewrite orb_false_l.
      destruct (beqb a (B "-l")).
      * specialize (IH {| writeAll := true; silent := silent s; file1 := file1 s; file2 := file2 s |}
                       {| writeAll := true; silent := silent s'; file1 := file1 s'; file2 := file2 s' |}).
        apply IH. split; auto.
      * rewrite <- F1, <- F2. destruct (beqb (file1 s) []).
        { specialize (IH {| writeAll := writeAll s; silent := silent s; file1 := a; file2 := file2 s |}
                       {| writeAll := writeAll s'; silent := silent s'; file1 := a; file2 := file2 s |}).
          apply IH. split; auto. }
        destruct (beqb (file2 s) []).
        { specialize (IH {| writeAll := writeAll s; silent := silent s; file1 := file1 s; file2 := a |}
                       {| writeAll := writeAll s'; silent := silent s'; file1 := file1 s; file2 := a |}).
          apply IH. split; auto. }
        reflexivity.
Qed.

Lemma cmp_s : forall w args, In (B "-s") args ->
  out (cmp_main w args) = [] /\
  fin (cmp_main w args) = fin (cmp_main w (filter (fun a => negb (beqb a (B "-s"))) args)).
Proof.
  intros w args H. unfold cmp_main, parse_settings.
  pose proof (parse_drop_s args no_settings no_settings) as P.
  destruct (parse_settings_from no_settings args) as [a|m|];
    destruct (parse_settings_from no_settings (filter (fun a => negb (beqb a (B "-s"))) args)) as [b|m'|];
    try (exfalso; apply P; repeat split; fail).
  - destruct P as [(W&F1&F2) S]; [repeat split|]. rewrite (existsb_in _ _ H), orb_true_r in S.
    unfold cmp. assert (O : open_both w a = open_both w b) by (unfold open_both; rewrite F1, F2; reflexivity).
    rewrite O. destruct (open_both w b) as [[[b1 e1] [b2 e2]]|m|]; [|split; reflexivity|split; reflexivity].
    split; [now apply cmp_loop_quiet|now apply cmp_loop_silent].
  - split; reflexivity.
Qed.

(* C24 *)
Lemma cmp_too_many : forall w args a b c r, (forall x, In x (operands args) -> x <> []) ->
  operands args = a :: b :: c :: r ->
  cmp_main w args = {| out := []; errout := B "Error: too many files: " ++ c; fin := Exit 2 |}.
Proof.
  intros w args a b c r H E. pose proof (parse_settings_spec args H) as P. rewrite E in P.
  unfold cmp_main. rewrite P. reflexivity.
Qed.

Lemma cmp_unopenable : forall w args f1 f2, operands args = [f1; f2] -> f1 <> [] -> f2 <> [] ->
  (unopenable w f1 -> cmp_main w args = {| out := []; errout := B "Error: could not open " ++ f1; fin := Exit 2 |}) /\
  (~ unopenable w f1 -> unopenable w f2 ->
     cmp_main w args = {| out := []; errout := B "Error: could not open " ++ f2; fin := Exit 2 |}).
Proof.
  intros w args f1 f2 E N1 N2. unfold cmp_main. rewrite (parse_operands args f1 f2 E N1 N2).
  unfold cmp, open_both, open. cbn [file1 file2]. split.
  - intros [H1 H2]. apply beqb_neq in H1. rewrite H1, H2. reflexivity.
  - intros H [H1 H2]. apply beqb_neq in H1. rewrite H1, H2. destruct (beqb f1 (B "-")) eqn:Q; [reflexivity|].
    destruct (opens w f1) eqn:O1; [reflexivity|]. exfalso. apply H. split; [now apply beqb_neq|exact O1].
Qed.

Lemma cmp_missing : forall w args, opens w [] = None -> (forall x, In x (operands args) -> x <> []) ->
  (operands args = [] -> cmp_main w args = {| out := []; errout := B "Error: could not open "; fin := Exit 2 |}) /\
  (forall f, operands args = [f] -> cmp_main w args =
     {| out := []; errout := B "Error: could not open " ++ (if beqb f (B "-") then [] else match opens w f with Some _ => [] | None => f end);
        fin := Exit 2 |}).
Proof.
  intros w args H0 H. pose proof (parse_settings_spec args H) as P.
  unfold cmp_main. split; [intros E|intros f E]; rewrite E in P; rewrite P; unfold cmp, open_both, open; cbn [file1 file2 nth];
    change (beqb [] (B "-")) with false; cbv iota; rewrite H0; [reflexivity|].
  destruct (beqb f (B "-")); [reflexivity|]. destruct (opens w f); reflexivity.
Qed.

(* read errors *)
Lemma cmp_read_error : forall w args f1 f2 c1 c2 r e e2, operands args = [f1; f2] -> f1 <> [] -> f2 <> [] ->
  (c1 = c2 ++ r -> r <> [] -> sees w f1 f2 (c1, e2) (c2, Some e) ->
     cmp_main w args = {| out := []; errout := B "Error: Error reading " ++ f2 ++ B ": " ++ e; fin := Exit 2 |}) /\
  (c2 = c1 ++ r -> sees w f1 f2 (c1, Some e) (c2, e2) ->
     cmp_main w args = {| out := []; errout := B "Error: Error reading " ++ f1 ++ B ": " ++ e; fin := Exit 2 |}).
Proof.
  intros w args f1 f2 c1 c2 r e e2 E N1 N2. split.
  - intros E1 Nr H. rewrite (cmp_run w args f1 f2 _ _ _ _ E N1 N2 H); subst.
    replace c2 with (c2 ++ []) at 2 by apply app_nil_r. rewrite cmp_loop_prefix. destruct r; [congruence|reflexivity].
  - intros E1 H. rewrite (cmp_run w args f1 f2 _ _ _ _ E N1 N2 H); subst.
    replace c1 with (c1 ++ []) at 1 by apply app_nil_r. rewrite cmp_loop_prefix. destruct r; reflexivity.
Qed.
Lemma cmp_error_at_end : forall w args f1 f2 c e, operands args = [f1; f2] -> f1 <> [] -> f2 <> [] ->
  sees w f1 f2 (c, None) (c, Some e) ->
  cmp_main w args = {| out := []; errout := B "cmp: EOF on " ++ f1 ++ [nl]; fin := Exit 1 |}.
Proof.
  intros w args f1 f2 c e E N1 N2 H. rewrite (cmp_run w args f1 f2 _ _ _ _ E N1 N2 H).
  replace c with (c ++ []) by apply app_nil_r. rewrite cmp_loop_prefix. reflexivity.
Qed.

(* empty operands *)
Definition filled (s : settings) : nat := (if beqb (file1 s) [] then 0 else 1) + (if beqb (file2 s) [] then 0 else 1).
Lemma empty_skipped : forall a b s, (file1 s = [] -> file2 s = []) ->
  filled s + length (filter (fun x => negb (beqb x [])) (operands a)) < 2 ->
  parse_settings_from s (a ++ [] :: b) = parse_settings_from s (a ++ b).
Proof.
  induction a as [|x a IH]; intros b s I L.
  - cbn [app parse_settings_from]. change (beqb [] (B "-l")) with false. change (beqb [] (B "-s")) with false. cbv iota.
    unfold filled in L. cbn [operands filter length] in L.
    destruct s as [wa si f1 f2]. cbn [file1 file2 writeAll silent] in *.
    destruct (beqb f1 []) eqn:E1; [apply beqb_eq in E1; now subst|]. destruct (beqb f2 []) eqn:E2; [apply beqb_eq in E2; now subst|]. cbn in L. lia.
  - cbn [app parse_settings_from]. unfold operands in L. cbn [filter] in L. unfold is_option at 1 in L.
    destruct (beqb x (B "-l")) eqn:El; [apply IH; [exact I|exact L]|].
    destruct (beqb x (B "-s")) eqn:Es; [apply IH; [exact I|exact L]|].
    cbn [orb negb filter] in L. unfold filled in L.
    destruct (beqb (file1 s) []) eqn:E1.
    + apply beqb_eq in E1. specialize (I E1). rewrite I in L |- *. change (beqb [] []) with true in L. apply IH; [reflexivity|].
      unfold filled. cbn [file1 file2]. change (beqb [] []) with true. unfold operands. destruct (beqb x []); cbn [negb length] in L; lia.
    + destruct (beqb (file2 s) []) eqn:E2.
      * apply IH; [intros E; cbn [file1] in E; rewrite E in E1; discriminate E1|].
        unfold filled. cbn [file1 file2]. rewrite E1. unfold operands. destruct (beqb x []); cbn [negb length] in L; lia.
      * lia.
Qed.

(* C69: the EOF message is the only thing -s may print besides errors *)
Lemma cmp_s_nothing : forall w args f1 f2 p x y r1 r2 e1 e2, operands args = [f1; f2] -> f1 <> [] -> f2 <> [] ->
  In (B "-s") args -> ~ In (B "-l") args ->
  sees w f1 f2 (p ++ x :: r1, e1) (p ++ y :: r2, e2) -> x <> y ->
  cmp_main w args = {| out := []; errout := []; fin := Exit 1 |}.
Proof.
  intros w args f1 f2 p x y r1 r2 e1 e2 E N1 N2 Hs Nl H Nxy.
  rewrite (cmp_run w args f1 f2 _ _ _ _ E N1 N2 H), (existsb_not_in _ _ Nl), (existsb_in _ _ Hs).
  rewrite cmp_loop_prefix. cbn [cmp_loop]. rewrite (eqb_neq' x y Nxy). reflexivity.
Qed.

Lemma combine_seq_in : forall (c1 c2 : bytes) s i x y,
  In (i, (x, y)) (combine (seq s (length c1)) (combine c1 c2)) <->
  exists k, i = s + k /\ nth_error c1 k = Some x /\ nth_error c2 k = Some y.
Proof.
  induction c1 as [|a c1 IH]; intros c2 s i x y.
  - simpl. split; [contradiction|]. intros ([|k]&_&H&_); discriminate.
  - destruct c2 as [|b c2].
    + simpl. split; [contradiction|]. intros ([|k]&_&_&H); discriminate.
    + simpl. rewrite IH. split.
      * intros [[= -> -> ->]|(k&->&H1&H2)].
        -- exists 0. rewrite Nat.add_0_r. auto.
        -- exists (S k). rewrite Nat.add_succ_r. auto.
      * intros ([|k]&->&H1&H2).
        -- left. simpl in *. rewrite Nat.add_0_r. congruence.
        -- right. exists k. rewrite Nat.add_succ_r. auto.
Qed.

Lemma differences_spec : forall c1 c2 i x y,
  In (i, (x, y)) (differences c1 c2) <->
  exists k, i = S k /\ nth_error c1 k = Some x /\ nth_error c2 k = Some y /\ x <> y.
Proof.
  intros. unfold differences. rewrite filter_In, combine_seq_in. simpl. rewrite negb_true_iff, Ascii.eqb_neq.
  split; [intros [(k&H1&H2&H3) H4]|intros (k&H1&H2&H3&H4); split; auto]; exists k; auto.
Qed.

Lemma differences_sorted : forall c1 c2, StronglySorted lt (map fst (differences c1 c2)).
Proof.
  intros c1 c2. unfold differences. generalize 1.
  revert c2. induction c1 as [|a c1 IH]; intros c2 s; [constructor|].
  destruct c2 as [|b c2]; [constructor|]. cbn [length seq combine filter].
  destruct (negb (Ascii.eqb (fst (snd (s, (a, b)))) (snd (snd (s, (a, b)))))); [|apply IH].
  cbn [map]. constructor; [apply IH|]. apply Forall_forall. intros z Hz.
  apply in_map_iff in Hz as ([i [x y]]&<-&Hz). apply filter_In in Hz as [Hz _].
  apply combine_seq_in in Hz as (k&->&_). simpl. lia.
Qed.

Lemma cmp_l_status : forall w f1 f2 args c1 c2, operands args = [f1; f2] -> f1 <> [] -> f2 <> [] ->
  In (B "-l") args -> ~ In (B "-s") args -> sees w f1 f2 (c1, None) (c2, None) ->
  (length c1 <> length c2 -> fin (cmp_main w args) = Exit 1) /\
  (length c1 = length c2 -> fin (cmp_main w args) = Exit 0).
Proof.
  intros. destruct (cmp_l w f1 f2 args c1 c2) as [_ E]; auto. rewrite E. split; intros L.
  - apply Nat.eqb_neq in L. now rewrite L.
  - apply Nat.eqb_eq in L. now rewrite L.
Qed.

Lemma parse_operands_flags : forall args f1 f2, operands args = [f1; f2] -> f1 <> [] -> f2 <> [] ->
  exists s, parse_settings args = Ok s /\ file1 s = f1 /\ file2 s = f2 /\
    (writeAll s = true <-> In (B "-l") args) /\ (silent s = true <-> In (B "-s") args).
Proof.
  intros args f1 f2 E N1 N2. eexists. split; [apply (parse_operands args f1 f2 E N1 N2)|].
  cbn [file1 file2 writeAll silent]. repeat split.
  - intros H. apply existsb_exists in H as (x&H1&H2). apply beqb_eq in H2. now subst.
  - apply existsb_in.
  - intros H. apply existsb_exists in H as (x&H1&H2). apply beqb_eq in H2. now subst.
  - apply existsb_in.
Qed.
