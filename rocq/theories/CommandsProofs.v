(* Proofs for C142. *)
From Coq Require Import Permutation.
From Verif Require Import GoBase GoFacts HeadModel HeadSpec HeadProofs CommandsSpec.
From Verif Require CatModel CksumModel CmpModel CutModel CutFlagModel DiffModel DiffCmdProofs KillModel KillSpec KillProofs TestModel TsortModel TsortProofs.

(* ---- head ---- *)
Lemma said_parse : forall args n fs, said args n fs -> forall k0 acc,
  parse_args args {| numLines := k0; filenames := acc |} =
    Ok {| numLines := match n with Some k => k | None => k0 end; filenames := acc ++ fs |}.
Proof.
  induction 1 as [|v k args n fs A S IH|f args n fs N S IH]; intros k0 acc.
  - cbn. now rewrite app_nil_r.
  - cbn [parse_args]. rewrite beqb_refl, A. rewrite IH. now destruct n.
  - cbn [parse_args]. rewrite beqb_false by auto. cbn [numLines filenames]. rewrite IH. now rewrite <- app_assoc.
Qed.
Lemma parse_said : forall m args s s', List.length args <= m -> parse_args args s = Ok s' ->
  exists n fs, said args n fs.
Proof.
  induction m as [|m IH]; intros [|a args] s s' L P; try (exists None, []; constructor); [cbn in L; lia|].
  cbn [parse_args] in P. destruct (beqb a (B "-n")) eqn:E.
  - apply beqb_eq in E. subst a. destruct args as [|v args]; [discriminate|]. destruct (atoi v) as [k|] eqn:A; [|discriminate].
    apply IH in P as (n&fs&S); [|cbn in L; lia]. eexists _, _. econstructor; eauto.
  - apply IH in P as (n&fs&S); [|cbn in L; lia]. exists n, (a :: fs). constructor; auto.
    intros ->. now rewrite beqb_refl in E.
Qed.
Lemma head_said : forall w args n fs, said args n fs ->
  head_main w args = process_from w (1 <? List.length (read_by args fs)) (match n with Some k => k | None => 10%Z end) 0 (read_by args fs).
Proof.
  intros w args n fs S. unfold head_main, parse_settings. destruct args as [|a args].
  - inversion S; subst. reflexivity.
  - rewrite (said_parse _ _ _ S). cbn [app numLines filenames]. unfold read_by. now destruct fs.
Qed.
Lemma process_panics : forall w k fs i many, fin (process_from w many k i fs) = Panicked <->
  exists j f, nth_error fs j = Some f /\ fails w k (i + j) f.
Proof.
  intros w k fs. induction fs as [|f fs IH]; intros i many.
  { cbn. split; [discriminate|]. intros ([|j]&f&H&_); discriminate. }
  destruct (open w i f) as [c|] eqn:O.
  - assert (G : gives w i f c).
    { unfold open in O. destruct (beqb f (B "-")) eqn:E; [apply beqb_eq in E; left; split; congruence|].
      right. split; auto. intros ->. now rewrite beqb_refl in E. }
    destruct (shows_total (Z.to_nat k) c) as (o&ok&H). rewrite (process_one _ _ _ _ _ _ _ G H). destruct ok; cbn [fin].
    + rewrite IH. split; intros (j&g&N&F).
      * exists (S j), g. split; auto. replace (i + S j) with (S i + j) by lia. exact F.
      * destruct j as [|j]; [|exists j, g; split; auto; replace (S i + j) with (i + S j) by lia; exact F].
        exfalso. cbn in N. injection N as <-. rewrite Nat.add_0_r in F. destruct F as [[F1 F2]|(c'&o'&G'&H')].
        { unfold open in O. rewrite beqb_false in O by auto. congruence. }
        apply gives_open in G'. rewrite O in G'. injection G' as <-. apply shows_head in H, H'. rewrite H in H'. discriminate.
    + split; auto. intros _. exists 0, f. split; auto. right. rewrite Nat.add_0_r. eauto.
  - cbn [process_from]. rewrite O. cbn [fin]. split; auto. intros _. exists 0, f. split; auto. left.
    unfold open in O. destruct (beqb f (B "-")) eqn:E; [discriminate|]. split; auto. intros ->. now rewrite beqb_refl in E.
Qed.
Lemma process_fin : forall w k fs i many, let r := process_from w many k i fs in
  errout r = [] /\ (fin r = Exit 0 \/ fin r = Panicked).
Proof.
  intros w k fs. induction fs as [|f fs IH]; intros i many; cbn [process_from]; [cbn; auto|].
  destruct (open w i f) as [c|]; [|cbn; auto]. destruct (head_file c k) as [o []]; [cbn; auto|]. cbn [errout fin]. apply IH.
Qed.
Lemma head_panics : forall w args,
  errout (head_main w args) = [] /\ (fin (head_main w args) = Exit 0 \/ fin (head_main w args) = Panicked) /\
  (fin (head_main w args) = Panicked <->
   (forall n fs, ~ said args n fs) \/
   exists n fs i f, said args n fs /\ nth_error (read_by args fs) i = Some f /\
     fails w (match n with Some k => k | None => 10%Z end) i f).
Proof.
  intros w args.
  assert (D : (exists n fs, said args n fs) \/ ((forall n fs, ~ said args n fs) /\ head_main w args = {| out := []; errout := []; fin := Panicked |})).
  { unfold head_main, parse_settings. destruct args as [|a args]; [left; exists None, []; constructor|].
    destruct (parse_args (a :: args) {| numLines := 10; filenames := [] |}) as [s|e|] eqn:E.
    - left. eapply parse_said; eauto.
    - right. split; auto. intros n fs H. rewrite (said_parse _ _ _ H) in E. discriminate.
    - right. split; auto. intros n fs H. rewrite (said_parse _ _ _ H) in E. discriminate. }
  destruct D as [(n&fs&H)|[H ->]]; [|cbn; repeat split; auto].
  rewrite (head_said _ _ _ _ H). destruct (process_fin w (match n with Some k => k | None => 10%Z end) (read_by args fs) 0 (1 <? List.length (read_by args fs))) as [P1 P2].
  split; [exact P1|]. split; [exact P2|]. rewrite process_panics. split.
  - intros (j&f&N&F). right. exists n, fs, j, f. auto.
  - intros [X|(n'&fs'&j&f&H'&N&F)]; [destruct (X n fs H)|].
    assert (Q : (match n with Some k => k | None => 10%Z end) = (match n' with Some k => k | None => 10%Z end) /\ fs = fs').
    { pose proof (said_parse _ _ _ H 10 []) as E. rewrite (said_parse _ _ _ H') in E. cbn [app] in E. injection E as E1 E2. auto. }
    destruct Q as [-> ->]. exists j, f. auto.
Qed.

(* ---- the others ---- *)
Definition status_in (l : list Z) (r : run_result) : Prop := exists n, In n l /\ fin r = Exit n.
Lemma cksum_fin : forall fs files stdin outs, status_in [0; 1]%Z (CksumModel.run_files fs stdin outs files).
Proof.
  intros fs. induction files as [|f r IH]; intros stdin outs; cbn [CksumModel.run_files]; [exists 0%Z; cbn; auto|].
  destruct (beqb f (B "-")); [destruct stdin as [b [e|]]|destruct (fs f) as [e|b [e|]]]; auto; exists 1%Z; cbn; auto.
Qed.
Lemma cmp_fin : forall s b1 b2 e1 e2 i l outs, status_in [0; 1; 2]%Z (CmpModel.cmp_loop s b1 b2 e1 e2 i l outs).
Proof.
  intros s. induction b1 as [|c1 r1 IH]; intros [|c2 r2] e1 e2 i l outs; cbn [CmpModel.cmp_loop].
  - destruct e1; [exists 2%Z; cbn; auto|]. destruct e2; [exists 1%Z|exists 0%Z]; cbn; auto.
  - destruct e1; [exists 2%Z; cbn; auto|exists 1%Z; cbn; auto].
  - destruct e2; [exists 2%Z; cbn; auto|exists 1%Z; cbn; auto].
  - destruct (Ascii.eqb c1 c2); auto. destruct (CmpModel.writeAll s); auto. exists 1%Z. cbn; auto.
Qed.
Lemma diff_fin : forall ae fs args, exists r, DiffModel.diff_main ae fs args = Some r /\ status_in [0; 1]%Z r.
Proof.
  intros ae fs args. destruct (DiffModel.parse_settings ae args) as [s|m|] eqn:E.
  - destruct (DiffCmdProofs.diff_main_output ae fs args s E) as (cs&_&H). eexists. split; [exact H|]. exists 0%Z. cbn. auto.
  - unfold DiffModel.diff_main. rewrite E. eexists. split; [reflexivity|]. exists 1%Z. cbn. auto.
  - destruct (DiffCmdProofs.parse_never_panics ae args E).
Qed.
Lemma tsort_run_fin : forall perm, (forall l, Permutation (perm l) l) -> forall ws se,
  exists r, TsortModel.tsort_run perm ws se = Some r /\ status_in [0; 1]%Z r.
Proof.
  intros perm P ws se. destruct (Nat.even (List.length ws)) eqn:Ev.
  - destruct se as [e|].
    + rewrite TsortProofs.tsort_run_scan_error, Ev. eexists. split; [reflexivity|]. exists 1%Z. cbn. auto.
    + destruct (TsortProofs.tsort_run_even perm P ws Ev) as [(l&_&->)|[_ ->]]; eexists; (split; [reflexivity|]).
      * exists 0%Z. cbn. auto.
      * exists 1%Z. cbn. auto.
  - rewrite TsortProofs.tsort_run_odd by auto. eexists. split; [reflexivity|]. exists 1%Z. cbn. auto.
Qed.
Lemma tsort_fin : forall perm, (forall l, Permutation (perm l) l) -> forall fs stdin args,
  exists r, TsortModel.tsort_main perm fs stdin args = Some r /\ status_in [0; 1]%Z r.
Proof.
  intros perm P fs stdin args. unfold TsortModel.tsort_main.
  destruct args as [|f args]; [destruct (TsortModel.scan_words (fst stdin)); now apply tsort_run_fin|].
  destruct (beqb f (B "-")); [destruct (TsortModel.scan_words (fst stdin)); now apply tsort_run_fin|].
  destruct (fs f) as [c|].
  - destruct (TsortModel.scan_words (fst c)). now apply tsort_run_fin.
  - eexists. split; [reflexivity|]. exists 1%Z. cbn. auto.
Qed.
Lemma cut_fin : forall quote usage h args, status_in [1; 2; h]%Z (CutFlagModel.cut_program quote usage h args).
Proof.
  intros. unfold CutFlagModel.cut_program. destruct (CutFlagModel.parse_flags quote args CutFlagModel.defaults) as [o l|m|].
  - unfold CutModel.cut_main, CutModel.check_args. destruct (_ <? _) eqn:E; [exists 1%Z; cbn; auto|].
    destruct (_ =? _) eqn:E'; [exists 1%Z; cbn; auto|]. apply Nat.ltb_ge in E. apply Nat.eqb_neq in E'. lia.
  - exists 2%Z. cbn. auto.
  - exists h. cbn. auto.
Qed.
Lemma kill_panics : forall ke args, fin (KillModel.run (KillModel.kill_main ke args)) = Panicked <->
  exists l r, Forall KillSpec.item_ok l /\ args = KillSpec.render l ++ r /\ KillSpec.crash_tail r.
Proof.
  intros ke args. split.
  - intros H. destruct (KillProofs.args_total args) as (l&r&I&E&D). exists l, r. split; auto. split; auto.
    destruct D as [->|[(m&D)|D]]; auto; exfalso; subst args.
    + rewrite app_nil_r in H. revert H. unfold KillModel.kill_main. destruct (KillModel.parse_args _ 15 0) as [s p|m|] eqn:E.
      * destruct (KillModel.process_kill ke p) as [k [e|]]; discriminate.
      * discriminate.
      * revert E. rewrite <- (app_nil_r (KillSpec.render l)). rewrite KillProofs.parse_render by auto. discriminate.
    + rewrite (KillProofs.kill_bad ke l r m) in H by auto. discriminate.
  - intros (l&r&I&->&C). now rewrite (KillProofs.kill_crash ke l r).
Qed.
