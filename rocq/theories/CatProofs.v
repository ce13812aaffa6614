From Verif Require Import GoBase GoFacts CatModel CatSpec.

Lemma filenames_operands : forall args, operands args (filenames args).
Proof.
  intros args. unfold operands, filenames. eexists. split; [reflexivity|].
  destruct (filter _ args); [left|right]; split; auto; discriminate.
Qed.

Lemma operands_filenames : forall args fs, operands args fs -> fs = filenames args.
Proof.
  intros args fs (l&->&[[E ->]|[E ->]]); unfold filenames; [now rewrite E|].
  destruct (filter _ args); [congruence|reflexivity].
Qed.

Lemma readable_write : forall w i f c, readable w i f c -> write_file w i f = (c, None).
Proof.
  intros w i f c [[-> E]|[N E]]; unfold write_file.
  - now rewrite beqb_refl.
  - apply beqb_neq in N. now rewrite N, E.
Qed.

Lemma failing_write : forall w i f c e, failing w i f c e -> write_file w i f = (c, Some e).
Proof.
  intros w i f c e [[-> E]|[N [E|[-> E]]]]; unfold write_file.
  - now rewrite beqb_refl.
  - apply beqb_neq in N. now rewrite N, E.
  - apply beqb_neq in N. now rewrite N, E.
Qed.

Lemma loop_prefix : forall w cs fs i,
  (forall j c, nth_error cs j = Some c -> exists f, nth_error fs j = Some f /\ readable w (i + j) f c) ->
  cat_loop w i fs = (concat cs ++ fst (cat_loop w (i + length cs) (skipn (length cs) fs)),
                     snd (cat_loop w (i + length cs) (skipn (length cs) fs))).
Proof.
  induction cs as [|c cs IH]; intros fs i H.
  - cbn [concat length skipn app]. rewrite Nat.add_0_r. destruct (cat_loop w i fs); reflexivity.
  - destruct (H 0 c eq_refl) as (f&E&R). destruct fs as [|f' fs]; [discriminate|].
    cbn in E. injection E as ->. rewrite Nat.add_0_r in R. cbn [cat_loop].
    rewrite (readable_write _ _ _ _ R). cbn [length skipn concat].
    rewrite (IH fs (S i)).
    + replace (S i + length cs) with (i + S (length cs)) by lia. rewrite <- app_assoc. reflexivity.
    + intros j d Hd. destruct (H (S j) d Hd) as (g&G1&G2). exists g. split; auto.
      replace (S i + j) with (i + S j) by lia. auto.
Qed.

Lemma cat_all : forall w args fs cs, operands args fs -> all_readable w fs cs -> length cs = length fs ->
  cat_main w args = {| out := concat cs; errout := []; fin := Exit 0 |}.
Proof.
  intros w args fs cs O R L. apply operands_filenames in O. subst fs. unfold cat_main.
  rewrite (loop_prefix w cs) by exact R. rewrite L, skipn_all. cbn. now rewrite app_nil_r.
Qed.

Lemma cat_fail : forall w args fs cs f c e, operands args fs -> all_readable w fs cs ->
  nth_error fs (length cs) = Some f -> failing w (length cs) f c e ->
  cat_main w args = {| out := concat cs ++ c;
    errout := B "Error encountered while attempting to read from " ++ f ++ B ": " ++ e ++ [nl];
    fin := Exit 0 |}.
Proof.
  intros w args fs cs f c e O R Nf F. apply operands_filenames in O. subst fs. unfold cat_main.
  rewrite (loop_prefix w cs) by exact R.
  assert (E : exists r, skipn (length cs) (filenames args) = f :: r).
  { apply nth_error_split in Nf as (l1&l2&E&L). exists l2. rewrite E, <- L.
    now rewrite skipn_app, skipn_all, Nat.sub_diag. }
  destruct E as [r ->]. cbn [cat_loop]. cbn [Nat.add]. rewrite (failing_write _ _ _ _ _ F). reflexivity.
Qed.

(* every run is of one of the two kinds *)
Lemma classify : forall w f i, (exists c, readable w i f c) \/ (exists c e, failing w i f c e).
Proof.
  intros w f i. destruct (bytes_dec f (B "-")) as [->|N].
  - destruct (stdin_at w i) as [c [e|]] eqn:E; [right; exists c, e|left; exists c]; left; auto.
  - destruct (opens w f) as [[c [e|]]|e] eqn:E; [right; exists c, e|left; exists c|right; exists [], e]; right; auto.
Qed.

Lemma cat_total_gen : forall w fs i, exists cs,
  (forall j c, nth_error cs j = Some c -> exists f, nth_error fs j = Some f /\ readable w (i + j) f c) /\
  (length cs = length fs \/
   exists f c e, nth_error fs (length cs) = Some f /\ failing w (i + length cs) f c e).
Proof.
  induction fs as [|f fs IH]; intros i.
  - exists []. split; [|left; reflexivity]. intros [|j]; discriminate.
  - destruct (classify w f i) as [[c R]|(c&e&F)].
    + destruct (IH (S i)) as (cs&H1&H2). exists (c :: cs). split.
      * intros [|j] d Hd.
        -- injection Hd as <-. exists f. rewrite Nat.add_0_r. auto.
        -- destruct (H1 j d Hd) as (g&G1&G2). exists g. split; auto.
           replace (i + S j) with (S i + j) by lia. auto.
      * destruct H2 as [L|(g&d&e&G1&G2)]; [left; cbn; congruence|].
        right. exists g, d, e. split; auto. cbn [length]. replace (i + S (length cs)) with (S i + length cs) by lia.
        auto.
    + exists []. split; [intros [|j]; discriminate|]. right. exists f, c, e. rewrite Nat.add_0_r. auto.
Qed.

Lemma cat_total : forall w args, exists fs cs, operands args fs /\ all_readable w fs cs /\
  (length cs = length fs \/ exists f c e, nth_error fs (length cs) = Some f /\ failing w (length cs) f c e).
Proof.
  intros w args. exists (filenames args). destruct (cat_total_gen w (filenames args) 0) as (cs&H1&H2).
  exists cs. split; [apply filenames_operands|]. split; [exact H1|exact H2].
Qed.

Lemma cat_exit0 : forall w args, fin (cat_main w args) = Exit 0.
Proof. intros. unfold cat_main. destruct (cat_loop w 0 (filenames args)). reflexivity. Qed.
