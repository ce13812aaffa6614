(* Proofs for C155. *)
From Verif Require Import GoBase GoFacts NumFacts Utf8Facts RegexModel RegexSpec RegexProofs RegexMoreSpec RegexMoreProofs
  RegexGramSpec RegexGramProofs RegexEquivSpec.

(* ---- the elements of a text put together ---- *)
Lemma sequence_app : forall l es l' es', sequence l es -> sequence l' es' -> hd 0%N l' <> c_star -> hd 0%N l' <> c_lbrace ->
  sequence (l ++ l') (es ++ es').
Proof.
  intros l es l' es' H H' N1 N2. induction H as [|p l es P H IH|t e r mn mx l es S1 R F H IH]; auto.
  - cbn [app]. now constructor.
  - rewrite <- !app_assoc. cbn [app]. apply sq_item; auto. intros E. destruct l as [|c l]; cbn [app hd]; auto.
Qed.
Lemma hd_app : forall (a b : list N), hd 0%N (a ++ b) = match a with [] => hd 0%N b | c :: _ => c end.
Proof. now intros [|c a] b. Qed.
Lemma last_app : forall (a b : list N), last (a ++ b) 0%N = match b with [] => last a 0%N | _ => last b 0%N end.
Proof.
  intros a [|c b]; [now rewrite app_nil_r|]. induction a as [|d a IH]; [reflexivity|]. cbn [app].
  rewrite <- IH. cbn [last]. destruct (a ++ c :: b) eqn:E; auto. now destruct a.
Qed.
(* between the fragments anything that is not read as an anchor or a repetition may stand *)
Lemma anchored_elements : forall left right l es, sequence l es -> Forall valid_rune l ->
  hd 0%N l <> c_caret -> last l 0%N <> c_dollar ->
  ParseBre (anchored left right l) = Ok {| anchorLeft := left; anchorRight := right; elements := es |}.
Proof.
  intros left right l es H V N1 N2. unfold ParseBre, anchored. rewrite runes_of_string.
  - apply parse_pattern. destruct left, right; cbn [app].
    + now apply pt_both.
    + rewrite app_nil_r. now apply pt_left.
    + now apply pt_right.
    + rewrite app_nil_r. now apply pt_none.
  - apply Forall_app. split; [destruct left; repeat constructor; unfold c_caret, valid_rune; cbn; lia|].
    apply Forall_app. split; auto. destruct right; repeat constructor; unfold c_dollar, valid_rune; cbn; lia.
Qed.

(* ---- what one element takes ---- *)
Definition number (e : element) (l : list N) : nat := length (filter (el_matches e) l).
Lemma picked_number : forall e w, picked e w (number e w).
Proof.
  unfold number. induction w as [|r w IH]; [constructor|]. cbn [filter]. destruct (el_matches e r) eqn:E.
  - cbn [length]. constructor; auto. now apply el_matches_spec.
  - now constructor.
Qed.
Lemma number_picked : forall e w k, picked e w k -> k <= number e w.
Proof.
  unfold number. induction 1 as [|r w k A P IH|r w k P IH]; auto.
  - cbn [filter]. apply el_matches_spec in A. rewrite A. cbn [length]. lia.
  - cbn [filter]. destruct (el_matches e r); cbn [length]; lia.
Qed.
Lemma number_app : forall e a b, number e (a ++ b) = number e a + number e b.
Proof. intros. unfold number. now rewrite filter_app, app_length. Qed.
Lemma number_le : forall e l, number e l <= length l.
Proof. intros. unfold number. induction l; cbn [filter length]; [lia|]. destruct el_matches; cbn [length]; lia. Qed.
Lemma number_all : forall e l, Forall (accepts e) l -> number e l = length l.
Proof.
  intros e l H. unfold number. induction H as [|r l A H IH]; auto. cbn [filter]. apply el_matches_spec in A. rewrite A.
  cbn [length]. now rewrite IH.
Qed.
Lemma loosely_cons : forall e c es t, (0 <= cmin c)%Z -> (0 <= cmax c)%Z ->
  (loosely ((e, c) :: es) t <-> exists i, Z.to_nat (cmin c) <= i /\ i <= number e (firstn (Z.to_nat (cmax c)) t) /\
     Forall (accepts e) (firstn (Z.to_nat (cmin c)) t) /\ loosely es (skipn i t)).
Proof.
  intros e c es t P1 P2. split.
  - intros H. inversion H as [|? ? ? u1 u2 v w w' H1 H2 H3 H4 H5 H6]; subst.
    exists (length (u1 ++ u2)). split; [rewrite app_length; lia|]. split; [|split].
    + apply number_picked in H5. assert (E : firstn (Z.to_nat (cmax c)) ((u1 ++ u2) ++ v) =
        w ++ firstn (Z.to_nat (cmax c) - length w) w') by (rewrite H3, firstn_app, (firstn_all2 w) by lia; reflexivity).
      rewrite E, number_app. lia.
    + rewrite <- app_assoc, firstn_app. replace (Z.to_nat (cmin c)) with (length u1) by lia.
      rewrite firstn_all, Nat.sub_diag. cbn [firstn]. now rewrite app_nil_r.
    + rewrite skipn_app, skipn_all, Nat.sub_diag. exact H6.
  - intros (i&L1&L2&F&H). pose proof (number_le e (firstn (Z.to_nat (cmax c)) t)) as Nl. rewrite firstn_length in Nl.
    set (mn := Z.to_nat (cmin c)) in *.
    assert (Hu : firstn i t = firstn mn t ++ skipn mn (firstn i t)).
    { rewrite <- (firstn_skipn mn (firstn i t)) at 1. f_equal. rewrite firstn_firstn. f_equal. lia. }
    rewrite <- (firstn_skipn i t), Hu.
    apply (lo_cons e c es _ _ _ (firstn (Z.to_nat (cmax c)) t) (skipn (Z.to_nat (cmax c)) t)); auto.
    + rewrite firstn_length. lia.
    + rewrite <- Hu, !firstn_skipn. reflexivity.
    + rewrite firstn_length. lia.
    + rewrite <- Hu, firstn_length, Nat.min_l by lia. apply (picked_le _ _ (number e (firstn (Z.to_nat (cmax c)) t))); auto.
      apply picked_number.
Qed.

(* ---- lists of elements that can stand for each other ---- *)
Definition alike (X Y : list dupl) : Prop := forall es t, (Z.of_nat (length t) <= max_int64)%Z ->
  (loosely (X ++ es) t <-> loosely (Y ++ es) t).
Lemma alike_refl : forall X, alike X X. Proof. intros X es t L. reflexivity. Qed.
Lemma alike_sym : forall X Y, alike X Y -> alike Y X. Proof. intros X Y H es t L. symmetry. now apply H. Qed.
Lemma alike_trans : forall X Y Z, alike X Y -> alike Y Z -> alike X Z.
Proof. intros X Y Z H H' es t L. rewrite (H es t L). now apply H'. Qed.
Lemma skipn_fits : forall n (t : list N), (Z.of_nat (length t) <= max_int64)%Z -> (Z.of_nat (length (skipn n t)) <= max_int64)%Z.
Proof. intros. rewrite skipn_length. lia. Qed.
Lemma loosely_in_front : forall pes X Y, sane pes -> (forall t, (Z.of_nat (length t) <= max_int64)%Z -> (loosely X t <-> loosely Y t)) ->
  forall t, (Z.of_nat (length t) <= max_int64)%Z -> (loosely (pes ++ X) t <-> loosely (pes ++ Y) t).
Proof.
  induction pes as [|[e c] pes IH]; intros X Y P H t L; [now apply H|]. inversion P as [|? ? [P1 P2] Ps]; subst. cbn [snd] in *.
  cbn [app]. rewrite !loosely_cons by auto.
  split; intros (i&L1&L2&F&Q); exists i; repeat split; auto; apply (IH X Y) in Q || apply (IH X Y); auto using skipn_fits.
Qed.
Lemma alike_cons : forall e c X Y, (0 <= cmin c)%Z -> (0 <= cmax c)%Z -> alike X Y -> alike ((e, c) :: X) ((e, c) :: Y).
Proof.
  intros e c X Y P1 P2 H es t L. apply (loosely_in_front [(e, c)] (X ++ es) (Y ++ es)); auto.
  repeat constructor; auto.
Qed.
Definition ex (e : element) (m n : nat) : dupl := (e, {| cmin := Z.of_nat m; cmax := Z.of_nat n |}).
Lemma loosely_exact : forall e m es t, loosely (ex e m m :: es) t <->
  m <= length t /\ Forall (accepts e) (firstn m t) /\ loosely es (skipn m t).
Proof.
  intros. unfold ex. rewrite loosely_cons by (cbn [cmin cmax]; lia). cbn [cmin cmax]. rewrite !Nat2Z.id. split.
  - intros (i&L1&L2&F&H). pose proof (number_le e (firstn m t)) as Nl. rewrite firstn_length in Nl.
    replace i with m in H by lia. repeat split; auto. lia.
  - intros (L&F&H). exists m. repeat split; auto. rewrite (number_all _ _ F), firstn_length. lia.
Qed.
Lemma loosely_ex : forall e m n es t, loosely (ex e m n :: es) t <-> exists i, m <= i /\ i <= number e (firstn n t) /\
     Forall (accepts e) (firstn m t) /\ loosely es (skipn i t).
Proof. intros. unfold ex. rewrite loosely_cons by (cbn [cmin cmax]; lia). cbn [cmin cmax]. rewrite !Nat2Z.id. reflexivity. Qed.
Lemma skipn_skipn_ : forall a b (t : list N), skipn a (skipn b t) = skipn (b + a) t.
Proof. intros a b. revert a. induction b as [|b IH]; intros a [|x t]; cbn [skipn plus]; auto. destruct a; reflexivity. Qed.
Lemma firstn_plus : forall a b (t : list N), firstn (a + b) t = firstn a t ++ firstn b (skipn a t).
Proof. induction a as [|a IH]; intros b [|x t]; cbn [firstn skipn plus app]; auto. - now destruct b. - now rewrite IH. Qed.
(* x{m} x{n} is x{m+n} *)
Lemma alike_sum : forall e m n, alike [ex e m m; ex e n n] [ex e (m + n) (m + n)].
Proof.
  intros e m n es t L. cbn [app]. rewrite !loosely_exact, firstn_plus, Forall_app, skipn_skipn_, skipn_length. split.
  - intros (H1&H2&H3&H4&H5). repeat split; auto. lia.
  - intros (H1&(H2&H3)&H4). repeat split; auto; lia.
Qed.
(* x{m} is x m times *)
Lemma alike_times : forall e m, alike [ex e m m] (repeat (ex e 1 1) m).
Proof.
  intros e. induction m as [|m IH].
  - intros es t L. cbn [app repeat]. rewrite loosely_exact. cbn [firstn skipn]. split; [tauto|].
    intros H. repeat split; auto. lia.
  - cbn [repeat]. apply (alike_trans _ [ex e 1 1; ex e m m]).
    + apply alike_sym, (alike_sum e 1 m).
    + apply alike_cons; auto; cbn [cmin cmax]; lia.
Qed.
(* x{m,m+n} is x{m} x{0,n} *)
Lemma alike_between : forall e m n, alike [ex e m (m + n)] [ex e m m; ex e 0 n].
Proof.
  intros e m n es t L. cbn [app]. rewrite loosely_exact, !loosely_ex, firstn_plus, number_app. split.
  - intros (i&H1&H2&F&H). pose proof (number_le e (firstn m t)) as N1. pose proof (number_le e (firstn n (skipn m t))) as N2.
    rewrite firstn_length in N1. rewrite (number_all _ _ F), firstn_length in H2.
    destruct (Nat.le_gt_cases m (length t)) as [Lm|Lm].
    + repeat split; auto. exists (i - m). rewrite skipn_skipn_. replace (m + (i - m)) with i by lia.
      repeat split; auto; try lia; constructor.
    + rewrite (skipn_all2 t) in * by lia. rewrite firstn_nil in *. cbn [length] in *. lia.
  - intros (Lm&F&i&H1&H2&_&H). exists (m + i). rewrite skipn_skipn_ in H. rewrite (number_all _ _ F), firstn_length.
    repeat split; auto; lia.
Qed.
(* x{m,} is x{m} x* *)
Lemma alike_at_least : forall e m, fits m -> alike [(e, {| cmin := Z.of_nat m; cmax := max_int64 |})]
  [ex e m m; (e, {| cmin := 0; cmax := max_int64 |})].
Proof.
  intros e m Fm es t L. assert (M : max_int64 = Z.of_nat (Z.to_nat max_int64)) by (unfold max_int64; lia).
  unfold fits in Fm. set (k := Z.to_nat max_int64) in *. rewrite M in *. clearbody k.
  transitivity (loosely ([ex e m k] ++ es) t); [reflexivity|].
  transitivity (loosely ([ex e m m; ex e 0 k] ++ es) t); [|reflexivity].
  replace k with (m + (k - m)) at 1 by lia. rewrite (alike_between e m (k - m) es t) by lia.
  cbn [app]. rewrite !loosely_exact, !loosely_ex.
  destruct (Nat.le_gt_cases m (length t)) as [Lm|Lm]; [|split; intros [Q _]; lia].
  rewrite (@firstn_all2 _ k (skipn m t)), (@firstn_all2 _ (k - m) (skipn m t)) by (rewrite skipn_length; lia). reflexivity.
Qed.
(* x{m,n} with n < m matches nowhere *)
Lemma loosely_impossible : forall e m n es t, n < m -> ~ loosely (ex e m n :: es) t.
Proof.
  intros e m n es t L H. apply loosely_ex in H as (i&H1&H2&_). pose proof (number_le e (firstn n t)). rewrite firstn_length in *. lia.
Qed.

(* ---- texts ---- *)
Lemma fragment_app : forall a b, fragment a -> fragment b -> fragment (a ++ b).
Proof.
  intros a b ((es&Sa)&Va&Ha&La) ((es'&Sb)&Vb&Hb&Lb). cbn [In] in Ha, Hb. split; [|split; [|split]].
  - exists (es ++ es'). apply sequence_app; auto; intros Q; apply Hb; rewrite Q; auto.
  - apply Forall_app. auto.
  - rewrite hd_app. cbn [In]. destruct a; auto.
  - rewrite last_app. destruct b; auto.
Qed.
Lemma fragment_nil : fragment [].
Proof.
  split; [exists []; constructor|]. split; [constructor|]. cbn. split; [|discriminate]. intros [Q|[Q|[Q|[]]]]; discriminate.
Qed.
Lemma sequence_fragment_app : forall a es b es', sequence a es -> sequence b es' -> fragment b -> sequence (a ++ b) (es ++ es').
Proof.
  intros a es b es' H H' (_&_&Hb&_). cbn [In] in Hb. apply sequence_app; auto; intros Q; apply Hb; rewrite Q; auto.
Qed.
Lemma sequence_sane : forall l es, sequence l es -> sane es.
Proof.
  intros l es H. induction H as [|p l es P H IH|t e r mn mx l es S1 R F H IH]; auto; [constructor|].
  constructor; auto. apply repeated_counts in R as [R1 R2]. cbn [snd cmin cmax]. unfold is_count in *. lia.
Qed.
Lemma sequence_unique : forall l es es', sequence l es -> sequence l es' -> es = es'.
Proof.
  intros l es es' H H'. pose proof (parse_sequence _ _ H (length l) (le_n _)) as E.
  rewrite (parse_sequence _ _ H' (length l) (le_n _)) in E. now injection E.
Qed.
Lemma alike_texts : forall x y X Y, fragment x -> fragment y -> sequence x X -> sequence y Y -> alike X Y -> interchangeable x y.
Proof.
  intros x y X Y Fx Fy Sx Sy A left right pre post Fp Fq.
  pose proof Fp as ((P&Sp)&_). pose proof Fq as ((Q&Sq)&_).
  pose proof (fragment_app _ _ Fp (fragment_app _ _ Fx Fq)) as (_&V1&H1&L1).
  pose proof (fragment_app _ _ Fp (fragment_app _ _ Fy Fq)) as (_&V2&H2&L2). cbn [In] in H1, H2.
  pose proof (sequence_fragment_app _ _ _ _ Sp (sequence_fragment_app _ _ _ _ Sx Sq Fq) (fragment_app _ _ Fx Fq)) as S1.
  pose proof (sequence_fragment_app _ _ _ _ Sp (sequence_fragment_app _ _ _ _ Sy Sq Fq) (fragment_app _ _ Fy Fq)) as S2.
  eexists. eexists. split; [apply (anchored_elements left right _ _ S1)|split; [apply (anchored_elements left right _ _ S2)|]]; auto.
  intros text L. unfold Matches.
  assert (G : forall a b, (a = true <-> b = true) -> a = b) by (intros [] [] [? ?]; auto; symmetry; auto).
  apply G. rewrite !matches_loosely by (cbn [elements]; eauto using sequence_sane). cbn [anchorLeft elements].
  assert (K : forall u t, runes_of text = u ++ t -> (loosely (P ++ X ++ Q) t <-> loosely (P ++ Y ++ Q) t)).
  { intros u t E. apply loosely_in_front.
    - eapply sequence_sane; eauto.
    - intros t' L'. apply A. exact L'.
    - rewrite E, app_length in L. lia. }
  split; intros (u&t&E&U&H); exists u, t; repeat split; auto; apply (K u t E); exact H.
Qed.

Lemma num_int : forall m, fits m -> int_text (num m) /\ decimal (num m) = Z.of_nat m.
Proof. intros m F. unfold num, fits in *. apply dec_runes_int. unfold is_count. lia. Qed.
Lemma num_valid : forall m, fits m -> Forall valid_rune (num m).
Proof.
  intros m F. destruct (num_int m F) as [[[_ D] _] _]. eapply Forall_impl; [|exact D]. cbv beta. intros r Hr.
  unfold valid_rune. lia.
Qed.
Lemma repeated_item : forall x e r mn mx, single x e -> repeated r mn mx -> sequence (x ++ r) [(e, {| cmin := mn; cmax := mx |})].
Proof.
  intros x e r mn mx S1 R. replace (x ++ r) with (x ++ r ++ []) by now rewrite app_nil_r. apply sq_item; auto; [|constructor].
  intros _. cbn. split; discriminate.
Qed.
Lemma single_fragment_repeat : forall x e r mn mx, fragment x -> single x e -> repeated r mn mx -> Forall valid_rune r ->
  r = [] \/ last r 0%N <> c_dollar -> fragment (x ++ r).
Proof.
  intros x e r mn mx (_&V&H&L) S1 R Vr Lr. split; [eexists; eapply repeated_item; eauto|]. split; [apply Forall_app; auto|].
  split.
  - rewrite hd_app. destruct x; auto. inversion S1.
  - rewrite last_app. destruct Lr as [-> |Lr]; auto. destruct r; auto.
Qed.
Lemma last_rbrace : forall l, last (l ++ [c_rbrace]) 0%N <> c_dollar.
Proof. intros l. rewrite last_app. discriminate. Qed.
Lemma valid_small : forall c, (c < 128)%N -> valid_rune c. Proof. intros c H. unfold valid_rune. lia. Qed.
(* the ways of writing, with what they are read as *)
Lemma exactly_item : forall x e m, fragment x -> single x e -> fits m ->
  fragment (x ++ exactly m) /\ sequence (x ++ exactly m) [ex e m m].
Proof.
  intros x e m F S1 M. destruct (num_int m M) as [I E]. pose proof (rp_exactly _ I) as R. rewrite E in R.
  split; [|now apply repeated_item]. eapply single_fragment_repeat; eauto.
  - unfold exactly. apply Forall_app. split; [repeat constructor; now apply valid_small|]. apply Forall_app.
    split; [now apply num_valid|repeat constructor; now apply valid_small].
  - right. unfold exactly. rewrite app_assoc. apply last_rbrace.
Qed.
Lemma at_least_item : forall x e m, fragment x -> single x e -> fits m ->
  fragment (x ++ at_least m) /\ sequence (x ++ at_least m) [(e, {| cmin := Z.of_nat m; cmax := max_int64 |})].
Proof.
  intros x e m F S1 M. destruct (num_int m M) as [I E]. pose proof (rp_atleast _ I) as R. rewrite E in R.
  split; [|now apply repeated_item]. eapply single_fragment_repeat; eauto.
  - unfold at_least. apply Forall_app. split; [repeat constructor; now apply valid_small|]. apply Forall_app.
    split; [now apply num_valid|repeat constructor; now apply valid_small].
  - right. unfold at_least. rewrite !app_assoc. apply last_rbrace.
Qed.
Lemma between_item : forall x e m n, fragment x -> single x e -> fits m -> fits n ->
  fragment (x ++ between m n) /\ sequence (x ++ between m n) [ex e m n].
Proof.
  intros x e m n F S1 M Mn. destruct (num_int m M) as [I E], (num_int n Mn) as [I' E'].
  pose proof (rp_between _ _ I I') as R. rewrite E, E' in R.
  split; [|now apply repeated_item]. eapply single_fragment_repeat; eauto.
  - unfold between. apply Forall_app. split; [repeat constructor; now apply valid_small|]. apply Forall_app.
    split; [now apply num_valid|]. apply Forall_app. split; [repeat constructor; now apply valid_small|]. apply Forall_app.
    split; [now apply num_valid|repeat constructor; now apply valid_small].
  - right. unfold between. rewrite !app_assoc. apply last_rbrace.
Qed.
Lemma star_item : forall x e, fragment x -> single x e ->
  fragment (x ++ star) /\ sequence (x ++ star) [(e, {| cmin := 0; cmax := max_int64 |})].
Proof.
  intros x e F S1. split; [|apply repeated_item; auto; constructor]. eapply single_fragment_repeat; eauto; [constructor| |].
  - repeat constructor; now apply valid_small.
  - right. discriminate.
Qed.
Lemma once_item : forall x e, fragment x -> single x e -> sequence x [ex e 1 1].
Proof. intros x e F S1. rewrite <- (app_nil_r x). apply repeated_item; auto. constructor. Qed.
Lemma times_item : forall x X m, fragment x -> sequence x X ->
  fragment (times m x) /\ sequence (times m x) (concat (repeat X m)).
Proof.
  intros x X m F H. induction m as [|m [I1 I2]]; unfold times in *; cbn [repeat concat].
  - split; [apply fragment_nil|constructor].
  - split; [now apply fragment_app|]. now apply sequence_fragment_app.
Qed.
Lemma concat_singletons : forall (d : dupl) m, concat (repeat [d] m) = repeat d m.
Proof. intros d. induction m as [|m IH]; cbn; auto. now rewrite IH. Qed.

(* ---- what fails ---- *)
Lemma loosely_all_impossible : forall P e m n Q t, sane P -> n < m -> ~ loosely (P ++ ex e m n :: Q) t.
Proof.
  induction P as [|[e' c] P IH]; intros e m n Q t Sn L H; cbn [app] in H; [now apply loosely_impossible in H|].
  inversion Sn as [|? ? [P1 P2] Ps]; subst. cbn [snd] in *. apply loosely_cons in H as (i&_&_&_&H); auto. now apply IH in H.
Qed.
Lemma number_one : forall e r l, number e (r :: l) = (if el_matches e r then 1 else 0) + number e l.
Proof. intros. unfold number. cbn [filter]. now destruct el_matches. Qed.
Section Two.
Variables (e : element) (a y : N).
Hypothesis (Aa : accepts e a) (Ay : ~ accepts e y).
Lemma ea : el_matches e a = true. Proof. now apply el_matches_spec. Qed.
Lemma ey : el_matches e y = false.
Proof. destruct (el_matches e y) eqn:E; auto. apply el_matches_spec in E. contradiction. Qed.
Lemma not_first : forall l, ~ loosely [ex e 1 1] (y :: l).
Proof. intros l H. apply loosely_exact in H as (_&F&_). cbn [firstn] in F. inversion F. contradiction. Qed.
Lemma first : forall l, loosely [ex e 1 1] (a :: l).
Proof. intros l. apply loosely_exact. cbn [firstn length]. repeat split; [lia|now repeat constructor|constructor]. Qed.
Lemma loosely_star : forall es t, (Z.of_nat (length t) <= max_int64)%Z ->
  (loosely ((e, {| cmin := 0; cmax := max_int64 |}) :: es) t <-> exists i, i <= number e t /\ loosely es (skipn i t)).
Proof.
  intros es t L. rewrite loosely_cons by (cbn [cmin cmax]; unfold max_int64; lia). cbn [cmin cmax].
  rewrite firstn_all2 by lia. split.
  - intros (i&_&H&_&Q). eauto.
  - intros (i&H&Q). exists i. repeat split; auto; [cbn; lia|constructor].
Qed.
Lemma star_twice : loosely [(e, {| cmin := 0; cmax := max_int64 |}); (e, {| cmin := 0; cmax := max_int64 |}); ex e 1 1] [y; y; y; a; a].
Proof.
  apply loosely_star; [cbn; unfold max_int64; lia|]. exists 2. rewrite !number_one, ea, ey. split; [cbn; lia|]. cbn [skipn].
  apply loosely_star; [cbn; unfold max_int64; lia|]. exists 1. rewrite !number_one, ea, ey. split; [cbn; lia|]. cbn [skipn].
  apply first.
Qed.
Lemma star_once : ~ loosely [(e, {| cmin := 0; cmax := max_int64 |}); ex e 1 1] [y; y; y; a; a].
Proof.
  intros H. apply loosely_star in H as (i&L&H); [|cbn; unfold max_int64; lia]. rewrite !number_one, ea, ey in L. cbn in L.
  destruct i as [|[|[|i]]]; [| | |lia]; cbn [skipn] in H; now apply not_first in H.
Qed.
Lemma optional_many : forall n, 2 <= n -> loosely [ex e 0 n; ex e 1 1] [y; a].
Proof.
  intros n L. apply loosely_ex. exists 1. rewrite firstn_all2 by (cbn; lia). rewrite !number_one, ea, ey. cbn [skipn].
  split; [lia|]. split; [cbn; lia|]. split; [constructor|apply first].
Qed.
Lemma optional_each : forall n, ~ loosely (repeat (ex e 0 1) n ++ [ex e 1 1]) [y; a].
Proof.
  induction n as [|n IH]; cbn [repeat app]; intros H; [now apply not_first in H|].
  apply loosely_ex in H as (i&_&L&_&H). cbn [firstn] in L. rewrite number_one, ey in L. cbn in L.
  replace i with 0 in H by lia. now apply IH.
Qed.
End Two.
Lemma interchangeable_matches : forall x y X Y e z t, interchangeable x y -> fragment x -> fragment y -> sequence x X -> sequence y Y ->
  fragment z -> single z e -> Forall valid_rune t -> (Z.of_nat (length t) <= max_int64)%Z ->
  (loosely (X ++ [ex e 1 1]) t <-> loosely (Y ++ [ex e 1 1]) t).
Proof.
  intros x y X Y e z t I Fx Fy Sx Sy Fz Sz V L.
  destruct (I true false [] z fragment_nil Fz) as (b&b'&P1&P2&M). cbn [app] in P1, P2.
  pose proof (once_item z e Fz Sz) as Oz.
  pose proof (fragment_app _ _ Fx Fz) as (_&V1&H1&L1). pose proof (fragment_app _ _ Fy Fz) as (_&V2&H2&L2). cbn [In] in H1, H2.
  rewrite (anchored_elements true false _ _ (sequence_fragment_app _ _ _ _ Sx Oz Fz)) in P1 by auto.
  rewrite (anchored_elements true false _ _ (sequence_fragment_app _ _ _ _ Sy Oz Fz)) in P2 by auto.
  injection P1 as <-. injection P2 as <-. specialize (M (string_of_runes t)). unfold Matches in M.
  rewrite runes_of_string in M by auto. specialize (M L).
  assert (G : forall es, sane es -> (matches_runes {| anchorLeft := true; anchorRight := false; elements := es |} t = true <-> loosely es t)).
  { intros es Sn. rewrite matches_loosely by auto. cbn [anchorLeft elements]. split.
    - intros (u&t'&E&U&H). rewrite E, (U eq_refl). exact H.
    - intros H. exists [], t. auto. }
  rewrite <- !G, M by (apply Forall_app; split; [eapply sequence_sane; eauto|repeat constructor; cbn; lia]). reflexivity.
Qed.
