(* The syntax error of a, i and c whose text is not ended. *)
From Verif Require Import GoBase GoFacts NumFacts Utf8Facts RuneFacts EdModel EdPegModel EdPegSpec EdPegProofs EdPegProofs2 EdPegProofs4
  EdErrModel EdErrSpec EdErrProofs EdErrProofs2.
Local Open Scope nat_scope.

(* ---- rules that do not go past the end of a line ---- *)
Definition guards (g : nexp) : bool :=
  match g with NChr c => N.eqb c 10 | NAlt (NChr c) (NChr d) => N.eqb c 10 || N.eqb d 10 | _ => false end%bool.
Fixpoint in_line (e : nexp) : bool :=
  match e with
  | NChr c => negb (N.eqb c 10)
  | NRange lo hi => negb (N.leb lo 10 && N.leb 10 hi)
  | NDot => false
  | NSeq a b => match a, b with NNot g, NDot => guards g | _, _ => in_line a && in_line b end
  | NAlt a b => in_line a && in_line b
  | NStar a | NOpt a | NText a | NNot a | NRule _ a => in_line a
  | NAct _ => true
  end%bool.
Definition stays (f : named -> nat -> list N -> nres * named) : Prop :=
  forall m pos u v, ~ In 10%N u -> t_end m <= pos + List.length u ->
    t_end (snd (f m pos (u ++ 10%N :: v))) <= pos + List.length u /\
    forall p r, fst (f m pos (u ++ 10%N :: v)) = NOk p r ->
      exists u2, r = u2 ++ 10%N :: v /\ ~ In 10%N u2 /\ pos <= p /\ p + List.length u2 = pos + List.length u.
Lemma add_end : forall n b p m k, t_end m <= k -> p <= k -> t_end (add n b p m) <= k.
Proof. intros. unfold add. destruct (_ && _)%bool; cbn; lia. Qed.
Lemma star_stays : forall f, stays f -> forall k, stays (nstar_loop f k).
Proof.
  intros f H. induction k as [|k IH]; intros m pos u v U M; cbn [nstar_loop].
  { split; [exact M|discriminate]. }
  destruct (H m pos u v U M) as [H1 H2]. destruct (f m pos (u ++ 10%N :: v)) as [x m1]. cbn [fst snd] in H1, H2.
  destruct x as [p r| |].
  - destruct (H2 _ _ eq_refl) as (u2&->&U2&P1&P2). destruct (p =? pos); [split; [exact H1|discriminate]|].
    destruct (IH m1 p u2 v U2) as [I1 I2]; [lia|]. split; [lia|].
    intros p' r' E. apply I2 in E as (u3&->&U3&Q1&Q2). exists u3. repeat split; auto; lia.
  - split; [exact H1|]. intros p r [= <- <-]. exists u. auto.
  - split; [exact H1|discriminate].
Qed.
Lemma seq_stays : forall a b, stays (nmatch a) -> stays (nmatch b) -> stays (nmatch (NSeq a b)).
Proof.
  intros a b A Bb m pos u v U M. cbn [nmatch]. destruct (A m pos u v U M) as [H1 H2].
  destruct (nmatch a m pos (u ++ 10%N :: v)) as [x m1]. cbn [fst snd] in H1, H2.
  destruct x as [p r| |]; [|split; [exact H1|discriminate]..].
  destruct (H2 _ _ eq_refl) as (u2&->&U2&P1&P2). destruct (Bb m1 p u2 v U2) as [I1 I2]; [lia|]. split; [lia|].
  intros p' r' E. apply I2 in E as (u3&->&U3&Q1&Q2). exists u3. repeat split; auto; lia.
Qed.
Lemma guard_stays : forall g, guards g = true -> stays (nmatch (NSeq (NNot g) NDot)).
Proof.
  intros g G m pos u v U M. destruct u as [|x u].
  - cbn [app]. assert (E : nmatch (NSeq (NNot g) NDot) m pos (10%N :: v) = (NFail, m)).
    { apply nseq_fail. cbn [nmatch]. destruct g; try discriminate; cbn [guards] in G.
      - apply N.eqb_eq in G as ->. reflexivity.
      - destruct g1; try discriminate. destruct g2; try discriminate. cbn [nmatch]. rewrite (N.eqb_sym 10 c), (N.eqb_sym 10 c0).
        destruct (N.eqb c 10); [reflexivity|]. cbn [orb] in G. now rewrite G. }
    rewrite E. split; [exact M|discriminate].
  - assert (E : exists z, nmatch (NSeq (NNot g) NDot) m pos ((x :: u) ++ 10%N :: v) = (z, m) /\ (z = NFail \/ z = NOk (S pos) (u ++ 10%N :: v))).
    { destruct g; try discriminate; cbn [nmatch app].
      - destruct (N.eqb x c); eauto.
      - destruct g1; try discriminate. destruct g2; try discriminate. cbn [nmatch]. destruct (N.eqb x c); [eauto|]. destruct (N.eqb x c0); eauto. }
    destruct E as (z&->&Z). split; [exact M|]. cbn [fst]. intros p r ->. destruct Z as [Z|Z]; [discriminate|]. injection Z as -> ->.
    exists u. cbn [List.length]. repeat split; auto; [|lia..]. intros I. apply U. now right.
Qed.
Lemma in_line_stays : forall e, in_line e = true -> stays (nmatch e).
Proof.
  induction e; intros L.
  - intros m pos u v U M. cbn [nmatch fst snd in_line] in *. split; [exact M|]. destruct u as [|x u]; cbn [app].
    + rewrite (N.eqb_sym 10 c). apply negb_true_iff in L. rewrite L. discriminate.
    + destruct (N.eqb x c); [|discriminate]. intros p r [= <- <-]. exists u. cbn [List.length] in *. repeat split; auto; [|lia..]. intros I. apply U. now right.
  - intros m pos u v U M. cbn [nmatch fst snd in_line] in *. split; [exact M|]. destruct u as [|x u]; cbn [app].
    + apply negb_true_iff in L. rewrite L. discriminate.
    + destruct ((lo <=? x)%N && (x <=? hi)%N)%bool; [|discriminate]. intros p r [= <- <-]. exists u. cbn [List.length] in *. repeat split; auto; [|lia..]. intros I. apply U. now right.
  - discriminate.
  - cbn [in_line] in L. assert (D : (exists g, e1 = NNot g /\ e2 = NDot /\ guards g = true) \/ (in_line e1 && in_line e2)%bool = true).
    { destruct e1; auto. destruct e2; auto. left. eauto. }
    destruct D as [(g&->&->&G)|D]; [now apply guard_stays|]. apply andb_true_iff in D as [D1 D2]. apply seq_stays; auto.
  - apply andb_true_iff in L as [L1 L2]. intros m pos u v U M. cbn [nmatch]. destruct (IHe1 L1 m pos u v U M) as [H1 H2].
    destruct (nmatch e1 m pos (u ++ 10%N :: v)) as [x m1]. cbn [fst snd] in H1, H2.
    destruct x as [p r| |]; cbn [fst snd]; [auto| |split; [exact H1|discriminate]]. now apply IHe2.
  - intros m pos u v U M. apply star_stays; auto.
  - intros m pos u v U M. cbn [nmatch]. destruct (IHe L m pos u v U M) as [H1 H2].
    destruct (nmatch e m pos (u ++ 10%N :: v)) as [x m1]. cbn [fst snd] in H1, H2.
    destruct x as [p r| |]; cbn [fst snd]; (split; [exact H1|]); [exact H2| |discriminate]. intros p r [= <- <-]. exists u. auto.
  - intros m pos u v U M. cbn [nmatch]. destruct (IHe L m pos u v U M) as [H1 H2].
    destruct (nmatch e m pos (u ++ 10%N :: v)) as [x m1]. cbn [fst snd] in H1, H2.
    destruct x as [p r| |]; cbn [fst snd]; (split; [exact H1|]); [discriminate| |discriminate]. intros p r [= <- <-]. exists u. auto.
  - intros m pos u v U M. cbn [nmatch]. destruct (IHe L m pos u v U M) as [H1 H2].
    destruct (nmatch e m pos (u ++ 10%N :: v)) as [x m1]. cbn [fst snd] in H1, H2.
    destruct x as [p r| |]; cbn [fst snd]; [|split; [exact H1|discriminate]..]. split; [|exact H2].
    destruct (H2 _ _ eq_refl) as (u2&_&_&_&P). apply add_end; [exact H1|lia].
  - intros m pos u v U M. rewrite nact_ok. split; [exact M|]. intros p r [= <- <-]. exists u. auto.
  - intros m pos u v U M. cbn [nmatch]. destruct (IHe L m pos u v U M) as [H1 H2].
    destruct (nmatch e m pos (u ++ 10%N :: v)) as [x m1]. cbn [fst snd] in H1, H2.
    destruct x as [p r| |]; cbn [fst snd]; [|split; [exact H1|discriminate]..]. split; [|exact H2].
    destruct (H2 _ _ eq_refl) as (u2&_&_&_&P). apply add_end; [exact H1|lia].
Qed.

(* ---- once a token ends where the command ends, it stays ---- *)
Lemma full_star : forall total f, (forall m pos rest, token_ok total m -> pos + List.length rest = total -> total <= t_end m -> snd (f m pos rest) = m) ->
  keeps total f -> forall k m pos rest, pos + List.length rest = total -> total <= t_end m -> token_ok total m -> snd (nstar_loop f k m pos rest) = m.
Proof.
  intros total f H K. induction k as [|k IH]; intros m pos rest P M O; cbn [nstar_loop]; [reflexivity|].
  specialize (H m pos rest O P M). destruct (K m pos rest O P) as [_ K2]. destruct (f m pos rest) as [x m1]. cbn [fst snd] in *. subst m1.
  destruct x as [p r| |]; [|reflexivity..]. destruct (p =? pos); [reflexivity|]. apply IH; auto. now apply (K2 p r).
Qed.
Lemma full_stays : forall total e m pos rest, token_ok total m -> pos + List.length rest = total -> total <= t_end m -> snd (nmatch e m pos rest) = m.
Proof.
  intros total e m. induction e; intros pos rest O P M; cbn [nmatch]; try reflexivity.
  - specialize (IHe1 pos rest O P M). destruct (nmatch_keeps total e1 m pos rest O P) as [_ K].
    destruct (nmatch e1 m pos rest) as [x m1]. cbn [fst snd] in *. subst m1. destruct x as [p r| |]; [|reflexivity..].
    apply IHe2; auto. now apply (K p r).
  - specialize (IHe1 pos rest O P M). destruct (nmatch e1 m pos rest) as [x m1]. cbn [fst snd] in *. subst m1. destruct x as [p r| |]; [reflexivity| |reflexivity].
    apply IHe2; auto.
  - assert (G : forall k p r, p + List.length r = total -> snd (nstar_loop (nmatch e) k m p r) = m).
    { induction k as [|k IHk]; intros p r Q; cbn [nstar_loop]; [reflexivity|].
      specialize (IHe p r O Q M) as E. destruct (nmatch_keeps total e m p r O Q) as [_ K].
      destruct (nmatch e m p r) as [x m1]. cbn [fst snd] in *. subst m1. destruct x as [p' r'| |]; [|reflexivity..].
      destruct (p' =? p); [reflexivity|]. apply IHk. now apply (K p' r'). }
    now apply G.
  - specialize (IHe pos rest O P M). destruct (nmatch e m pos rest) as [x m1]. cbn [fst snd] in *. subst m1. now destruct x.
  - specialize (IHe pos rest O P M). destruct (nmatch e m pos rest) as [x m1]. cbn [fst snd] in *. subst m1. now destruct x.
  - specialize (IHe pos rest O P M). destruct (nmatch_keeps total e m pos rest O P) as [_ K].
    destruct (nmatch e m pos rest) as [x m1]. cbn [fst snd] in *. subst m1. destruct x as [p r| |]; try reflexivity.
    cbn [snd]. apply add_no. destruct (K p r eq_refl). lia.
  - rewrite add_same. reflexivity.
  - specialize (IHe pos rest O P M). destruct (nmatch_keeps total e m pos rest O P) as [_ K].
    destruct (nmatch e m pos rest) as [x m1]. cbn [fst snd] in *. subst m1. destruct x as [p r| |]; try reflexivity.
    cbn [snd]. apply add_no. destruct (K p r eq_refl). lia.
Qed.
Lemma seq_full : forall total a b m pos rest, token_ok total m -> pos + List.length rest = total ->
  total <= t_end (snd (nmatch a m pos rest)) -> snd (nmatch (NSeq a b) m pos rest) = snd (nmatch a m pos rest).
Proof.
  intros total a b m pos rest O P M. cbn [nmatch]. destruct (nmatch_keeps total a m pos rest O P) as [K1 K2].
  destruct (nmatch a m pos rest) as [x m1]. cbn [fst snd] in *. destruct x as [p r| |]; [|reflexivity..].
  apply (full_stays total); auto. now apply (K2 p r).
Qed.
Lemma rule_full : forall total n a m pos rest, token_ok total m -> pos + List.length rest = total ->
  total <= t_end (snd (nmatch a m pos rest)) -> snd (nmatch (NRule n a) m pos rest) = snd (nmatch a m pos rest).
Proof.
  intros total n a m pos rest O P M. cbn [nmatch]. destruct (nmatch_keeps total a m pos rest O P) as [K1 K2].
  destruct (nmatch a m pos rest) as [x m1]. cbn [fst snd] in *. destruct x as [p r| |]; [|reflexivity..].
  cbn [snd]. apply add_no. destruct (K2 p r eq_refl). lia.
Qed.
Lemma first_full : forall total l m pos rest, token_ok total m -> pos + List.length rest = total -> total <= t_end m ->
  snd (nfirst_of l m pos rest) = m.
Proof.
  intros total. induction l as [|a l IH]; intros m pos rest O P M; cbn [nfirst_of]; [reflexivity|].
  pose proof (full_stays total a m pos rest O P M) as F. destruct (nmatch a m pos rest) as [x m1]. cbn [snd] in F. subst m1.
  destruct x; auto.
Qed.

(* ---- text without an end ---- *)
Lemma nopt_same : forall a m pos rest p r t, in_line a = true -> forall u v, rest = u ++ 10%N :: v -> ~ In 10%N u -> t_end m <= pos + List.length u ->
  pmatch (bare a) pos rest = POk p r t -> exists m1, nmatch a m pos rest = (NOk p r, m1) /\ t_end m1 <= pos + List.length u.
Proof.
  intros a m pos rest p r t L u v -> U M H. destruct (in_line_stays a L m pos u v U M) as [S1 _].
  pose proof (nmatch_same a m pos (u ++ 10%N :: v)) as K. rewrite H in K. cbn [same] in K.
  destruct (nmatch a m pos (u ++ 10%N :: v)) as [x m1]. cbn [fst snd] in *. subst x. eauto.
Qed.
Lemma nfail_same : forall a m pos u v, in_line a = true -> ~ In 10%N u -> t_end m <= pos + List.length u ->
  pmatch (bare a) pos (u ++ 10%N :: v) = PFail -> exists m1, nmatch a m pos (u ++ 10%N :: v) = (NFail, m1) /\ t_end m1 <= pos + List.length u.
Proof.
  intros a m pos u v L U M H. destruct (in_line_stays a L m pos u v U M) as [S1 _].
  pose proof (nmatch_same a m pos (u ++ 10%N :: v)) as K. rewrite H in K. cbn [same] in K.
  destruct (nmatch a m pos (u ++ 10%N :: v)) as [x m1]. cbn [fst snd] in *. subst x. eauto.
Qed.
Lemma chars_to_the_end : forall U pos k m, no_term U -> List.length U < k ->
  nstar_loop (nmatch (NSeq (NNot n_textTerm) NDot)) k m pos U = (NOk (pos + List.length U) [], m).
Proof.
  induction U as [|c U IH]; intros pos k m N L; (destruct k as [|k]; [cbn in L; lia|]); cbn [nstar_loop].
  - cbn [List.length]. rewrite Nat.add_0_r. reflexivity.
  - assert (E : nmatch (NSeq (NNot n_textTerm) NDot) m pos (c :: U) = (NOk (S pos) U, m)).
    { cbn [nmatch n_textTerm nchr]. change (byte_val nl) with 10%N. change (byte_val ".") with 46%N.
      destruct (N.eqb_spec c 10) as [->|]; auto. destruct U as [|d U]; auto.
      destruct (N.eqb_spec d 46) as [->|]; auto. exfalso. now apply (N [] U). }
    rewrite E. destruct (Nat.eqb_spec (S pos) pos); [lia|]. rewrite IH.
    + cbn [List.length app]. do 2 f_equal. lia.
    + intros a b ->. now apply (N (c :: a) b).
    + cbn in L. lia.
Qed.
(* the letter, the newline and the text that is not ended *)
Lemma open_text : forall C nm m pos x U, nmatch C m pos (byte_val x :: 10%N :: U) = (NOk (S pos) (10%N :: U), add nm pos (S pos) m) ->
  t_end m <= S pos -> no_term U -> U <> [] ->
  nmatch (NSeq C (NSeq n_newLine n_text)) m pos (byte_val x :: 10%N :: U) =
  (NFail, {| t_rule := B "PegText"; t_begin := S (S pos); t_end := S (S pos) + List.length U |}).
Proof.
  intros C nm m pos x U H M N Ne. rewrite (nseq_ok _ _ _ _ _ _ _ _ H). set (m1 := add nm pos (S pos) m).
  assert (M1 : t_end m1 <= S pos) by (apply add_end; lia).
  assert (Nl : nmatch n_newLine m1 (S pos) (10%N :: U) = (NOk (S (S pos)) U, add (B "newLine") (S pos) (S (S pos)) m1)).
  { unfold n_newLine. apply nrule_ok. exact (nchr_ok nl m1 (S pos) U). }
  rewrite (nseq_ok _ _ _ _ _ _ _ _ Nl). set (m2 := add (B "newLine") (S pos) (S (S pos)) m1).
  assert (M2 : t_end m2 <= S (S pos)) by (apply add_end; lia).
  unfold n_text. apply nrule_fail.
  assert (T : nmatch (NText (NStar (NSeq (NNot n_textTerm) NDot))) m2 (S (S pos)) U =
    (NOk (S (S pos) + List.length U) [], {| t_rule := B "PegText"; t_begin := S (S pos); t_end := S (S pos) + List.length U |})).
  { change (nmatch (NText (NStar (NSeq (NNot n_textTerm) NDot))) m2 (S (S pos)) U) with
      (match nstar_loop (nmatch (NSeq (NNot n_textTerm) NDot)) (S (List.length U)) m2 (S (S pos)) U with
       | (NOk p r, m) => (NOk p r, add (B "PegText") (S (S pos)) p m) | x => x end).
    rewrite chars_to_the_end by (auto; lia). f_equal. destruct U; [congruence|]. apply add_yes; cbn [List.length]; lia. }
  rewrite (nseq_ok _ _ _ _ _ _ _ _ T). reflexivity.
Qed.
(* a range has no newline in it *)
Lemma digits_no_nl : forall ds, digits ds -> ~ In nl ds.
Proof. intros ds D I. unfold digits in D. rewrite Forall_forall in D. apply D in I. vm_compute in I. destruct I as [I _]. now apply I. Qed.
Lemma expression_no_nl : forall d re, d <> nl -> expression d re -> ~ In nl re.
Proof.
  intros d re D E. induction E as [|c r C1 C2 _ E IH|r E IH]; [intros []| |].
  - intros [I|I]; [congruence|auto].
  - intros [I|[I|I]]; [discriminate|congruence|auto].
Qed.
Lemma waddr_no_nl : forall a, waddr_ok a -> ~ In nl (waddr_text a).
Proof.
  intros [b o] [Hb Ho] I. unfold waddr_text in I. cbn [w_base w_off] in *. apply in_app_or in I as [I|I].
  - destruct b as [ds| | |re|c|re]; cbn [base_ok base_text] in *.
    + destruct Hb as [D _]. now apply digits_no_nl in I.
    + destruct I as [I|[]]. discriminate.
    + destruct I as [I|[]]. discriminate.
    + destruct Hb as (_&_&X). apply in_app_or in I as [[I|[]]|I]; [discriminate|]. apply in_app_or in I as [I|[I|[]]]; [|discriminate].
      revert I. eapply expression_no_nl; [|exact X]; discriminate.
    + destruct I as [I|[I|[]]]; [discriminate|]. subst c. vm_compute in Hb. destruct Hb as [Hb _]. now apply Hb.
    + destruct Hb as (_&_&X). apply in_app_or in I as [[I|[]]|I]; [discriminate|]. apply in_app_or in I as [I|[I|[]]]; [|discriminate].
      revert I. eapply expression_no_nl; [|exact X]; discriminate.
  - destruct Ho as [->|(s&ks&->&S&D)]; [destruct I|]. destruct I as [I|I]; [subst s; destruct S; discriminate|]. now apply digits_no_nl in I.
Qed.
Lemma blanks_no_nl : forall b, blanks b -> ~ In nl b.
Proof. intros b H I. unfold blanks in H. rewrite Forall_forall in H. apply H in I as [I|I]; discriminate. Qed.
Lemma sep_no_nl : forall s, separator s -> s <> nl.
Proof. intros s [-> | ->]; discriminate. Qed.
Ltac rename_in := match goal with H : In nl _ |- _ => rename H into I end.
Lemma wrange_no_nl : forall r, wrange_ok r -> ~ In nl (wrange_text r).
Proof.
  intros r H I. destruct r as [|a|a b1 s b2 b0|a b1 s|s b2 b0|s]; cbn [wrange_ok wrange_text] in *.
  - destruct I.
  - now apply waddr_no_nl in I.
  - destruct H as (Ha&H1&Sp&H2&Hb). rewrite !in_app_iff in I; decompose [or] I; clear I; rename_in.
    + now apply waddr_no_nl in I.
    + now apply blanks_no_nl in I.
    + destruct I as [I|[]]. now apply sep_no_nl in Sp.
    + now apply blanks_no_nl in I.
    + now apply waddr_no_nl in I.
  - destruct H as (Ha&H1&Sp). rewrite !in_app_iff in I; decompose [or] I; clear I; rename_in.
    + now apply waddr_no_nl in I.
    + now apply blanks_no_nl in I.
    + destruct I as [I|[]]. now apply sep_no_nl in Sp.
  - destruct H as (Sp&H2&Hb). rewrite !in_app_iff in I; decompose [or] I; clear I; rename_in.
    + destruct I as [I|[]]. now apply sep_no_nl in Sp.
    + now apply blanks_no_nl in I.
    + now apply waddr_no_nl in I.
  - destruct I as [I|[]]. now apply sep_no_nl in H.
Qed.
Lemma no_nl_range : forall r gap x, wrange_ok r -> blanksN gap -> text_letter x -> ~ In 10%N (R (wrange_text r) ++ gap ++ [byte_val x]).
Proof.
  intros r gap x Hr Hg Hx I. apply in_app_or in I as [I|I]; [|apply in_app_or in I as [I|[I|[]]]].
  - apply in_map_iff in I as (c&Q&I). change 10%N with (byte_val nl) in Q. apply N.eqb_eq in Q. rewrite byte_eqb in Q. apply Ascii.eqb_eq in Q.
    subst c. now apply wrange_no_nl in I.
  - unfold blanksN in Hg. rewrite Forall_forall in Hg. apply Hg in I. discriminate.
  - destruct Hx as [-> |[-> | ->]]; discriminate.
Qed.
Lemma nseq_early : forall a b c m pos rest m1, nmatch (NSeq a b) m pos rest = (NFail, m1) -> nmatch (NSeq a (NSeq b c)) m pos rest = (NFail, m1).
Proof.
  intros a b c m pos rest m1 H. cbn [nmatch] in *. destruct (nmatch a m pos rest) as [[p r| |] m0]; auto. now rewrite H.
Qed.
Lemma open_cmd : forall m pos r gap x U, wrange_ok r -> text_letter x -> text_range x r -> blanksN gap -> (~ closed r -> gap = []) ->
  no_term U -> U <> [] -> let n := List.length (wrange_text r) + List.length gap in
  t_end m <= pos + S n ->
  snd (nfirst_of n_cmds m pos (R (wrange_text r) ++ gap ++ byte_val x :: 10%N :: U)) =
  {| t_rule := B "PegText"; t_begin := pos + n + 2; t_end := pos + n + 2 + List.length U |}.
Proof.
  intros m pos r gap x U Hr Hx Tx Hg Ng HU Ne n M.
  assert (N : r = NoAddress -> gap = []) by (intros ->; apply Ng; intros []).
  assert (E : ends_at loud (byte_val x :: 10%N :: U)) by now apply loud_text.
  pose proof (no_nl_range r gap x Hr Hg Hx) as Nl.
  set (u := R (wrange_text r) ++ gap ++ [byte_val x]) in *.
  assert (Lu : List.length u = S n) by (unfold u, n; rewrite !app_length, R_length; cbn [List.length]; lia).
  assert (Eu : R (wrange_text r) ++ gap ++ byte_val x :: 10%N :: U = u ++ 10%N :: U) by (unfold u; now rewrite <- !app_assoc).
  assert (step : forall a m0, in_line a = true -> t_end m0 <= pos + S n ->
     pmatch (bare a) pos (R (wrange_text r) ++ gap ++ byte_val x :: 10%N :: U) = PFail ->
     exists m1, nmatch a m0 pos (u ++ 10%N :: U) = (NFail, m1) /\ t_end m1 <= pos + S n).
  { intros a m0 L M0 F. rewrite Eu in F. destruct (nfail_same a m0 pos u U L Nl) as (m1&H1&H2); [lia|exact F|].
    exists m1. split; [exact H1|lia]. }
  set (mT := {| t_rule := B "PegText"; t_begin := pos + n + 2; t_end := pos + n + 2 + List.length U |}).
  assert (Tot : pos + List.length (u ++ 10%N :: U) = pos + n + 2 + List.length U) by (rewrite app_length, Lu; cbn [List.length]; lia).
  assert (done : forall l, snd (nfirst_of l mT pos (u ++ 10%N :: U)) = mT).
  { intros l. apply (first_full (pos + n + 2 + List.length U)); [|exact Tot|reflexivity]. right. unfold mT. cbn [t_begin t_end].
    destruct U; [congruence|cbn [List.length]; lia]. }
  rewrite Eu. unfold n_cmds.
  destruct (step n_bareCmd m eq_refl M) as (m1&S1&M1). { apply block_bare; auto; destruct Hx as [-> |[-> | ->]]; reflexivity. }
  rewrite (nfirst_skip _ _ _ _ _ _ S1). clear S1 M m.
  destruct (step n_paramCmd m1 eq_refl M1) as (m2&S2&M2). { apply block_param; auto; destruct Hx as [-> |[-> | ->]]; reflexivity. }
  rewrite (nfirst_skip _ _ _ _ _ _ S2). clear S2 M1 m1.
  destruct (step n_rangeCmd m2 eq_refl M2) as (m3&S3&M3). { apply block_range; auto; destruct Hx as [-> |[-> | ->]]; reflexivity. }
  rewrite (nfirst_skip _ _ _ _ _ _ S3). clear S3 M2 m2.
  destruct (step n_addrCmd m3 eq_refl M3) as (m4&S4&M4). { apply block_addr; auto; destruct Hx as [-> |[-> | ->]]; reflexivity. }
  rewrite (nfirst_skip _ _ _ _ _ _ S4). clear S4 M3 m3.
  destruct (Ascii.eqb_spec x "c") as [->|Nc].
  - assert (C : nmatch n_changeTextCmd m4 pos (u ++ 10%N :: U) = (NFail, mT)).
    { unfold n_changeTextCmd. apply nrule_fail.
      assert (P : exists t, pmatch (POpt r_range) pos (u ++ 10%N :: U) = POk (pos + n) (byte_val "c" :: 10%N :: U) t).
      { rewrite <- Eu. rewrite opt_range_ok by auto. unfold used, n. destruct (closedb r) eqn:Cl.
        - eexists. rewrite Nat.add_assoc. reflexivity.
        - assert (gap = []) as -> by (apply Ng; destruct r; cbn in *; (discriminate || tauto)). eexists. cbn [List.length app].
          rewrite !Nat.add_0_r. reflexivity. }
      destruct P as [t P]. destruct (nopt_same (NOpt n_range) m4 pos (u ++ 10%N :: U) _ _ t eq_refl u U eq_refl Nl ltac:(lia) P) as (m5&P5&M5).
      rewrite (nseq_ok _ _ _ _ _ _ _ _ P5).
      rewrite (open_text n_changeTextC (B "changeTextC") m5 (pos + n) "c" U); [|unfold n_changeTextC; apply nrule_ok|lia|exact HU|exact Ne].
      - unfold mT. do 3 f_equal; lia.
      - rewrite (nseq_ok _ _ _ _ _ _ _ _ (nchr_ok "c" m5 (pos + n) (10%N :: U))). apply nact_ok. }
    rewrite (nfirst_skip _ _ _ _ _ _ C). apply done.
  - assert (C : exists m5, nmatch n_changeTextCmd m4 pos (u ++ 10%N :: U) = (NFail, m5) /\ t_end m5 <= pos + S n).
    { destruct (step (NSeq (NOpt n_range) n_changeTextC) m4 eq_refl M4) as (m5&S5&M5).
      - cbn [bare]. change (PSeq (POpt (bare n_range)) (bare n_changeTextC)) with (PSeq (POpt r_range) r_changeTextC). apply range_block; auto.
        + intros p. apply cannot_start; try reflexivity. destruct Hx as [-> |[-> | ->]]; (reflexivity || congruence).
        + intros c p t Bc. apply cannot_start; try reflexivity. apply blank_cases in Bc as [-> | ->]; reflexivity.
      - exists m5. split; [|exact M5]. unfold n_changeTextCmd. apply nrule_fail. now apply nseq_early. }
    destruct C as (m5&C&M5). rewrite (nfirst_skip _ _ _ _ _ _ C).
    assert (A : nmatch n_addTextCmd m5 pos (u ++ 10%N :: U) = (NFail, mT)).
    { unfold n_addTextCmd. apply nrule_fail.
      assert (P : exists t, pmatch (POpt r_startAddr) pos (u ++ 10%N :: U) = POk (pos + n) (byte_val x :: 10%N :: U) t).
      { rewrite <- Eu. assert (Hr2 : r = NoAddress \/ exists a, r = OneAddress a).
        { destruct Hx as [-> |[-> | ->]]; [| |congruence]; cbn in Tx; destruct r; try tauto; eauto. }
        destruct Hr2 as [->|[a ->]]; eexists.
        - unfold n. rewrite N by auto. cbn [wrange_text R map app List.length]. rewrite !Nat.add_0_r. apply opt_fail, start_fails; auto using loud_addr, loud_blank.
        - apply opt_ok. cbn [wrange_text] in *. unfold n. rewrite Nat.add_assoc. apply start_ok; auto using loud_bds. }
      destruct P as [t P]. destruct (nopt_same (NOpt n_startAddr) m5 pos (u ++ 10%N :: U) _ _ t eq_refl u U eq_refl Nl ltac:(lia) P) as (m6&P6&M6).
      rewrite (nseq_ok _ _ _ _ _ _ _ _ P6).
      rewrite (open_text n_addTextC (B "addTextC") m6 (pos + n) x U); [|unfold n_addTextC; apply nrule_ok|lia|exact HU|exact Ne].
      - unfold mT. do 3 f_equal; lia.
      - destruct Hx as [-> |[-> | ->]]; [| |congruence]; rewrite (nspine_ok 1); cbn [nspine app]; skips;
          apply nfirst_take; (rewrite (nseq_ok _ _ _ _ _ _ _ _ (nchr_ok _ _ _ _)); apply nact_ok). }
    rewrite (nfirst_skip _ _ _ _ _ _ A). apply done.
Qed.
Lemma open_token : forall lead r gap x t, blanks lead -> wrange_ok r -> text_letter x -> text_range x r -> blanks gap -> (~ closed r -> gap = []) ->
  no_term (runes_of t) -> t <> [] ->
  parse_token (lead ++ wrange_text r ++ gap ++ [x; nl] ++ t) =
  Val (Some {| t_rule := B "PegText"; t_begin := List.length (lead ++ wrange_text r ++ gap) + 2;
               t_end := List.length (runes_of (lead ++ wrange_text r ++ gap ++ [x; nl] ++ t)) |}).
Proof.
  intros lead r gap x t Hl Hr Hx Tx Hg Ng HU Ne.
  assert (N : r = NoAddress -> gap = []) by (intros ->; apply Ng; intros []).
  assert (Rj : rejected (lead ++ wrange_text r ++ gap ++ [x; nl] ++ t)) by (apply open_text_rejected; auto).
  apply rejected_token in Rj as (m&Tk). rewrite Tk. do 2 f_equal. revert Tk. unfold parse_token.
  assert (Ax : (byte_val x < 128)%N) by (destruct Hx as [-> |[-> | ->]]; reflexivity).
  assert (Hruns : runes_of (lead ++ wrange_text r ++ gap ++ [x; nl] ++ t) = R lead ++ (R (wrange_text r) ++ R gap ++ byte_val x :: 10%N :: runes_of t)).
  { replace (lead ++ wrange_text r ++ gap ++ [x; nl] ++ t) with ((lead ++ wrange_text r ++ gap ++ [x; nl]) ++ t) by now rewrite <- !app_assoc.
    rewrite runes_R; [now rewrite !R_app, <- !app_assoc|].
    repeat apply ascii_app; auto using ascii_blanks, ascii_wrange. apply ascii_B1; auto. apply ascii_B1; [reflexivity|constructor]. }
  rewrite Hruns. set (body := R (wrange_text r) ++ R gap ++ byte_val x :: 10%N :: runes_of t).
  assert (Hb : exists c tl, body = c :: tl /\ blankN c = false).
  { assert (Q : ends_at blankN body) by (apply range_not_blank; auto; intros Q; rewrite N by auto; now apply loud_blank, loud_text).
    destruct body as [|c tl] eqn:Eb; [|exists c, tl; auto]. unfold body in Eb. apply app_eq_nil in Eb as [_ Eb]. apply app_eq_nil in Eb as [_ Eb]. discriminate. }
  destruct Hb as (c&tl&Eb&Bc).
  assert (Nr : runes_of t <> []).
  { intros Q. destruct (decode_rune t) as [y w] eqn:D. rewrite (runes_of_step _ _ _ Ne D) in Q. discriminate. }
  set (mT := {| t_rule := B "PegText"; t_begin := List.length (lead ++ wrange_text r ++ gap) + 2; t_end := List.length (R lead ++ body) |}).
  set (total := List.length (R lead ++ body)) in *.
  assert (Tot : total = List.length lead + List.length (wrange_text r) + List.length gap + 2 + List.length (runes_of t)).
  { unfold total, body. rewrite !app_length, !R_length. cbn [List.length]. lia. }
  set (m0 := add (B "sp") 0 (List.length (R lead)) no_token).
  assert (Fst : snd (nfirst_of n_cmds m0 (List.length (R lead)) body) = mT).
  { unfold body. rewrite open_cmd; auto using blanks_N.
    - unfold mT. rewrite Tot, !app_length, !R_length. f_equal; lia.
    - intros Q. now rewrite (Ng Q).
    - unfold m0. rewrite R_length. apply add_end; cbn [no_token t_end]; lia. }
  assert (O0 : token_ok total m0) by (unfold m0; apply add_ok; [rewrite R_length; lia|lia|now left]).
  assert (Pl : List.length (R lead) + List.length body = total) by (unfold total; now rewrite app_length).
  assert (Cm : snd (nmatch n_cmd m0 (List.length (R lead)) body) = mT).
  { unfold n_cmd. match goal with |- snd (nmatch (NRule _ ?b) _ _ _) = _ => assert (Sp : snd (nmatch b m0 (List.length (R lead)) body) = mT)
      by (rewrite (nspine_ok 11); exact Fst) end.
    rewrite (rule_full total); [exact Sp|exact O0|exact Pl|rewrite Sp; reflexivity]. }
  assert (Af : snd (nmatch n_after m0 (List.length (R lead)) body) = mT).
  { unfold n_after. rewrite (seq_full total); [exact Cm|exact O0|exact Pl|rewrite Cm; reflexivity]. }
  assert (Se : nmatch (NStar n_sp) no_token 0 (R lead ++ body) = (NOk (List.length (R lead)) body, m0)).
  { rewrite Eb. rewrite (n_sps (R lead) no_token 0 c tl); auto using blanks_N. }
  assert (Ee : snd (nmatch n_e no_token 0 (R lead ++ body)) = mT).
  { assert (Sq : snd (nmatch (NSeq (NStar n_sp) n_after) no_token 0 (R lead ++ body)) = mT) by (rewrite (nseq_ok _ _ _ _ _ _ _ _ Se); exact Af).
    unfold n_e. fold n_after. rewrite (rule_full total); [exact Sq|now left|reflexivity|rewrite Sq; reflexivity]. }
  assert (St : snd (nmatch (NStar n_e) no_token 0 (R lead ++ body)) = mT).
  { cbn [nmatch nstar_loop]. destruct (nmatch_keeps total n_e no_token 0 (R lead ++ body)) as [K1 K2]; [now left|reflexivity|].
    destruct (nmatch n_e no_token 0 (R lead ++ body)) as [y m1]. cbn [fst snd] in *. subst m1.
    destruct y as [p q| |]; [|reflexivity..]. destruct (p =? 0); [reflexivity|].
    apply (full_star total (nmatch n_e)); [intros; now apply (full_stays total)|apply nmatch_keeps|now apply (K2 p q)|unfold mT; cbn [t_end]; lia|exact K1]. }
  assert (Fi : snd (nmatch n_first no_token 0 (R lead ++ body)) = mT).
  { unfold n_first. assert (O1 : token_ok total no_token) by now left.
    assert (Sq : snd (nmatch (NSeq (NStar n_e) (NSeq (NNot NDot) (NAct 0))) no_token 0 (R lead ++ body)) = mT)
      by (rewrite (seq_full total); [exact St|exact O1|reflexivity|rewrite St; reflexivity]).
    rewrite (rule_full total); [exact Sq|exact O1|reflexivity|rewrite Sq; reflexivity]. }
  destruct (nmatch n_first no_token 0 (R lead ++ body)) as [y m1]. cbn [snd] in Fi. subst m1. destruct y; try discriminate. now intros [= <-].
Qed.
