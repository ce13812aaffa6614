(* Proofs about the syntax errors of ed (EdErrModel.v). *)
From Verif Require Import GoBase GoFacts NumFacts Utf8Facts EdModel EdPegModel EdPegSpec EdPegProofs EdErrModel EdErrSpec.
Local Open Scope nat_scope.

Lemma same_grammar : bare n_first = r_first.
Proof. reflexivity. Qed.

(* ---- the rules with names match what the rules without match ---- *)
Definition same (x : nres) (y : pres) : Prop :=
  match y with POk p r _ => x = NOk p r | PFail => x = NFail | PHang => x = NHang end.
Lemma nstar_same : forall f g, (forall m pos rest, same (fst (f m pos rest)) (g pos rest)) ->
  forall k m pos rest, same (fst (nstar_loop f k m pos rest)) (star_loop g k pos rest).
Proof.
  intros f g H. induction k as [|k IH]; intros m pos rest; [reflexivity|].
  cbn [nstar_loop star_loop]. specialize (H m pos rest).
  destruct (f m pos rest) as [x m']. cbn [fst] in H. destruct (g pos rest) as [p r t| |]; cbn [same] in H; subst x; try reflexivity.
  destruct (p =? pos); [reflexivity|]. specialize (IH m' p r). destruct (star_loop g k p r); exact IH.
Qed.
Lemma nmatch_same : forall e m pos rest, same (fst (nmatch e m pos rest)) (pmatch (bare e) pos rest).
Proof.
  induction e; intros m pos rest; cbn [nmatch bare pmatch].
  - destruct rest; [reflexivity|]. cbn [fst]. now destruct (N.eqb n c).
  - destruct rest; [reflexivity|]. cbn [fst]. now destruct (_ && _)%bool.
  - destruct rest; reflexivity.
  - specialize (IHe1 m pos rest). destruct (nmatch e1 m pos rest) as [x m1]. cbn [fst] in IHe1.
    destruct (pmatch (bare e1) pos rest) as [p r t| |]; cbn [same] in IHe1; subst x; try reflexivity.
    specialize (IHe2 m1 p r). destruct (pmatch (bare e2) p r); exact IHe2.
  - specialize (IHe1 m pos rest). destruct (nmatch e1 m pos rest) as [x m1]. cbn [fst] in IHe1.
    destruct (pmatch (bare e1) pos rest) as [p r t| |]; cbn [same] in IHe1; subst x; try reflexivity. apply IHe2.
  - now apply nstar_same.
  - specialize (IHe m pos rest). destruct (nmatch e m pos rest) as [x m1]. cbn [fst] in IHe.
    destruct (pmatch (bare e) pos rest) as [p r t| |]; cbn [same] in IHe; subst x; reflexivity.
  - specialize (IHe m pos rest). destruct (nmatch e m pos rest) as [x m1]. cbn [fst] in IHe.
    destruct (pmatch (bare e) pos rest) as [p r t| |]; cbn [same] in IHe; subst x; reflexivity.
  - specialize (IHe m pos rest). destruct (nmatch e m pos rest) as [x m1]. cbn [fst] in IHe.
    destruct (pmatch (bare e) pos rest) as [p r t| |]; cbn [same] in IHe; subst x; reflexivity.
  - reflexivity.
  - specialize (IHe m pos rest). destruct (nmatch e m pos rest) as [x m1]. cbn [fst] in IHe.
    destruct (pmatch (bare e) pos rest) as [p r t| |]; cbn [same] in IHe; subst x; reflexivity.
Qed.
Lemma parse_agrees : forall buf,
  match Parse buf with
  | Val None => exists m, parse_token buf = Val (Some m)
  | Val (Some _) => parse_token buf = Val None
  | Crashes => False
  | Hangs => parse_token buf = Hangs
  end.
Proof.
  intros buf. unfold Parse, Parse_with, parse_token. pose proof (nmatch_same n_first no_token 0 (runes_of buf)) as H.
  rewrite same_grammar in H. destruct (nmatch n_first no_token 0 (runes_of buf)) as [x m]. cbn [fst] in H.
  destruct (pmatch r_first 0 (runes_of buf)); cbn [same] in H; subst x; eauto.
Qed.

(* ---- what is known of the furthest token ---- *)
(* positions within [total], and no empty token but the first one *)
Definition token_ok (total : nat) (m : named) : Prop :=
  m = no_token \/ t_begin m < t_end m /\ t_end m <= total.
Lemma add_ok : forall total r b p m, p <= total -> b <= p -> token_ok total m -> token_ok total (add r b p m).
Proof.
  intros total r b p m P Q H. unfold add. destruct (b =? p) eqn:E; [exact H|]. apply Nat.eqb_neq in E.
  destruct (t_end m <? p); [|exact H]. right. cbn. lia.
Qed.
Definition keeps (total : nat) (f : named -> nat -> list N -> nres * named) : Prop :=
  forall m pos rest, token_ok total m -> pos + List.length rest = total ->
    token_ok total (snd (f m pos rest)) /\
    forall p r, fst (f m pos rest) = NOk p r -> pos <= p /\ p + List.length r = total.
Lemma nstar_keeps : forall total f, keeps total f -> forall k, keeps total (nstar_loop f k).
Proof.
  intros total f H. induction k as [|k IH]; intros m pos rest M P; cbn [nstar_loop].
  { split; [exact M|discriminate]. }
  destruct (H m pos rest M P) as [H1 H2]. destruct (f m pos rest) as [x m1]. cbn [fst snd] in H1, H2.
  destruct x as [p r| |].
  - destruct (H2 _ _ eq_refl) as [Q1 Q2]. destruct (p =? pos); [split; [exact H1|discriminate]|].
    destruct (IH m1 p r H1 Q2) as [I1 I2]. split; [exact I1|]. intros p' r' E. apply I2 in E as [E1 E2]. lia.
  - split; [exact H1|]. intros p r [= <- <-]. lia.
  - split; [exact H1|discriminate].
Qed.
Lemma nmatch_keeps : forall total e, keeps total (nmatch e).
Proof.
  intros total. induction e; intros m pos rest M P; cbn [nmatch fst snd].
  - split; [exact M|]. destruct rest as [|x rest]; [discriminate|]. destruct (N.eqb x c); [|discriminate].
    intros p r [= <- <-]. cbn in P. lia.
  - split; [exact M|]. destruct rest as [|x rest]; [discriminate|]. destruct (_ && _)%bool; [|discriminate].
    intros p r [= <- <-]. cbn in P. lia.
  - split; [exact M|]. destruct rest as [|x rest]; [discriminate|]. intros p r [= <- <-]. cbn in P. lia.
  - destruct (IHe1 m pos rest M P) as [H1 H2]. destruct (nmatch e1 m pos rest) as [x m1]. cbn [fst snd] in H1, H2.
    destruct x as [p r| |]; [|split; [exact H1|discriminate]..].
    destruct (H2 _ _ eq_refl) as [Q1 Q2]. destruct (IHe2 m1 p r H1 Q2) as [I1 I2]. split; [exact I1|].
    intros p' r' E. apply I2 in E as [E1 E2]. lia.
  - destruct (IHe1 m pos rest M P) as [H1 H2]. destruct (nmatch e1 m pos rest) as [x m1]. cbn [fst snd] in H1, H2.
    destruct x as [p r| |]; cbn [fst snd]; [split; [exact H1|exact H2]| |split; [exact H1|discriminate]].
    apply IHe2; assumption.
  - apply nstar_keeps; assumption.
  - destruct (IHe m pos rest M P) as [H1 H2]. destruct (nmatch e m pos rest) as [x m1]. cbn [fst snd] in H1, H2.
    destruct x as [p r| |]; cbn [fst snd]; (split; [exact H1|]); [exact H2| |discriminate].
    intros p r [= <- <-]. lia.
  - destruct (IHe m pos rest M P) as [H1 H2]. destruct (nmatch e m pos rest) as [x m1]. cbn [fst snd] in H1, H2.
    destruct x as [p r| |]; cbn [fst snd]; (split; [exact H1|]); [discriminate| |discriminate].
    intros p r [= <- <-]. lia.
  - destruct (IHe m pos rest M P) as [H1 H2]. destruct (nmatch e m pos rest) as [x m1]. cbn [fst snd] in H1, H2.
    destruct x as [p r| |]; cbn [fst snd]; [|split; [exact H1|discriminate]..].
    destruct (H2 _ _ eq_refl) as [Q1 Q2]. split; [apply add_ok; [lia|exact Q1|exact H1]|exact H2].
  - unfold add. rewrite Nat.eqb_refl. split; [exact M|]. intros p r [= <- <-]. lia.
  - destruct (IHe m pos rest M P) as [H1 H2]. destruct (nmatch e m pos rest) as [x m1]. cbn [fst snd] in H1, H2.
    destruct x as [p r| |]; cbn [fst snd]; [|split; [exact H1|discriminate]..].
    destruct (H2 _ _ eq_refl) as [Q1 Q2]. split; [apply add_ok; [lia|exact Q1|exact H1]|exact H2].
Qed.
Lemma parse_token_ok : forall buf m, parse_token buf = Val (Some m) -> token_ok (List.length (runes_of buf)) m.
Proof.
  intros buf m. unfold parse_token. destruct (nmatch_keeps (List.length (runes_of buf)) n_first no_token 0 (runes_of buf)) as [H _];
    [now left|reflexivity|].
  destruct (nmatch n_first no_token 0 (runes_of buf)) as [x m']. cbn [snd] in H. destruct x; try discriminate. now intros [= <-].
Qed.

(* ---- places ---- *)
Lemma filter_snoc : forall {A} (f : A -> bool) l x, filter f (l ++ [x]) = filter f l ++ (if f x then [x] else []).
Proof. intros. rewrite filter_app. reflexivity. Qed.
Lemma last_line_snoc : forall pre c, last_line (pre ++ [c]) = if is_nl c then [] else last_line pre ++ [c].
Proof.
  induction pre as [|r t IH]; intros c.
  - cbn. destruct (is_nl c); reflexivity.
  - rewrite <- app_comm_cons. cbn [last_line existsb]. rewrite existsb_app. cbn [existsb]. rewrite IH, orb_false_r.
    destruct (is_nl c) eqn:E; [now rewrite !orb_true_r|]. rewrite orb_false_r. now destruct (is_nl r || existsb is_nl t)%bool.
Qed.
Definition place (rs : list N) (i : nat) : nat * nat :=
  if match nth_error rs i with Some c => is_nl c | None => false end then (S (line_of rs i), 0) else (line_of rs i, column_of rs i).
Lemma count_step : forall pre c post, let rs := pre ++ c :: post in let i := List.length pre in
  (if N.eqb c (byte_val nl) then (S (line_of rs i), 0) else (line_of rs i, S (List.length (last_line pre)))) = place rs i /\
  place rs i = (line_of rs (S i), List.length (last_line (pre ++ [c]))).
Proof.
  intros pre c post rs i. unfold place, rs, i. rewrite nth_error_app2, Nat.sub_diag by lia. cbn [nth_error].
  change (N.eqb c (byte_val nl)) with (is_nl c). unfold column_of, line_of.
  assert (F : firstn (List.length pre) (pre ++ c :: post) = pre) by (rewrite firstn_app, Nat.sub_diag, firstn_all; cbn; now rewrite app_nil_r).
  assert (F1 : firstn (S (List.length pre)) (pre ++ c :: post) = pre ++ [c]).
  { rewrite firstn_app, firstn_all2 by lia. now replace (S (List.length pre) - List.length pre) with 1 by lia. }
  rewrite F, F1, filter_snoc, last_line_snoc. split; [reflexivity|].
  destruct (is_nl c); rewrite ?app_length; cbn [List.length]; f_equal; lia.
Qed.
(* the first position *)
Lemma translate_reach : forall mid pre c post p more t, List.length pre + List.length mid = p ->
  translate (mid ++ c :: post) (List.length pre) (line_of (pre ++ mid ++ c :: post) (List.length pre)) (List.length (last_line pre)) (p :: more) t =
  translate (c :: post) p (line_of (pre ++ mid ++ c :: post) p) (List.length (last_line (pre ++ mid))) (p :: more) t.
Proof.
  induction mid as [|x mid IH]; intros pre c post p more t P.
  - cbn [List.length] in P. rewrite Nat.add_0_r in P. subst p. now rewrite app_nil_r.
  - rewrite <- app_comm_cons. cbn [translate]. destruct (count_step pre x (mid ++ c :: post)) as [C1 C2].
    rewrite C1, C2. cbn [List.length] in P. rewrite (proj2 (Nat.eqb_neq (List.length pre) p)) by lia.
    specialize (IH (pre ++ [x]) c post p more t). rewrite <- !app_assoc, app_length in IH. cbn [List.length app] in IH.
    replace (List.length pre + 1) with (S (List.length pre)) in IH by lia. cbn [app]. apply IH. lia.
Qed.
Lemma cut_at : forall {A} (l : list A) i, i < List.length l -> exists pre c post, l = pre ++ c :: post /\ List.length pre = i.
Proof.
  intros A l i H. destruct (nth_error l i) as [c|] eqn:E; [|apply nth_error_None in E; lia].
  apply nth_error_split in E as (pre&post&->&P). eauto.
Qed.
Lemma translate_two : forall rs a b, a <= b -> b < List.length rs -> exists t, translatePositions rs a b = Val t /\
  look_up t a = place rs a /\ look_up t b = place rs b.
Proof.
  intros rs a b AB BL. unfold translatePositions, sort2. apply Nat.leb_le in AB as AB'. rewrite AB'.
  destruct (cut_at rs a) as (pre&c&post&->&P); [lia|].
  pose proof (translate_reach pre [] c post a [b] []) as T. cbn [List.length app last_line] in T.
  change (line_of (pre ++ c :: post) 0) with 1 in T. rewrite T by lia. clear T.
  cbn [translate]. destruct (count_step pre c post) as [C1 C2]. rewrite P in *.
  rewrite C1, Nat.eqb_refl. cbn [skip_equal]. destruct (a =? b) eqn:E.
  - apply Nat.eqb_eq in E as <-. destruct (place (pre ++ c :: post) a) as [l s] eqn:Pl. eexists. split; [reflexivity|].
    unfold look_up. cbn [find fst]. rewrite Nat.eqb_refl. auto.
  - apply Nat.eqb_neq in E. rewrite C2.
    destruct (cut_at post (b - S a)) as (mid&d&post'&->&Q). { rewrite app_length in BL. cbn [List.length] in BL. lia. }
    match goal with |- context [translate _ _ _ _ _ ?tt] => pose proof (translate_reach mid (pre ++ [c]) d post' b [] tt) as T end.
    rewrite app_length, P in T. cbn [List.length] in T. rewrite <- !app_assoc in T. cbn [app] in T.
    replace (a + 1) with (S a) in T by lia. rewrite T by lia. clear T. cbn [translate].
    destruct (count_step (pre ++ [c] ++ mid) d post') as [D1 D2].
    assert (L : List.length (pre ++ [c] ++ mid) = b) by (rewrite !app_length; cbn [List.length]; lia).
    rewrite L in D1, D2. rewrite <- !app_assoc in D1, D2. cbn [app] in D1, D2.
    rewrite D1, Nat.eqb_refl. cbn [skip_equal]. destruct (place (pre ++ c :: mid ++ d :: post') b) as [l s] eqn:Pl.
    eexists. split; [reflexivity|]. unfold look_up. cbn [find fst]. rewrite Nat.eqb_refl.
    rewrite (proj2 (Nat.eqb_neq b a)) by lia. rewrite Nat.eqb_refl. split; congruence.
Qed.
Lemma place_buffer : forall rs i x, i <= List.length rs -> is_nl x = false -> place (rs ++ [x]) i = place rs i.
Proof.
  intros rs i x H X. unfold place, line_of, column_of.
  assert (F : firstn i (rs ++ [x]) = firstn i rs).
  { rewrite firstn_app. replace (i - List.length rs) with 0 by lia. cbn. apply app_nil_r. }
  rewrite F. destruct (Nat.eq_dec i (List.length rs)) as [->|N].
  - rewrite nth_error_app2, Nat.sub_diag by lia. cbn [nth_error]. rewrite X.
    rewrite (proj2 (nth_error_None rs (List.length rs))) by lia. reflexivity.
  - now rewrite nth_error_app1 by lia.
Qed.
Lemma place_placed : forall rs i, placed rs i (fst (place rs i)) (snd (place rs i)).
Proof.
  intros rs i. unfold place, placed, newline_at. destruct (nth_error rs i) as [c|] eqn:E.
  - destruct (is_nl c) eqn:N; [left|right]; cbn [fst snd].
    + apply N.eqb_eq in N as ->. auto.
    + split; [|auto]. intros [= ->]. unfold is_nl in N. now rewrite N.eqb_refl in N.
  - right. cbn [fst snd]. split; [discriminate|auto].
Qed.

(* ---- the report ---- *)
Definition the_report (quote : bytes -> bytes) (rs : list N) (m : named) : bytes :=
  let '(l1, c1) := place rs (t_begin m) in let '(l2, c2) := place rs (t_end m) in
  report (t_rule m) l1 c1 l2 c2 (quote (string_of_runes (slice rs (t_begin m) (t_end m)))).
Lemma report_of : forall quote buf m, parse_token buf = Val (Some m) ->
  error_report quote buf = Val (Some (the_report quote (runes_of buf) m)).
Proof.
  intros quote buf m H. apply parse_token_ok in H as K. unfold error_report. rewrite H. unfold error_text.
  set (rs := runes_of buf) in *. unfold peg_buffer. fold rs.
  assert (O : t_begin m <= t_end m <= List.length rs) by (destruct K as [->|[]]; cbn [no_token t_begin t_end]; lia).
  destruct (translate_two (rs ++ [endSymbol]) (t_begin m) (t_end m)) as (t&->&L1&L2); [lia|rewrite app_length; cbn [List.length]; lia|].
  rewrite L1, L2, !place_buffer by (lia || reflexivity).
  unfold the_report. destruct (place rs (t_begin m)) as [l1 c1]. destruct (place rs (t_end m)) as [l2 c2].
  rewrite app_length. cbn [List.length].
  rewrite (proj2 (Nat.leb_le _ _) (proj1 O)), (proj2 (Nat.leb_le (t_end m) (List.length rs + 1))) by lia. cbn [andb].
  assert (SL : slice (rs ++ [endSymbol]) (t_begin m) (t_end m) = slice rs (t_begin m) (t_end m)).
  { unfold slice. rewrite skipn_app, firstn_app, skipn_length.
    replace (t_end m - t_begin m - (List.length rs - t_begin m)) with 0 by lia. cbn [firstn]. apply app_nil_r. }
  rewrite SL. unfold report. do 2 f_equal. rewrite <- !app_assoc. reflexivity.
Qed.
Lemma rejected_token : forall buf, rejected buf -> exists m, parse_token buf = Val (Some m).
Proof. intros buf H. pose proof (parse_agrees buf) as A. unfold rejected in H. now rewrite H in A. Qed.
Lemma handled : forall quote buf r, error_report quote buf = Val (Some r) -> handle (perr_text quote) buf = Val [RError r].
Proof.
  intros quote buf r H. pose proof (parse_agrees buf) as A. unfold handle, perr_text. unfold error_report in H.
  destruct (Parse buf) as [[toks|]| |]; [now rewrite A in H| |contradiction|now rewrite A in H].
  destruct A as [m A]. rewrite A in *. destruct (error_text quote buf m); try discriminate. now injection H as <-.
Qed.
