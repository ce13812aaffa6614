(* Proofs for C110-C112 *)
From Verif Require Import GoBase GoFacts DiffModel DiffSpec DiffProofs DiffPatchProofs DiffMoreModel DiffMoreSpec.

(* ---- Fuzz ---- *)
Lemma after_prefix_some : forall p b r, after_prefix p b = Some r <-> b = p ++ r.
Proof.
  induction p as [|x p IH]; intros b r; cbn [after_prefix app]; [split; congruence|].
  destruct b as [|y b]; [split; discriminate|]. destruct (Ascii.eqb x y) eqn:E.
  - apply Ascii.eqb_eq in E as ->. rewrite IH. split; congruence.
  - apply Ascii.eqb_neq in E. split; [discriminate|]. intros Q. injection Q as -> _. congruence.
Qed.
Lemma cut_some : forall sep b p r, cut sep b = Some (p, r) ->
  b = p ++ sep ++ r /\ forall x y, b = x ++ sep ++ y -> List.length p <= List.length x.
Proof.
  intros sep. induction b as [|c b IH]; intros p r; cbn [cut]; destruct (after_prefix sep _) as [q|] eqn:E.
  - intros Q. injection Q as <- <-. apply after_prefix_some in E. split; [exact E|cbn; lia].
  - discriminate.
  - intros Q. injection Q as <- <-. apply after_prefix_some in E. split; [exact E|cbn; lia].
  - destruct (cut sep b) as [[p' r']|] eqn:C; [|discriminate]. intros Q. injection Q as <- <-.
    destruct (IH _ _ eq_refl) as [-> M]. split; auto. intros [|z x] y Q.
    + exfalso. cbn [app] in Q. assert (after_prefix sep (c :: p' ++ sep ++ r') = Some y) by now apply after_prefix_some. congruence.
    + cbn [app] in Q. injection Q as _ Q. apply M in Q. cbn [List.length]. lia.
Qed.
Lemma cut_none : forall sep b, cut sep b = None -> ~ occurs sep b.
Proof.
  intros sep. induction b as [|c b IH]; cbn [cut]; destruct (after_prefix sep _) as [q|] eqn:E; try discriminate.
  - intros _ (x&y&Q). destruct x; [|discriminate]. cbn [app] in Q. assert (after_prefix sep [] = Some y) by now apply after_prefix_some. congruence.
  - destruct (cut sep b) as [[p' r']|] eqn:C; [discriminate|]. intros _ ([|z x]&y&Q); cbn [app] in Q.
    + assert (after_prefix sep (c :: b) = Some y) by now apply after_prefix_some. congruence.
    + injection Q as _ Q. apply IH; auto. exists x, y. exact Q.
Qed.
Lemma same_refl : forall l, same_values l l = true.
Proof. induction l as [|x l IH]; auto. cbn [same_values]. now rewrite beqb_refl. Qed.
Lemma identical_refl : forall l, are_identical l l = true.
Proof. intros l. unfold are_identical. rewrite Nat.eqb_refl. apply same_refl. Qed.
Lemma same_eq : forall a b, List.length a = List.length b -> same_values a b = true -> a = b.
Proof.
  induction a as [|x a IH]; intros [|y b] L E; cbn [List.length same_values] in *; auto; try discriminate.
  destruct (beqb x y) eqn:Q; [|discriminate]. apply beqb_eq in Q as ->. f_equal. apply IH; auto.
Qed.
Lemma identical_eq : forall a b, are_identical a b = true <-> a = b.
Proof.
  intros a b. split; [|intros ->; apply identical_refl]. unfold are_identical.
  destruct (List.length a =? List.length b) eqn:L; [|discriminate]. apply Nat.eqb_eq in L. now apply same_eq.
Qed.
Lemma fuzz_two : forall data, (exists a b, split fuzz_separator data = [a; b]) -> fuzz data = Some (Ok 1%Z).
Proof.
  intros data (a&b&E). unfold fuzz. rewrite E. destruct (diff_reassembles (split_on nl a) (split_on nl b)) as (cs&->&->&->).
  now rewrite !identical_refl.
Qed.
Lemma split_two : forall sep data, sep <> [] -> (exists a b, split sep data = [a; b]) <->
  exists a b, data = a ++ sep ++ b /\ (forall x y, data = x ++ sep ++ y -> List.length a <= List.length x) /\ ~ occurs sep b.
Proof.
  intros sep data N. unfold split. destruct data as [|c data].
  { cbn [List.length split_fuel]. split; intros (a&b&Q); [discriminate|]. destruct Q as (Q&_). destruct a, sep; try discriminate. congruence. }
  cbn [List.length split_fuel]. destruct (cut sep (c :: data)) as [[p r]|] eqn:C.
  - apply cut_some in C as [C M]. assert (L : List.length r < S (List.length data)).
    { apply (f_equal (@List.length ascii)) in C. rewrite !app_length in C. cbn [List.length] in C. assert (0 < List.length sep) by (destruct sep; cbn; [congruence|lia]). lia. }
    assert (U : forall a b, c :: data = a ++ sep ++ b -> (forall x y, c :: data = x ++ sep ++ y -> List.length a <= List.length x) -> a = p /\ b = r).
    { intros a b Qa Ma. pose proof (Ma _ _ C) as L1. pose proof (M _ _ Qa) as L2. rewrite C in Qa.
      apply app_eq_app in Qa as (z&[(->&Qz)|(->&Qz)]); rewrite app_length in L1, L2; destruct z; cbn in L1, L2; try lia; rewrite ?app_nil_r in *; cbn [app] in Qz; split; auto;
      symmetry in Qz; now apply app_inv_head in Qz. }
    split.
    + intros (a&b&Q). injection Q as <- Q. exists p, r. split; auto. split; auto. destruct (List.length data) as [|f] eqn:Lf.
      * destruct r; [|cbn in L; lia]. intros (x&y&Qo). destruct x, sep; try discriminate. congruence.
      * cbn [split_fuel] in Q. destruct (cut sep r) as [[p2 r2]|] eqn:C2; [|now apply cut_none].
        injection Q as _ Q. destruct f; cbn [split_fuel] in Q; destruct (cut sep r2) as [[]|]; discriminate.
    + intros (a&b&Qa&Ma&Nb). destruct (U a b Qa Ma) as [-> ->]. exists p, r. f_equal. destruct (List.length data) as [|f]; [reflexivity|].
      cbn [split_fuel]. destruct (cut sep r) as [[p2 r2]|] eqn:C2; auto. exfalso. apply Nb. apply cut_some in C2 as [-> _]. now exists p2, r2.
  - apply cut_none in C. split; [intros (a&b&Q); discriminate|]. intros (a&b&Q&_). exfalso. apply C. now exists a, b.
Qed.
Lemma fuzz_result : forall data, (exists a b, split fuzz_separator data = [a; b]) \/ fuzz data = Some (Ok (-1)%Z).
Proof.
  intros data. unfold fuzz. destruct (split fuzz_separator data) as [|a [|b [|c l]]]; auto. left. now exists a, b.
Qed.

(* ---- the shape of a difference ---- *)
Definition disjoint (a b : list bytes) : Prop := forall l, In l a -> ~ In l b.
Inductive change : list comparison -> Prop :=
| ch_none : change []
| ch_add v : v <> [] -> change [{| kind := Add; values := v |}]
| ch_minus v : v <> [] -> change [{| kind := Minus; values := v |}]
| ch_both v w : v <> [] -> w <> [] -> disjoint v w -> change [{| kind := Minus; values := v |}; {| kind := Add; values := w |}].
Inductive shape : list comparison -> Prop :=
| sh_end c : change c -> shape c
| sh_more c run r : change c -> run <> [] -> shape r -> shape (c ++ {| kind := Equal; values := run |} :: r).
Lemma shape_join : forall a run b, shape a -> run <> [] -> shape b -> shape (a ++ {| kind := Equal; values := run |} :: b).
Proof.
  intros a run b H N Hb. induction H as [c C|c r0 r C N0 Hr IH]; [now apply sh_more|].
  rewrite <- app_assoc. cbn [app]. apply sh_more; auto.
Qed.
Lemma no_run_disjoint : forall old new, sub_len (longest_run old new) = 0 -> disjoint old new.
Proof.
  intros old new Z l Io In_. apply in_split in Io as (a&b&Ea). apply in_split in In_ as (c&d&Ec).
  pose proof (longest_run_max old new [l] a b c d Ea Ec) as M. cbn [List.length] in M. lia.
Qed.
Lemma tree_shape : forall old new cs, diff_tree old new cs -> shape cs.
Proof.
  induction 1; try (apply sh_end; constructor; auto; now apply no_run_disjoint).
  apply shape_join; auto.
Qed.

(* the first change is past these many lines *)
Definition starts (o n : N) (hs : list hunk) : Prop :=
  match hs with [] => True | h :: _ => (o <= old_before h /\ old_before h - o = new_before h - n /\ n <= new_before h)%N end.
Lemma starts_later : forall o n k hs, starts (o + k) (n + k) hs -> starts o n hs.
Proof. intros o n k [|h hs]; cbn [starts]; auto. lia. Qed.
Lemma apart_cons : forall h hs k, apart hs -> (0 < k)%N -> starts (ol2 h + k) (nl2 h + k) hs -> apart (h :: hs).
Proof. intros h [|h2 hs] k A K St; cbn [apart starts] in *; auto. split; auto. lia. Qed.
Lemma shape_hunks : forall cs, shape cs -> forall o n,
  (forall h, In h (hunks_of o n cs) -> disjoint (removed h) (added h)) /\ apart (hunks_of o n cs) /\
  starts (N.of_nat o) (N.of_nat n) (hunks_of o n cs).
Proof.
  assert (Z : forall l, disjoint l []) by (intros l x _ []). assert (Z' : forall l, disjoint [] l) by (intros l x []).
  induction 1 as [c C|c run r C Nr Hr IH]; intros o n.
  - destruct C; cbn [hunks_of app kind values]; cbn [apart starts old_before new_before hop ol1 ol2 nl1 nl2].
    + repeat split; auto. intros h [].
    + repeat split; auto; try lia. intros h [<-|[]]. apply Z'.
    + repeat split; auto; try lia. intros h [<-|[]]. apply Z.
    + repeat split; auto; try lia. intros h [<-|[]]. assumption.
  - assert (K : (0 < N.of_nat (List.length run))%N) by (destruct run; [congruence|cbn [List.length]; lia]).
    destruct C; cbn [hunks_of app kind values].
    + destruct (IH (o + List.length run) (n + List.length run)) as (I1&I2&I3). repeat split; auto.
      apply (starts_later _ _ (N.of_nat (List.length run))). now rewrite <- !Nat2N.inj_add.
    + destruct (IH (o + List.length run) (n + List.length v + List.length run)) as (I1&I2&I3). repeat split.
      * intros h [<-|I]; [apply Z'|auto].
      * apply (apart_cons _ _ (N.of_nat (List.length run))); auto. cbn [ol2 nl2]. rewrite !Nat2N.inj_add in I3. exact I3.
      * cbn [old_before hop ol1]. lia.
      * cbn [old_before new_before hop ol1 nl1]. lia.
      * cbn [new_before hop nl1]. lia.
    + destruct (IH (o + List.length v + List.length run) (n + List.length run)) as (I1&I2&I3). repeat split.
      * intros h [<-|I]; [apply Z|auto].
      * apply (apart_cons _ _ (N.of_nat (List.length run))); auto. cbn [ol2 nl2]. rewrite !Nat2N.inj_add in I3. exact I3.
      * cbn [old_before hop ol1]. lia.
      * cbn [old_before new_before hop ol1 nl1]. lia.
      * cbn [new_before hop nl1]. lia.
    + destruct (IH (o + List.length v + List.length run) (n + List.length w + List.length run)) as (I1&I2&I3). repeat split.
      * intros h [<-|I]; [assumption|auto].
      * apply (apart_cons _ _ (N.of_nat (List.length run))); auto. cbn [ol2 nl2]. rewrite !Nat2N.inj_add in I3. exact I3.
      * cbn [old_before hop ol1]. lia.
      * cbn [old_before new_before hop ol1 nl1]. lia.
      * cbn [new_before hop nl1]. lia.
Qed.

(* what the printed text of a difference means *)
Lemma printed : forall old new cs, (forall l, In l old -> ~ In nl l) -> (forall l, In l new -> ~ In nl l) ->
  diff old new = Some (Ok cs) -> read_diff (format cs) = Some (hunks_of 0 0 cs) /\ diff_tree old new cs.
Proof.
  intros old new cs Ho Hn E. destruct (diff_total old new) as (cs'&E'&T). rewrite E in E'. injection E' as <-. split; auto.
  destruct (diff_tree_assemble _ _ _ T) as [A1 A2]. pose proof (diff_tree_nonempty _ _ _ T) as Ne.
  unfold read_diff. destruct (format cs) eqn:F.
  + apply format_nil_iff in F.
    pose proof (read_hunks_output (length cs) cs 0 0 0) as R. rewrite F in R.
    specialize (R (le_n _) Ne (le_n _)). exact R.
  + rewrite <- F. unfold format. rewrite split_join.
    * apply (read_hunks_output (length cs)); auto.
    * intros H. unfold format in F. rewrite H in F. discriminate.
    * apply output_no_nl. apply assemble_no_nl; rewrite ?A1, ?A2; auto.
Qed.
Lemma hunks_apart : forall old new cs hs, (forall l, In l old -> ~ In nl l) -> (forall l, In l new -> ~ In nl l) ->
  diff old new = Some (Ok cs) -> read_diff (format cs) = Some hs ->
  (forall h l, In h hs -> In l (removed h) -> ~ In l (added h)) /\ apart hs.
Proof.
  intros old new cs hs Ho Hn E R. destruct (printed old new cs Ho Hn E) as [P T]. rewrite R in P. injection P as ->.
  destruct (shape_hunks cs (tree_shape _ _ _ T) 0 0) as (D&A&_). split; auto. intros h l I. now apply D.
Qed.

(* ---- minimality ---- *)
Definition bdec := list_eq_dec ascii_dec.
Lemma in_common : forall a b l, In l (common a b) <-> In l a /\ In l b.
Proof. intros a b l. unfold common. rewrite filter_In. destruct (in_dec (list_eq_dec ascii_dec) l b); intuition discriminate. Qed.
Lemma common_app : forall a a' b, common (a ++ a') b = common a b ++ common a' b.
Proof. intros. apply filter_app. Qed.
Lemma common_all : forall a b, incl a b -> common a b = a.
Proof.
  induction a as [|x a IH]; intros b I; auto. unfold common. cbn [filter]. destruct (in_dec (list_eq_dec ascii_dec) x b) as [J|J].
  - f_equal. apply IH. intros y Iy. apply I. now right.
  - exfalso. apply J. apply I. now left.
Qed.
Lemma common_eq : forall a b b', (forall l, In l a -> (In l b <-> In l b')) -> common a b = common a b'.
Proof.
  intros a b b' H. unfold common. apply filter_ext_in. intros x I. apply H in I.
  destruct (in_dec (list_eq_dec ascii_dec) x b), (in_dec (list_eq_dec ascii_dec) x b'); tauto.
Qed.
Lemma nodup_split : forall (x : bytes) a b c d, NoDup (a ++ x :: b) -> a ++ x :: b = c ++ x :: d -> a = c /\ b = d.
Proof.
  intros x. induction a as [|y a IH]; intros b c d N E.
  - destruct c as [|z c]; [injection E; auto|]. cbn [app] in E. injection E as <- E. exfalso.
    inversion N; subst. apply H1. apply in_or_app. right. now left.
  - destruct c as [|z c]; cbn [app] in *.
    + injection E as -> E. exfalso. inversion N; subst. apply H1. apply in_or_app. right. now left.
    + injection E as <- E. inversion N; subst. destruct (IH b c d H2 E) as [-> ->]. auto.
Qed.
Lemma nodup_filter : forall f (l : list bytes), NoDup l -> NoDup (filter f l).
Proof. intros. now apply NoDup_filter. Qed.
Lemma nodup_app : forall (a b : list bytes), NoDup (a ++ b) -> NoDup a /\ NoDup b /\ disjoint a b.
Proof.
  induction a as [|x a IH]; intros b N; [split; [constructor|split; auto]; intros l []|].
  cbn [app] in N. inversion N; subst. destruct (IH b H2) as (N1&N2&D). split; [|split; auto].
  - constructor; auto. intros I. apply H1. apply in_or_app. now left.
  - intros l [<-|I]; [|now apply D]. intros J. apply H1. apply in_or_app. now right.
Qed.
Definition minus_of (cs : list comparison) : list bytes := flat_map (fun c => match kind c with Minus => values c | _ => [] end) cs.
Definition add_of (cs : list comparison) : list bytes := flat_map (fun c => match kind c with Add => values c | _ => [] end) cs.
Lemma minus_incl : forall cs, incl (minus_of cs) (assemble_old cs).
Proof.
  intros cs l I. unfold minus_of, assemble_old in *. apply in_flat_map in I as (c&I1&I2). apply in_flat_map. exists c. split; auto.
  now destruct (kind c).
Qed.
Lemma add_incl : forall cs, incl (add_of cs) (assemble_new cs).
Proof.
  intros cs l I. unfold add_of, assemble_new in *. apply in_flat_map in I as (c&I1&I2). apply in_flat_map. exists c. split; auto.
  now destruct (kind c).
Qed.
Lemma tree_keeps : forall old new cs, diff_tree old new cs -> NoDup (common old new) -> common old new = common new old ->
  disjoint (minus_of cs) new /\ disjoint (add_of cs) old.
Proof.
  induction 1 as [|new Nn|old No|old new No Nn Z|o1 o2 n1 n2 run c1 c2 Nr Lr T1 IH1 T2 IH2]; intros Do C.
  - split; intros l [].
  - split; [intros l []|]. intros l _ [].
  - split; [|intros l []]. intros l _ [].
  - apply no_run_disjoint in Z. unfold minus_of, add_of. cbn [flat_map kind values app]. rewrite !app_nil_r. split; auto.
    intros l I J. now apply (Z l J).
  - assert (Dc : NoDup (common o1 (n1 ++ run ++ n2) ++ run ++ common o2 (n1 ++ run ++ n2))).
    { rewrite !common_app in Do. rewrite (common_all run (n1 ++ run ++ n2)) in Do by (intros l I; apply in_or_app; right; apply in_or_app; now left). exact Do. }
    assert (C0 : common o1 (n1 ++ run ++ n2) = common n1 (o1 ++ run ++ o2) /\ common o2 (n1 ++ run ++ n2) = common n2 (o1 ++ run ++ o2)).
    { rewrite !common_app in C. rewrite (common_all run (n1 ++ run ++ n2)) in C by (intros l I; apply in_or_app; right; apply in_or_app; now left).
      rewrite (common_all run (o1 ++ run ++ o2)) in C by (intros l I; apply in_or_app; right; apply in_or_app; now left).
      destruct run as [|x run]; [congruence|]. cbn [app] in C.
      apply nodup_split in C as [C1 C2]; [split; auto; now apply app_inv_head in C2|exact Dc]. }
    destruct (nodup_app _ _ Dc) as (Do1&Dc'&_). destruct (nodup_app _ _ Dc') as (_&Do2&_).
    destruct C0 as [C1 C2].
    assert (M1 : forall l, In l o1 -> In l (n1 ++ run ++ n2) -> In l n1).
    { intros l I J. assert (In l (common o1 (n1 ++ run ++ n2))) by (apply in_common; auto). rewrite C1 in H. apply in_common in H. tauto. }
    assert (M2 : forall l, In l o2 -> In l (n1 ++ run ++ n2) -> In l n2).
    { intros l I J. assert (In l (common o2 (n1 ++ run ++ n2))) by (apply in_common; auto). rewrite C2 in H. apply in_common in H. tauto. }
    assert (M3 : forall l, In l n1 -> In l (o1 ++ run ++ o2) -> In l o1).
    { intros l I J. assert (In l (common n1 (o1 ++ run ++ o2))) by (apply in_common; auto). rewrite <- C1 in H. apply in_common in H. tauto. }
    assert (M4 : forall l, In l n2 -> In l (o1 ++ run ++ o2) -> In l o2).
    { intros l I J. assert (In l (common n2 (o1 ++ run ++ o2))) by (apply in_common; auto). rewrite <- C2 in H. apply in_common in H. tauto. }
    rewrite <- (common_eq o1 n1 (n1 ++ run ++ n2)) in Do1 by (intros l I; split; auto; intros J; apply in_or_app; now left).
    rewrite <- (common_eq o2 n2 (n1 ++ run ++ n2)) in Do2 by (intros l I; split; auto; intros J; apply in_or_app; right; apply in_or_app; now right).
    destruct IH1 as [A1 A2]; auto.
    { rewrite (common_eq o1 n1 (n1 ++ run ++ n2)), (common_eq n1 o1 (o1 ++ run ++ o2)); auto; intros l I; split; auto; intros J; apply in_or_app; now left. }
    destruct IH2 as [B1 B2]; auto.
    { rewrite (common_eq o2 n2 (n1 ++ run ++ n2)), (common_eq n2 o2 (o1 ++ run ++ o2)); auto; intros l I; split; auto; intros J;
        apply in_or_app; right; apply in_or_app; now right. }
    destruct (diff_tree_assemble _ _ _ T1) as [E1 E2]. destruct (diff_tree_assemble _ _ _ T2) as [E3 E4].
    unfold minus_of, add_of in *. rewrite !flat_map_app. cbn [flat_map kind values app]. split; intros l I J; apply in_app_or in I as [I|I].
    + apply (A1 l I). apply M1; auto. rewrite <- E1. now apply minus_incl.
    + apply (B1 l I). apply M2; auto. rewrite <- E3. now apply minus_incl.
    + apply (A2 l I). apply M3; auto. rewrite <- E2. now apply add_incl.
    + apply (B2 l I). apply M4; auto. rewrite <- E4. now apply add_incl.
Qed.
Lemma hunks_minus : forall m cs o n, List.length cs <= m -> removed_lines (hunks_of o n cs) = minus_of cs /\ added_lines (hunks_of o n cs) = add_of cs.
Proof.
  unfold removed_lines, added_lines, minus_of, add_of.
  induction m as [|m IH]; intros [|c cs] o n L; cbn [List.length] in L; try lia; auto.
  cbn [hunks_of flat_map]. destruct (kind c) eqn:K.
  - cbn [app]. apply IH. lia.
  - cbn [flat_map removed added app]. destruct (IH cs o (n + List.length (values c))) as [-> ->]; auto. lia.
  - destruct cs as [|c2 cs].
    + cbn [hunks_of flat_map removed added app]. auto.
    + cbn [List.length] in L. destruct (kind c2) eqn:K2.
      * cbn [flat_map removed added app]. destruct (IH (c2 :: cs) (o + List.length (values c)) n) as [-> ->]; [cbn; lia|]. cbn [flat_map]. now rewrite K2.
      * cbn [flat_map removed added app]. rewrite K2. destruct (IH cs (o + List.length (values c)) (n + List.length (values c2))) as [-> ->]; [lia|]. auto.
      * cbn [flat_map removed added app]. destruct (IH (c2 :: cs) (o + List.length (values c)) n) as [-> ->]; [cbn; lia|]. cbn [flat_map]. now rewrite K2.
Qed.
Lemma filter_none : forall f (l : list bytes), filter f l = [] <-> forall x, In x l -> f x = false.
Proof.
  induction l as [|y l IH]; cbn [filter]; [split; [intros _ x []|auto]|]. split.
  - destruct (f y) eqn:E; [discriminate|]. intros H x [<-|I]; [exact E|]. now apply IH.
  - intros H. rewrite (H y (or_introl eq_refl)). apply IH. intros x I. apply H. now right.
Qed.
(* the lines for which f holds, when the lines kept are not among them *)
Lemma minus_count : forall f cs, (forall l, In l (assemble_new cs) -> f l = false) -> (forall l, In l (minus_of cs) -> f l = true) ->
  List.length (minus_of cs) = List.length (filter f (assemble_old cs)).
Proof.
  induction cs as [|c cs IH]; intros H1 H2; [reflexivity|]. unfold assemble_old, assemble_new, minus_of in *. cbn [flat_map] in *.
  rewrite filter_app, !app_length, IH; [|intros l I; apply H1, in_or_app; now right|intros l I; apply H2, in_or_app; now right]. f_equal.
  destruct (kind c).
  - rewrite (proj2 (filter_none _ _)); [reflexivity|]. intros l I. apply H1, in_or_app. now left.
  - reflexivity.
  - assert (E : filter f (values c) = values c); [|now rewrite E]. assert (Q : forall l, In l (values c) -> f l = true) by (intros l I; apply H2, in_or_app; now left).
    clear - Q. induction (values c) as [|x v IH]; [reflexivity|]. cbn [filter]. rewrite (Q x (or_introl eq_refl)), IH; [reflexivity|]. intros l I. apply Q. now right.
Qed.
Lemma add_count_eq : forall f cs, (forall l, In l (assemble_old cs) -> f l = false) -> (forall l, In l (add_of cs) -> f l = true) ->
  List.length (add_of cs) = List.length (filter f (assemble_new cs)).
Proof.
  induction cs as [|c cs IH]; intros H1 H2; [reflexivity|]. unfold assemble_old, assemble_new, add_of in *. cbn [flat_map] in *.
  rewrite filter_app, !app_length, IH; [|intros l I; apply H1, in_or_app; now right|intros l I; apply H2, in_or_app; now right]. f_equal.
  destruct (kind c).
  - rewrite (proj2 (filter_none _ _)); [reflexivity|]. intros l I. apply H1, in_or_app. now left.
  - assert (E : filter f (values c) = values c); [|now rewrite E]. assert (Q : forall l, In l (values c) -> f l = true) by (intros l I; apply H2, in_or_app; now left).
    clear - Q. induction (values c) as [|x v IH]; [reflexivity|]. cbn [filter]. rewrite (Q x (or_introl eq_refl)), IH; [reflexivity|]. intros l I. apply Q. now right.
  - reflexivity.
Qed.
(* any list of changes removes as many lines as there are that the new file does not have *)
Lemma filter_le : forall f (l : list bytes), List.length (filter f l) <= List.length l.
Proof. induction l as [|x l IH]; [auto|]. cbn [filter]. destruct (f x); cbn [List.length]; lia. Qed.
Lemma patches_count : forall hs o n old new, patches hs o n old new -> forall f,
  ((forall l, In l new -> f l = false) -> List.length (filter f old) <= List.length (removed_lines hs)) /\
  ((forall l, In l old -> f l = false) -> List.length (filter f new) <= List.length (added_lines hs)).
Proof.
  unfold removed_lines, added_lines.
  induction 1 as [o n c|h hs o n c old' new' Nu P I]; intros f.
  - split; intros H; rewrite (proj2 (filter_none _ _) H); cbn; lia.
  - destruct (I f) as [I1 I2]. cbn [flat_map]. split; intros H; rewrite !filter_app, !app_length.
    + rewrite (proj2 (filter_none f c)) by (intros l J; apply H; rewrite !in_app_iff; auto). cbn [List.length].
      assert (K : forall l, In l new' -> f l = false) by (intros l J; apply H; rewrite !in_app_iff; auto).
      pose proof (I1 K). pose proof (filter_le f (removed h)). lia.
    + rewrite (proj2 (filter_none f c)) by (intros l J; apply H; rewrite !in_app_iff; auto). cbn [List.length].
      assert (K : forall l, In l old' -> f l = false) by (intros l J; apply H; rewrite !in_app_iff; auto).
      pose proof (I2 K). pose proof (filter_le f (added h)). lia.
Qed.
Lemma ordered_minimal : forall old new cs hs, (forall l, In l old -> ~ In nl l) -> (forall l, In l new -> ~ In nl l) ->
  NoDup (common old new) -> common old new = common new old ->
  diff old new = Some (Ok cs) -> read_diff (format cs) = Some hs -> minimal hs old new.
Proof.
  intros old new cs hs Ho Hn Do C E R hs' P'. destruct (printed old new cs Ho Hn E) as [P T]. rewrite R in P. injection P as ->.
  destruct (tree_keeps _ _ _ T Do C) as [K1 K2]. destruct (diff_tree_assemble _ _ _ T) as [A1 A2].
  destruct (hunks_minus _ cs 0 0 (le_n _)) as [M1 M2].
  set (out := fun (b : list bytes) l => if in_dec (list_eq_dec ascii_dec) l b then false else true).
  assert (O1 : forall b l, In l b -> out b l = false) by (intros b l I; unfold out; now destruct (in_dec (list_eq_dec ascii_dec) l b)).
  assert (O2 : forall b l, ~ In l b -> out b l = true) by (intros b l I; unfold out; now destruct (in_dec (list_eq_dec ascii_dec) l b)).
  destruct (patches_count _ _ _ _ _ P' (out new)) as [U1 _]. destruct (patches_count _ _ _ _ _ P' (out old)) as [_ U2].
  unfold size. rewrite M1, M2. apply Nat.add_le_mono.
  - rewrite (minus_count (out new)); [rewrite A1; apply U1, O1|rewrite A2; apply O1|]. intros l I. apply O2. now apply K1.
  - rewrite (add_count_eq (out old)); [rewrite A2; apply U2, O1|rewrite A1; apply O1|]. intros l I. apply O2. now apply K2.
Qed.

(* ---- files whose printed difference is not minimal ---- *)
Lemma run_in_weave : forall y D As (n1 run n2 : list bytes), run <> [] -> ~ In y run -> n1 ++ run ++ n2 = weave y As ++ D ->
  (exists a, In a As /\ List.length run <= List.length a) \/ (exists p, n1 = weave y As ++ p /\ D = p ++ run ++ n2).
Proof.
  intros y D. induction As as [|a As IH]; intros n1 run n2 Nr Ny E.
  - right. exists n1. auto.
  - unfold weave in *. cbn [flat_map] in *. rewrite <- !app_assoc in E. cbn [app] in E.
    assert (K : forall l, run = l ++ y :: skipn (S (List.length l)) run -> False).
    { intros l Q. apply Ny. rewrite Q. apply in_or_app. right. now left. }
    apply app_eq_app in E as (l&[[E1 E2]|[E1 E2]]).
    + destruct l as [|z l]; cbn [app] in E2.
      * exfalso. destruct run as [|z r]; [congruence|]. cbn [app] in E2. injection E2 as <- E2. apply Ny. now left.
      * injection E2 as <- E2. symmetry in E2. destruct (IH _ _ _ Nr Ny E2) as [(b&I&L)|(p&P1&P2)].
        -- left. exists b. split; auto. now right.
        -- right. exists p. split; auto. rewrite E1, P1, <- !app_assoc. reflexivity.
    + left. exists a. split; [now left|]. subst a. apply app_eq_app in E2 as (m&[[E1 E2]|[E1 E2]]).
      * destruct m as [|z m]; [rewrite E1, !app_length; cbn [List.length]; lia|]. cbn [app] in E2. injection E2 as <- E2.
        exfalso. apply Ny. rewrite E1. apply in_or_app. right. now left.
      * rewrite E1, !app_length. lia.
Qed.
Lemma weave_in : forall x As l, In l (weave x As) -> l = x \/ exists a, In a As /\ In l a.
Proof.
  intros x As l I. unfold weave in I. apply in_flat_map in I as (a&Ia&I). apply in_app_or in I as [I|[<-|[]]]; eauto.
Qed.
Lemma moved_run : forall D x y As (o1 o2 n1 n2 run : list bytes),
  D <> [] -> (forall a, In a As -> List.length a < List.length D /\ ~ In y a /\ disjoint D a) ->
  ~ In x D -> ~ In y D -> x <> y ->
  D ++ weave x As = o1 ++ run ++ o2 -> weave y As ++ D = n1 ++ run ++ n2 -> List.length D <= List.length run ->
  run = D /\ o1 = [] /\ o2 = weave x As /\ n1 = weave y As /\ n2 = [].
Proof.
  intros D x y As o1 o2 n1 n2 run Nd H Xd Yd Xy Eo En L.
  assert (Nr : run <> []) by (intros ->; destruct D; [congruence|cbn [List.length] in L; lia]).
  assert (Ny : ~ In y run).
  { intros I. assert (J : In y (D ++ weave x As)) by (rewrite Eo; apply in_or_app; right; apply in_or_app; now left).
    apply in_app_or in J as [J|J]; [tauto|]. apply weave_in in J as [J|(a&Ia&J)]; [congruence|]. now apply (H a Ia). }
  symmetry in En. destruct (run_in_weave _ _ _ _ _ _ Nr Ny En) as [(a&I&La)|(p&P1&P2)].
  { destruct (H a I). lia. }
  assert (Lp : List.length D = List.length (p ++ run ++ n2)) by now rewrite <- P2. rewrite !app_length in Lp.
  destruct p; [|cbn [List.length] in Lp; lia]. destruct n2; [|cbn [List.length] in Lp; lia]. cbn [app] in P2.
  rewrite app_nil_r in *. subst run. assert (O : o1 = []).
  { destruct o1 as [|z o1]; auto. exfalso. destruct (exists_last Nd) as (D'&d&Ed).
    assert (I : In d (weave x As)).
    { assert (Q : skipn (List.length D) (D ++ weave x As) = skipn (List.length D) ((z :: o1) ++ D ++ o2)) by now rewrite Eo.
      rewrite skipn_app, skipn_all, Nat.sub_diag in Q. cbn [app skipn] in Q. rewrite Q. rewrite Ed at 2.
      rewrite <- app_assoc. cbn [app]. rewrite Ed, app_length. cbn [List.length]. rewrite Nat.add_1_r. cbn [skipn].
      rewrite app_assoc, skipn_app, app_length. apply in_or_app. right. replace (List.length D' - (List.length o1 + List.length D')) with 0 by lia.
      cbn [skipn]. now left. }
    assert (Id : In d D) by (rewrite Ed; apply in_or_app; right; now left).
    apply weave_in in I as [->|(a&Ia&I)]; [tauto|]. destruct (H a Ia) as (_&_&Dj). now apply (Dj d Id). }
  subst o1. cbn [app] in Eo. apply app_inv_head in Eo. auto.
Qed.
Lemma tree_all_added : forall old new c, diff_tree old new c -> old = [] -> minus_of c = [] /\ add_of c = new.
Proof.
  intros old new c T E. destruct T as [|new' Nn|old' No|old new No Nn Z|o1 o2 n1 n2 run c1 c2 Nr Lr T1 T2]; try congruence.
  - auto.
  - unfold add_of. cbn. now rewrite app_nil_r.
  - exfalso. apply app_eq_nil in E as [_ E]. apply app_eq_nil in E. tauto.
Qed.
Lemma tree_all_removed : forall old new c, diff_tree old new c -> new = [] -> minus_of c = old /\ add_of c = [].
Proof.
  intros old new c T E. destruct T as [|new' Nn|old' No|old new No Nn Z|o1 o2 n1 n2 run c1 c2 Nr Lr T1 T2]; try congruence.
  - auto.
  - unfold minus_of. cbn. now rewrite app_nil_r.
  - exfalso. apply app_eq_nil in E as [_ E]. apply app_eq_nil in E. tauto.
Qed.
(* a smaller difference of the same files *)
Definition in_place (D : list bytes) (x y : bytes) (As : list (list bytes)) : list comparison :=
  {| kind := Minus; values := D |} ::
  flat_map (fun a => [{| kind := Equal; values := a |}; {| kind := Minus; values := [x] |}; {| kind := Add; values := [y] |}]) As ++
  [{| kind := Add; values := D |}].
Lemma in_place_ok : forall D x y As, assemble_old (in_place D x y As) = D ++ weave x As /\ assemble_new (in_place D x y As) = weave y As ++ D /\
  minus_of (in_place D x y As) = D ++ repeat x (List.length As) /\ add_of (in_place D x y As) = repeat y (List.length As) ++ D.
Proof.
  intros D x y As. unfold in_place, assemble_old, assemble_new, minus_of, add_of. cbn [flat_map kind values app].
  rewrite !flat_map_app. cbn [flat_map kind values app]. rewrite !app_nil_r. repeat split.
  - f_equal. induction As as [|a As IH]; auto. cbn [flat_map app kind values]. unfold weave in *. cbn [flat_map]. rewrite IH, <- app_assoc. reflexivity.
  - f_equal. induction As as [|a As IH]; auto. cbn [flat_map app kind values]. unfold weave in *. cbn [flat_map]. rewrite IH, <- app_assoc. reflexivity.
  - f_equal. induction As as [|a As IH]; auto. cbn [flat_map app kind values List.length repeat]. now rewrite IH.
  - f_equal. induction As as [|a As IH]; auto. cbn [flat_map app kind values List.length repeat]. now rewrite IH.
Qed.
Lemma weave_length : forall x As, List.length (weave x As) = List.length (concat As) + List.length As.
Proof. intros x. induction As as [|a As IH]; auto. unfold weave in *. cbn [flat_map concat List.length]. rewrite !app_length, IH. cbn [List.length]. lia. Qed.
Lemma moved_size : forall D x y As cs hs, D <> [] ->
  (forall a, In a As -> a <> [] /\ List.length a < List.length D /\ ~ In y a /\ disjoint D a) -> ~ In x D -> ~ In y D -> x <> y ->
  (forall l, In l (D ++ weave x As) -> ~ In nl l) -> (forall l, In l (weave y As ++ D) -> ~ In nl l) ->
  diff (D ++ weave x As) (weave y As ++ D) = Some (Ok cs) -> read_diff (format cs) = Some hs ->
  removed_lines hs = weave x As /\ added_lines hs = weave y As /\
  exists hs', patches hs' 0 0 (D ++ weave x As) (weave y As ++ D) /\
    removed_lines hs' = D ++ repeat x (List.length As) /\ added_lines hs' = repeat y (List.length As) ++ D.
Proof.
  intros D x y As cs hs Nd H Xd Yd Xy Ho Hn E R. destruct (printed _ _ _ Ho Hn E) as [P T]. rewrite R in P. injection P as ->.
  destruct (hunks_minus _ cs 0 0 (le_n _)) as [-> ->].
  remember (D ++ weave x As) as old eqn:Eo. remember (weave y As ++ D) as new eqn:En.
  assert (G : minus_of cs = weave x As /\ add_of cs = weave y As).
  { destruct T as [|new' Nn|old' No|old new No Nn Z|o1 o2 n1 n2 run c1 c2 Nr Lr T1 T2].
    - symmetry in Eo. apply app_eq_nil in Eo. tauto.
    - symmetry in Eo. apply app_eq_nil in Eo. tauto.
    - symmetry in En. apply app_eq_nil in En. tauto.
    - exfalso. pose proof (longest_run_max old new D [] (weave x As) (weave y As) []) as M. rewrite app_nil_r in M.
      specialize (M Eo En). destruct D; [congruence|]. cbn [List.length] in M. lia.
    - symmetry in Eo, En. destruct (moved_run D x y As o1 o2 n1 n2 run) as (->&->&->&->&->); auto.
      + intros a I. destruct (H a I) as (_&H1&H2&H3). auto.
      + rewrite Lr. rewrite <- Eo, <- En. apply (longest_run_max _ _ D [] (weave x As) (weave y As) []); auto. now rewrite app_nil_r.
      + destruct (tree_all_added _ _ _ T1 eq_refl) as [A1 A2]. destruct (tree_all_removed _ _ _ T2 eq_refl) as [A3 A4].
        unfold minus_of, add_of in *. rewrite !flat_map_app, A1, A2, A3, A4. cbn [flat_map kind values app]. now rewrite app_nil_r. }
  destruct G as [-> ->]. split; auto. split; auto. destruct (in_place_ok D x y As) as (I1&I2&I3&I4).
  exists (hunks_of 0 0 (in_place D x y As)). destruct (hunks_minus _ (in_place D x y As) 0 0 (le_n _)) as [-> ->].
  rewrite I3, I4. split; auto. subst old new. rewrite <- I1 at 1. rewrite <- I2 at 1. apply (hunks_patch _ _ 0 0 (le_n _)).
  unfold changed_nonempty, in_place. constructor; auto. apply Forall_app. split; [|constructor; auto].
  apply Forall_flat_map. apply Forall_forall. intros a I. destruct (H a I). repeat constructor; cbn; auto; discriminate.
Qed.
