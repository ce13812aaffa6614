(* Lemmas about the command line of cut. *)
From Verif Require Import GoBase GoFacts CutModel CutFlagModel CutSpec.

Section Line.
Variable quote : bytes -> bytes.
Local Notation parse := (parse_flags quote).

Definition set (g : ascii * option bytes) (o : options) : options :=
  match formal [fst g] with
  | Some f => match snd g with Some v => set_string f v o | None => set_bool f true o end
  | None => o
  end.
Definition sets (given : list (ascii * option bytes)) (o : options) : options := fold_left (fun o g => set g o) given o.

Lemma operand_first : forall a rest o, a = B "-" \/ (forall r, a <> "-"%char :: r) -> parse (a :: rest) o = Parsed o (a :: rest).
Proof.
  intros a rest o H. destruct H as [->|H]; [reflexivity|]. cbn [parse_flags]. destruct a as [|c [|c1 r]]; try reflexivity.
  destruct (Ascii.eqb c "-") eqn:E; [|reflexivity]. apply Ascii.eqb_eq in E. subst. now destruct (H (c1 :: r)).
Qed.
Lemma flag_first : forall f rest o, In f without_argument -> parse (["-"%char; f] :: rest) o = parse rest (set (f, None) o).
Proof. intros f rest o H. cbn in H. destruct H as [<-|[<-|[]]]; reflexivity. Qed.
Lemma argument_first : forall c v rest o, In c with_argument -> parse (["-"%char; c] :: v :: rest) o = parse rest (set (c, Some v) o).
Proof. intros c v rest o H. cbn in H. destruct H as [<-|[<-|[<-|[<-|[]]]]]; reflexivity. Qed.

Lemma apart_parsed : forall words given ops, written_apart words given ops -> forall o, parse words o = Parsed (sets given o) ops.
Proof.
  intros words given ops H. induction H as [|a rest Ha|rest|f rest given ops Hf H IH|c v rest given ops Hc H IH]; intros o; cbn [sets fold_left].
  - reflexivity.
  - now apply operand_first.
  - reflexivity.
  - rewrite flag_first by assumption. apply IH.
  - rewrite argument_first by assumption. apply IH.
Qed.
Lemma before_parsed : forall ws given, apart_before ws given -> forall rest o, parse (ws ++ rest) o = parse rest (sets given o).
Proof.
  intros ws given H. induction H as [|f ws given Hf H IH|c v ws given Hc H IH]; intros rest o; cbn [sets fold_left app].
  - reflexivity.
  - rewrite flag_first by assumption. apply IH.
  - rewrite argument_first by assumption. apply IH.
Qed.

(* ---- the values ---- *)
Definition sound (g : ascii * option bytes) : Prop :=
  (In (fst g) without_argument /\ snd g = None) \/ (In (fst g) with_argument /\ exists v, snd g = Some v).
Lemma apart_sound : forall words given ops, written_apart words given ops -> Forall sound given.
Proof.
  intros words given ops H. induction H as [|a rest Ha|rest|f rest given ops Hf H IH|c v rest given ops Hc H IH]; constructor; auto.
  - now left.
  - right. split; [exact Hc|now exists v].
Qed.
Lemma before_sound : forall ws given, apart_before ws given -> Forall sound given.
Proof.
  intros ws given H. induction H as [|f ws given Hf H IH|c v ws given Hc H IH]; constructor; auto.
  - now left.
  - right. split; [exact Hc|now exists v].
Qed.
Lemma given_cons : forall c g given, is_given c (g :: given) <-> fst g = c \/ is_given c given.
Proof.
  intros c [k v] given. unfold is_given. cbn [fst In]. split.
  - intros [x [E|H]]; [left; congruence|right; eauto].
  - intros [->|[x H]]; eauto.
Qed.
Lemma sets_say : forall given, Forall sound given -> forall o,
  let arg c absent := match argument c given with Some v => v | None => absent end in
  optFields (sets given o) = arg "f"%char (optFields o) /\ optBytes (sets given o) = arg "b"%char (optBytes o) /\
  optChars (sets given o) = arg "c"%char (optChars o) /\ optDelim (sets given o) = arg "d"%char (optDelim o) /\
  (optNoSplit (sets given o) = true <-> optNoSplit o = true \/ is_given "n" given) /\
  (optSuppress (sets given o) = true <-> optSuppress o = true \/ is_given "s" given).
Proof.
  intros given H. induction H as [|g given Hg H IH]; intros o; cbv zeta.
  - cbn. unfold is_given. repeat split; auto; intros [E|[? []]]; exact E.
  - cbn [sets fold_left]. change (fold_left (fun o g => set g o) given (set g o)) with (sets given (set g o)).
    destruct (IH (set g o)) as (E1 & E2 & E3 & E4 & E5 & E6). rewrite E1, E2, E3, E4, E5, E6. rewrite !given_cons.
    destruct g as [k v]. cbn [fst argument]. unfold sound in Hg. cbn [fst snd] in Hg.
    destruct Hg as [[Hk ->]|[Hk [x ->]]]; cbn in Hk.
    + destruct Hk as [<-|[<-|[]]]; cbn -[argument is_given]; repeat split;
        try (repeat match goal with |- context [argument ?c given] => destruct (argument c given) end; reflexivity); intuition congruence.
    + destruct Hk as [<-|[<-|[<-|[<-|[]]]]]; cbn -[argument is_given]; repeat split;
        try (repeat match goal with |- context [argument ?c given] => destruct (argument c given) end; reflexivity); intuition congruence.
Qed.
Lemma sets_says : forall given, Forall sound given -> says given (sets given defaults).
Proof.
  intros given H. destruct (sets_say given H defaults) as (E1 & E2 & E3 & E4 & E5 & E6). unfold says. repeat split; auto.
  - intros X. apply E5 in X. destruct X as [X|X]; [discriminate X|exact X].
  - intros X. apply E5. now right.
  - intros X. apply E6 in X. destruct X as [X|X]; [discriminate X|exact X].
  - intros X. apply E6. now right.
Qed.

(* ---- what is not understood ---- *)
Lemma at_equals_prefix : forall b n v, at_equals b = (n, v) -> exists t, b = n ++ t /\ (v = None -> t = []) /\ ~ In "="%char n.
Proof.
  induction b as [|c r IH]; intros n v H; cbn [at_equals] in H; [injection H as <- <-; exists []; repeat split; auto|].
  destruct (Ascii.eqb c "=") eqn:E; [injection H as <- <-; exists (c :: r); repeat split; auto; discriminate|].
  destruct (at_equals r) as [n' v'] eqn:Q. injection H as <- <-. destruct (IH _ _ eq_refl) as (t & -> & X & Y). exists t. repeat split; auto.
  intros [->|I]; [now rewrite Ascii.eqb_refl in E|auto].
Qed.
(* a word of more than a letter whose second letter is not = is no flag of cut *)
Lemma long_word : forall c x v rest o, In c (with_argument ++ without_argument) -> x <> "="%char ->
  exists m, parse (("-"%char :: c :: x :: v) :: rest) o = Failed (B "flag provided but not defined: -" ++ c :: x :: m) /\
    exists t, v = m ++ t.
Proof.
  intros c x v rest o Hc Nx.
  assert (E : Ascii.eqb x "=" = false) by (destruct (Ascii.eqb x "=") eqn:E; [apply Ascii.eqb_eq in E; congruence|reflexivity]).
  destruct (at_equals v) as [n w] eqn:Q. destruct (at_equals_prefix _ _ _ Q) as (t & Ev & _). exists n. split; [|now exists t].
  cbn [parse_flags]. rewrite Ascii.eqb_refl. cbn [negb].
  assert (N : forall k, In k (B "-=") -> Ascii.eqb c k = false).
  { intros k Hk. destruct (Ascii.eqb c k) eqn:Z; [|reflexivity]. apply Ascii.eqb_eq in Z. subst k. cbn in Hc, Hk.
    destruct Hk as [<-|[<-|[]]]; repeat (destruct Hc as [Hc|Hc]; [discriminate Hc|]); destruct Hc. }
  rewrite (N "-"%char) by (left; reflexivity). cbn [andb]. rewrite (N "="%char) by (right; left; reflexivity). cbn [orb].
  unfold name_value. cbn [at_equals]. rewrite E, Q.
  assert (Fm : formal (c :: x :: n) = None).
  { assert (One : forall a, beqb (c :: x :: n) [a] = false) by (intros a; apply not_true_iff_false; intros Z; apply beqb_eq in Z; discriminate Z).
    unfold formal. change (B "f") with ["f"%char]. change (B "b") with ["b"%char]. change (B "c") with ["c"%char].
    change (B "d") with ["d"%char]. change (B "n") with ["n"%char]. change (B "s") with ["s"%char]. now rewrite !One. }
  rewrite Fm.
  assert (Hh : beqb (c :: x :: n) (B "help") || beqb (c :: x :: n) (B "h") = false).
  { apply orb_false_iff. split; apply not_true_iff_false; intros Z; apply beqb_eq in Z; [|discriminate Z]. injection Z as -> _ _.
    cbn in Hc. repeat (destruct Hc as [Hc|Hc]; [discriminate Hc|]); destruct Hc. }
  rewrite Hh, (N "-"%char) by (left; reflexivity). reflexivity.
Qed.
Lemma unknown_word : forall c v rest o, ~ In c (with_argument ++ without_argument ++ B "-=h") ->
  exists m t, v = m ++ t /\ parse (("-"%char :: c :: v) :: rest) o = Failed (B "flag provided but not defined: -" ++ c :: m).
Proof.
  intros c v rest o Hc. destruct (at_equals v) as [n w] eqn:Q. destruct (at_equals_prefix _ _ _ Q) as (t & Ev & _). exists n, t. split; [exact Ev|].
  assert (N : forall k, In k (with_argument ++ without_argument ++ B "-=h") -> Ascii.eqb c k = false).
  { intros k Hk. destruct (Ascii.eqb c k) eqn:Z; [|reflexivity]. apply Ascii.eqb_eq in Z. congruence. }
  assert (Nb : forall k b, In k (with_argument ++ without_argument ++ B "-=h") -> beqb (c :: n) (k :: b) = false).
  { intros k b Hk. apply not_true_iff_false. intros Z. apply beqb_eq in Z. injection Z as -> _. now apply Hc. }
  cbn [parse_flags]. rewrite Ascii.eqb_refl. cbn [negb]. rewrite (N "-"%char) by (cbn; tauto). cbn [andb orb]. rewrite (N "-"%char), (N "="%char) by (cbn; tauto).
  cbn [orb name_value]. rewrite Q.
  assert (Fm : formal (c :: n) = None).
  { unfold formal. change (B "f") with ["f"%char]. change (B "b") with ["b"%char]. change (B "c") with ["c"%char].
    change (B "d") with ["d"%char]. change (B "n") with ["n"%char]. change (B "s") with ["s"%char]. now rewrite !Nb by (cbn; tauto). }
  rewrite Fm. change (B "help") with ("h"%char :: B "elp"). change (B "h") with ["h"%char]. now rewrite !Nb by (cbn; tauto).
Qed.
Lemma no_argument : forall c o, In c with_argument -> parse [["-"%char; c]] o = Failed (B "flag needs an argument: -" ++ [c]).
Proof. intros c o H. cbn in H. destruct H as [<-|[<-|[<-|[<-|[]]]]]; reflexivity. Qed.
Lemma equals_value : forall c v rest o, In c with_argument -> parse (("-"%char :: c :: "="%char :: v) :: rest) o = parse rest (set (c, Some v) o).
Proof. intros c v rest o H. cbn in H. destruct H as [<-|[<-|[<-|[<-|[]]]]]; reflexivity. Qed.

(* ---- a value for an option without argument ---- *)
Definition switch (c : ascii) (b : bool) (o : options) : options := match formal [c] with Some f => set_bool f b o | None => o end.
Lemma switch_value : forall c v b rest o, In c without_argument -> parse_bool v = Some b ->
  parse (("-"%char :: c :: "="%char :: v) :: rest) o = parse rest (switch c b o).
Proof.
  intros c v b rest o H E. cbn in H. destruct H as [<-|[<-|[]]]; cbn -[parse_bool]; rewrite E; reflexivity.
Qed.
Lemma bool_word_true : forall v, In v (map B ["1"; "t"; "T"; "true"; "TRUE"; "True"]%string) -> parse_bool v = Some true.
Proof. intros v H. cbn [map In] in H. repeat destruct H as [<-|H]; try reflexivity. destruct H. Qed.
Lemma bool_word_false : forall v, In v (map B ["0"; "f"; "F"; "false"; "FALSE"; "False"]%string) -> parse_bool v = Some false.
Proof. intros v H. cbn [map In] in H. repeat destruct H as [<-|H]; try reflexivity. destruct H. Qed.
Lemma bool_word_none : forall v, ~ In v (map B ["1"; "t"; "T"; "true"; "TRUE"; "True"; "0"; "f"; "F"; "false"; "FALSE"; "False"]%string) -> parse_bool v = None.
Proof.
  intros v H. unfold parse_bool. destruct (existsb (beqb v) _) eqn:E.
  - exfalso. apply H. apply existsb_exists in E as (x&I&E). apply beqb_eq in E. subst x.
    apply (in_or_app (map B ["1"; "t"; "T"; "true"; "TRUE"; "True"]%string) (map B ["0"; "f"; "F"; "false"; "FALSE"; "False"]%string)). now left.
  - clear E. destruct (existsb (beqb v) _) eqn:E; [|reflexivity].
    exfalso. apply H. apply existsb_exists in E as (x&I&E). apply beqb_eq in E. subst x.
    apply (in_or_app (map B ["1"; "t"; "T"; "true"; "TRUE"; "True"]%string) (map B ["0"; "f"; "F"; "false"; "FALSE"; "False"]%string)). now right.
Qed.
Lemma switch_bad : forall c v rest o, In c without_argument ->
  ~ In v (map B ["1"; "t"; "T"; "true"; "TRUE"; "True"; "0"; "f"; "F"; "false"; "FALSE"; "False"]%string) ->
  parse (("-"%char :: c :: "="%char :: v) :: rest) o = Failed (B "invalid boolean value " ++ quote v ++ B " for -" ++ [c] ++ B ": parse error").
Proof.
  intros c v rest o H N. apply bool_word_none in N. cbn in H. destruct H as [<-|[<-|[]]]; cbn -[parse_bool B]; rewrite N; reflexivity.
Qed.
Lemma switch_set : forall c g o, In c without_argument -> sound g -> switch c false (set g o) = if Ascii.eqb (fst g) c then switch c false o else set g (switch c false o).
Proof.
  intros c [k v] o Hc [[Hk E]|[Hk [x E]]]; cbn [fst snd] in *; subst v; cbn in Hc, Hk.
  - destruct Hc as [<-|[<-|[]]]; destruct Hk as [<-|[<-|[]]]; reflexivity.
  - destruct Hc as [<-|[<-|[]]]; destruct Hk as [<-|[<-|[<-|[<-|[]]]]]; reflexivity.
Qed.
Lemma switched_off : forall before c, Forall sound before -> In c without_argument ->
  switch c false (sets before defaults) = sets (filter (fun g => negb (Ascii.eqb (fst g) c)) before) defaults.
Proof.
  intros before c H Hc. induction before as [|g before IH] using rev_ind.
  - cbn in Hc. destruct Hc as [<-|[<-|[]]]; reflexivity.
  - apply Forall_app in H as [H1 H2]. inversion H2; subst. unfold sets in *. rewrite filter_app, !fold_left_app. cbn [fold_left filter].
    rewrite switch_set by assumption. destruct (Ascii.eqb (fst g) c); cbn [negb fold_left]; rewrite IH by assumption; reflexivity.
Qed.

(* ---- help ---- *)
Lemma help_word : forall n args o, List.length args <= n -> parse args o = Help ->
  exists ws w rest, args = ws ++ w :: rest /\ exists r, w = B "-h" ++ r \/ w = B "--h" ++ r.
Proof.
  induction n as [|n IH]; intros args o Le H; destruct args as [|s rest]; try discriminate H; cbn [List.length] in Le; [lia|].
  cbn [parse_flags] in H. destruct s as [|c [|c1 r1]]; try discriminate H. destruct (Ascii.eqb c "-") eqn:Ec; [|discriminate H]. cbn [negb] in H.
  apply Ascii.eqb_eq in Ec. subst c. destruct (_ && _) eqn:E2 in H; [discriminate H|].
  set (word := if Ascii.eqb c1 "-" then r1 else c1 :: r1) in H. destruct word as [|w wr] eqn:Ew; [discriminate H|].
  destruct (_ || _) in H; [discriminate H|]. cbn [name_value] in H. destruct (at_equals wr) as [nm value] eqn:Q.
  assert (Down : forall o', parse rest o' = Help -> exists ws w' rest', ("-"%char :: c1 :: r1) :: rest = ws ++ w' :: rest' /\ exists r, w' = B "-h" ++ r \/ w' = B "--h" ++ r).
  { intros o' H'. destruct (IH rest o' ltac:(lia) H') as (ws & w' & rest' & -> & X). now exists (("-"%char :: c1 :: r1) :: ws), w', rest'. }
  destruct (formal (w :: nm)) as [f|] eqn:Fm.
  - destruct (is_bool f); destruct value as [v|].
    + destruct (parse_bool v); [eauto|discriminate H].
    + eauto.
    + eauto.
    + destruct rest as [|v rest]; [discriminate H|]. cbn [List.length] in Le.
      destruct (IH rest _ ltac:(lia) H) as (ws & w' & rest' & -> & X). now exists (("-"%char :: c1 :: r1) :: v :: ws), w', rest'.
  - destruct (_ || _) eqn:Hh in H; [|discriminate H]. exists [], ("-"%char :: c1 :: r1), rest. split; [reflexivity|].
    assert (w = "h"%char) as -> by (apply orb_true_iff in Hh as [Z|Z]; apply beqb_eq in Z; injection Z; auto).
    unfold word in Ew. destruct (Ascii.eqb c1 "-") eqn:E1.
    + apply Ascii.eqb_eq in E1. subst. exists wr. now right.
    + injection Ew as -> ->. exists wr. now left.
Qed.
End Line.
