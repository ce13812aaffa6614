(* What an accepted definition assigns. *)
From Verif Require Import GoBase GoFacts LocGramSpec LocYaccModel LocYaccCert LocYaccProofs LocYaccGram LocYaccSound LocYaccComplete.
Local Open Scope Z_scope.

Definition word := list (Z * bytes).
Definition texts (w : word) : bytes := concat (map snd w).
Definition lacks (kw : Z * bytes -> bool) (w : word) : Prop := Forall (fun p => kw p = false) w.

Definition str_codes : list Z := [79; 80; 81; 82; 83; 84].
Definition charcodes : list Z := [5; 9; 10; 11; 12].

(* the string after a currency keyword *)
Definition str_seg (w : word) (v : bytes) : Prop :=
  (exists q1 chars q2, w = (94, q1) :: chars ++ [(94, q2)] /\ chars <> [] /\ Forall (fun p => In (fst p) charcodes) chars /\
     v = texts chars) \/
  w = [(93, v)].

(* the numbers of a grouping *)
Inductive galt : word -> list bytes -> Prop :=
| ga_one : forall v, galt [(6, v)] [v]
| ga_more : forall w ns s v, galt w ns -> galt (w ++ [(95, s)] ++ [(6, v)]) (ns ++ [v]).

Lemma galt_codes : forall w ns, galt w ns -> Forall (fun p => fst p = 6 \/ fst p = 95) w /\ ns <> [].
Proof.
  intros w ns H. induction H as [v|w ns s v _ [IH1 IH2]].
  - split; [constructor; [now left|constructor]|discriminate].
  - split; [|destruct ns; discriminate]. apply Forall_app. split; [exact IH1|].
    constructor; [now right|]. constructor; [now left|constructor].
Qed.

Lemma texts_app : forall u v, texts (u ++ v) = texts u ++ texts v.
Proof. intros u v. unfold texts. now rewrite map_app, concat_app. Qed.

Lemma lacks_app : forall k u v, lacks k (u ++ v) <-> lacks k u /\ lacks k v.
Proof. intros k u v. apply Forall_app. Qed.

Lemma lacks_in : forall kw u k v, lacks kw (u ++ k :: v) -> kw k = true -> False.
Proof. intros kw u k v H E. apply lacks_app in H. destruct H as [_ H]. inversion H as [|? ? H1 _]; subst. congruence. Qed.

Definition has_field {F : Type} (kw : Z * bytes -> bool) (R : word -> F -> Prop) (get : definition -> F)
  (w : word) (d d' : definition) : Prop :=
  (lacks kw w -> get d' = get d) /\
  (forall pre k body, w = pre ++ k :: body -> kw k = true -> lacks kw body ->
     exists seg post, body = seg ++ post /\ R seg (get d')).

(* a word whose fields all have their values *)
Lemma field_app : forall (F : Type) kw R (get : definition -> F) u v d d1 d2,
  has_field kw R get u d d1 -> has_field kw R get v d1 d2 -> has_field kw R get (u ++ v) d d2.
Proof.
  intros F kw R get u v d d1 d2 [U1 U2] [V1 V2]. split.
  - intros H. apply lacks_app in H. destruct H as [H1 H2]. now rewrite V1, U1.
  - intros pre k body E KW NB.
    assert (S1 : (exists t, u = pre ++ k :: t /\ body = t ++ v) \/
                 (exists t, pre = u ++ t /\ v = t ++ k :: body)).
    { clear - E. revert u E. induction pre as [|x pre IH]; intros u E.
      - destruct u as [|y u]; cbn [app] in E.
        + right. exists []. now split.
        + injection E as -> <-. left. exists u. now split.
      - destruct u as [|y u]; cbn [app] in E.
        + right. exists (x :: pre). now split.
        + injection E as -> E. destruct (IH u E) as [(t & -> & ->)|(t & -> & ->)].
          * left. exists t. now split.
          * right. exists t. now split. }
    destruct S1 as [(t & -> & ->)|(t & -> & ->)].
    + apply lacks_app in NB. destruct NB as [N1 N2].
      destruct (U2 pre k t eq_refl KW N1) as (seg & post & -> & HR).
      exists seg, (post ++ v). rewrite app_assoc. split; [reflexivity|]. now rewrite V1.
    + exact (V2 t k body eq_refl KW NB).
Qed.

Lemma field_lacks : forall (F : Type) kw R (get : definition -> F) w d d',
  lacks kw w -> get d' = get d -> has_field kw R get w d d'.
Proof.
  intros F kw R get w d d' H E. split; [trivial|].
  intros pre k body -> K _. destruct (lacks_in _ _ _ _ H K).
Qed.

Lemma field_one : forall (F : Type) kw (R : word -> F -> Prop) (get : definition -> F) k seg post d d',
  kw k = true -> lacks kw (seg ++ post) -> R seg (get d') -> has_field kw R get (k :: seg ++ post) d d'.
Proof.
  intros F kw R get k seg post d d' K L H. split.
  - intros N. inversion N as [|? ? N1 _]; subst. congruence.
  - intros pre k' body E K' _. destruct pre as [|x pre]; cbn [app] in E.
    + injection E as _ <-. now exists seg, post.
    + injection E as _ E. rewrite E in L. destruct (lacks_in _ _ _ _ L K').
Qed.

Definition sk (p : Z * bytes) : bool := mem (fst p) str_codes && beqb (snd p) (B "int_curr_symbol").
Definition gk (p : Z * bytes) : bool := fst p =? 90.

Definition Rgrp (seg : word) (g : list Z) : Prop :=
  exists e seg' ns, seg = seg' ++ [(16, e)] /\ galt seg' ns /\ atoi_all (split_on ";" (join (B ";") ns)) = Some g.

Definition sym_field := has_field sk str_seg int_curr_symbol.
Definition grp_field := has_field gk Rgrp mon_grouping.

(* the non-terminals below which a keyword of the monetary category can occur *)
Definition high : list Z := [-1; -3; -5; -9; -49; -51].
Definition kws : list Z := [79; 80; 81; 82; 83; 84; 90; -52; -55].

Record facts (X : Z) (w : word) (v : bytes) (d d' : definition) : Prop := {
  f_same : mem X high = false -> d' = d;
  f_frac : int_frac_digits d' = int_frac_digits d;
  f_chars : X = -12 \/ X = -13 -> v = texts w /\ w <> [] /\ Forall (fun p => In (fst p) charcodes) w;
  f_str : X = -53 -> str_seg w v;
  f_kwstr : X = -52 -> exists t, w = [(t, v)] /\ In t str_codes;
  f_kwgrp : X = -55 -> w = [(90, v)];
  f_term : 0 < X -> w = [(X, v)];
  f_grp : X = -56 -> exists ns, galt w ns /\ v = join (B ";") ns;
  f_low : mem X high = false -> mem X kws = false -> lacks sk w /\ lacks gk w;
  f_fields : mem X kws = false -> sym_field w d d' /\ grp_field w d d'
}.

Inductive all_facts : list Z -> word -> list entry -> definition -> definition -> Prop :=
| af_nil : forall d, all_facts [] [] [] d d
| af_cons : forall X r u w e es d d1 d2,
    facts X u (val e) d d1 -> In (yys e) states -> all_facts r w es d1 d2 -> all_facts (X :: r) (u ++ w) (e :: es) d d2.

(* productions without an action of their own whose symbols stay on their side *)
Definition transparent (n : Z) (A : Z) (r : list Z) : bool :=
  negb (mem n [15; 120; 121; 122; 123; 130; 148]) &&
  negb (mem (- A) [-12; -13; -52; -53; -55; -56]) &&
  forallb (fun X => negb (mem X kws)) r &&
  (mem (- A) high || forallb (fun X => negb (mem X high)) r).

Definition odd : list (Z * Z * list Z) :=
  [(15, 12, [-12; -13]); (16, 12, [-13]); (17, 13, [5]); (18, 13, [9]); (19, 13, [10]); (20, 13, [11]); (21, 13, [12]);
   (120, 51, [-52; -53; 16]); (121, 51, [-54; 6; 16]); (122, 51, [-54; 92; 16]); (123, 51, [-55; -56; 16]);
   (124, 52, [82]); (125, 52, [83]); (126, 52, [81]); (127, 52, [84]); (128, 52, [80]); (129, 52, [79]);
   (130, 53, [94; -12; 94]); (131, 53, [93]); (146, 55, [90]); (147, 56, [6]); (148, 56, [-56; 95; 6])].

Lemma prods_split : forallb (fun n =>
  match prod_of gram n with
  | Some (A, r) => transparent n A r || existsb (fun q => (n =? fst (fst q)) && (A =? snd (fst q)) && zleqb r (snd q)) odd
  | None => false
  end) (map Z.of_nat (seq 1 190)) = true.
Proof. vm_compute. reflexivity. Qed.

Lemma prod_cases : forall n A r, prod_of gram n = Some (A, r) -> transparent n A r = true \/ In (n, A, r) odd.
Proof.
  intros n A r H.
  assert (I : In n (map Z.of_nat (seq 1 190))).
  { unfold prod_of in H. destruct (n <=? 0) eqn:E; [discriminate|]. apply Z.leb_gt in E.
    assert (L : (Z.to_nat (n - 1) < length gram)%nat) by (apply nth_error_Some; congruence).
    change (length gram) with 190%nat in L. apply in_map_iff. exists (Z.to_nat n). split; [lia|]. apply in_seq. lia. }
  pose proof (proj1 (forallb_forall _ _) prods_split n I) as K. cbv beta in K. rewrite H in K.
  apply orb_prop in K. destruct K as [K|K]; [now left|right].
  apply existsb_exists in K. destruct K as (((n' & A') & r') & Q & K). cbn [fst snd] in K.
  apply andb_prop in K. destruct K as [K K3]. apply andb_prop in K. destruct K as [K1 K2].
  apply Z.eqb_eq in K1, K2. apply zleqb_eq in K3. now subst.
Qed.

Lemma heads_pos : forallb (fun p => 0 <? fst p) gram = true.
Proof. vm_compute. reflexivity. Qed.

Lemma states_small : forallb (fun s => negb (s =? 57413)) states = true.
Proof. vm_compute. reflexivity. Qed.

Lemma state_not_token : forall s, In s states -> (s =? 57413) = false.
Proof.
  intros s H. pose proof (proj1 (forallb_forall _ _) states_small s H) as K. cbv beta in K. now apply negb_true_iff.
Qed.

Lemma lacks_nil : forall k, lacks k [].
Proof. intros k. constructor. Qed.

Lemma all_low : forall r w es d d', all_facts r w es d d' ->
  forallb (fun X => negb (mem X kws)) r = true -> forallb (fun X => negb (mem X high)) r = true ->
  lacks sk w /\ lacks gk w /\ d' = d.
Proof.
  intros r w es d d' H. induction H as [d|X r u w e es d d1 d2 F _ _ IH]; intros K1 K2.
  - split; [apply lacks_nil|]. split; [apply lacks_nil|reflexivity].
  - cbn [forallb] in K1, K2. apply andb_prop in K1, K2. destruct K1 as [K1 K1'], K2 as [K2 K2'].
    apply negb_true_iff in K1, K2. destruct (f_low _ _ _ _ _ F K2 K1) as [L1 L2].
    destruct (IH K1' K2') as (M1 & M2 & ->). rewrite !lacks_app. rewrite (f_same _ _ _ _ _ F K2). tauto.
Qed.

Lemma all_frac : forall r w es d d', all_facts r w es d d' -> int_frac_digits d' = int_frac_digits d.
Proof.
  intros r w es d d' H. induction H as [d|X r u w e es d d1 d2 F _ _ IH]; [reflexivity|].
  rewrite IH. exact (f_frac _ _ _ _ _ F).
Qed.

Lemma all_fields : forall r w es d d', all_facts r w es d d' ->
  forallb (fun X => negb (mem X kws)) r = true -> sym_field w d d' /\ grp_field w d d'.
Proof.
  intros r w es d d' H. induction H as [d|X r u w e es d d1 d2 F _ _ IH]; intros K1.
  - split; (apply field_lacks; [apply lacks_nil|reflexivity]).
  - cbn [forallb] in K1. apply andb_prop in K1. destruct K1 as [K1 K1']. apply negb_true_iff in K1.
    destruct (f_fields _ _ _ _ _ F K1) as [S1 S2]. destruct (IH K1') as [T1 T2].
    split; eapply field_app; eauto.
Qed.

Lemma all_1 : forall X w es d d', all_facts [X] w es d d' -> exists e, es = [e] /\ facts X w (val e) d d'.
Proof.
  intros X w es d d' H. inversion H as [|X' r' u v e es' ? d1 ? F _ G]; subst. inversion G; subst.
  rewrite app_nil_r. now exists e.
Qed.

Lemma all_3 : forall X Y Z0 w es d d', all_facts [X; Y; Z0] w es d d' ->
  exists e1 e2 e3 u v x d1 d2, es = [e1; e2; e3] /\ w = u ++ v ++ x /\ In (yys e1) states /\
    facts X u (val e1) d d1 /\ facts Y v (val e2) d1 d2 /\ facts Z0 x (val e3) d2 d'.
Proof.
  intros X Y Z0 w es d d' H.
  inversion H as [|X1 r1 u w1 e1 es1 ? d1 ? F1 I1 G1]; subst.
  inversion G1 as [|X2 r2 v w2 e2 es2 ? d2 ? F2 _ G2]; subst.
  apply all_1 in G2. destruct G2 as (e3 & -> & F3).
  now exists e1, e2, e3, u, v, w2, d1, d2.
Qed.

Lemma all_2 : forall X Y w es d d', all_facts [X; Y] w es d d' ->
  exists e1 e2 u v d1, es = [e1; e2] /\ w = u ++ v /\ facts X u (val e1) d d1 /\ facts Y v (val e2) d1 d'.
Proof.
  intros X Y w es d d' H.
  inversion H as [|X1 r1 u w1 e1 es1 ? d1 ? F1 I1 G1]; subst.
  apply all_1 in G1. destruct G1 as (e2 & -> & F2).
  now exists e1, e2, u, w1, d1.
Qed.

Lemma lacks_forall : forall kw (P : Z -> Prop) w,
  Forall (fun p => P (fst p)) w -> (forall p, P (fst p) -> kw p = false) -> lacks kw w.
Proof. intros kw P w F N. eapply Forall_impl; [|exact F]. intros p. apply N. Qed.

Lemma sk_code : forall p, ~ In (fst p) str_codes -> sk p = false.
Proof.
  intros p H. unfold sk. destruct (mem (fst p) str_codes) eqn:E; [|reflexivity].
  apply mem_In in E. contradiction.
Qed.

Lemma gk_code : forall p, fst p <> 90 -> gk p = false.
Proof. intros p H. now apply Z.eqb_neq. Qed.

Lemma chars_lack : forall w, Forall (fun p => In (fst p) charcodes) w -> lacks sk w /\ lacks gk w.
Proof.
  intros w H. split.
  - eapply (lacks_forall sk (fun z => In z charcodes)); [exact H|]. intros p I. apply sk_code.
    unfold charcodes, str_codes in *. cbn [In] in *. lia.
  - eapply (lacks_forall gk (fun z => In z charcodes)); [exact H|]. intros p I. apply gk_code.
    unfold charcodes in *. cbn [In] in *. lia.
Qed.

Lemma group_lack : forall w, Forall (fun p : Z * bytes => fst p = 6 \/ fst p = 95) w -> lacks sk w /\ lacks gk w.
Proof.
  intros w H. split.
  - eapply (lacks_forall sk (fun z => z = 6 \/ z = 95)); [exact H|]. intros p I. apply sk_code.
    unfold str_codes in *. cbn [In] in *. lia.
  - eapply (lacks_forall gk (fun z => z = 6 \/ z = 95)); [exact H|]. intros p I. apply gk_code. lia.
Qed.

Lemma one_lack : forall (t : Z) (v : bytes), ~ In t str_codes -> t <> 90 -> lacks sk [(t, v)] /\ lacks gk [(t, v)].
Proof.
  intros t v H1 H2. split; (constructor; [|constructor]).
  - now apply sk_code.
  - now apply gk_code.
Qed.

(* facts of a non-terminal below the keywords that leaves the definition alone *)
Lemma low_facts : forall X w v d,
  mem X high = false -> mem X kws = false -> X < 0 -> lacks sk w -> lacks gk w ->
  (X = -12 \/ X = -13 -> v = texts w /\ w <> [] /\ Forall (fun p => In (fst p) charcodes) w) ->
  (X = -53 -> str_seg w v) ->
  (X = -56 -> exists ns, galt w ns /\ v = join (B ";") ns) ->
  facts X w v d d.
Proof.
  intros X w v d H1 H2 H3 L1 L2 C1 C2 C3.
  assert (N52 : X <> -52) by (intros ->; discriminate H2).
  assert (N55 : X <> -55) by (intros ->; discriminate H2).
  constructor; try reflexivity; try assumption; try contradiction; try (intros; lia).
  - intros _ _. now split.
  - intros _. split; apply field_lacks; auto.
Qed.

Lemma join_snoc : forall l x, l <> [] -> join (B ";") (l ++ [x]) = join (B ";") l ++ B ";" ++ x.
Proof.
  induction l as [|a l IH]; intros x H; [congruence|].
  destruct l as [|b l]; [reflexivity|].
  change ((a :: b :: l) ++ [x]) with (a :: (b :: l) ++ [x]).
  change (join (B ";") (a :: (b :: l) ++ [x])) with (a ++ B ";" ++ join (B ";") ((b :: l) ++ [x])).
  rewrite IH by discriminate.
  change (join (B ";") (a :: b :: l)) with (a ++ B ";" ++ join (B ";") (b :: l)).
  now rewrite <- !app_assoc.
Qed.

Lemma means_facts :
  (forall X w v d d', meansZ X w v d d' -> facts X w v d d') /\
  (forall r w es d d', meansZs r w es d d' -> all_facts r w es d d').
Proof.
  apply meansZ_both.
  - intros t v d H.
    constructor; try reflexivity; try (intros; lia).
    + intros E K. apply one_lack.
      * intros I. assert (I' : In t kws) by (unfold str_codes, kws in *; cbn [In] in *; tauto). apply mem_In in I'. congruence.
      * intros ->. discriminate K.
    + intros K. assert (L : lacks sk [(t, v)] /\ lacks gk [(t, v)]).
      { apply one_lack.
        * intros I. assert (I' : In t kws) by (unfold str_codes, kws in *; cbn [In] in *; tauto). apply mem_In in I'. congruence.
        * intros ->. discriminate K. }
      destruct L. split; now apply field_lacks.
  - intros n A r w es d d1 v0 v d2 P _ AF V0 AC.
    destruct (prod_cases _ _ _ P) as [T|O].
    + (* a transparent production *)
      unfold transparent in T. apply andb_prop in T. destruct T as [T T4]. apply andb_prop in T. destruct T as [T T3].
      apply andb_prop in T. destruct T as [T1 T2]. apply negb_true_iff in T1, T2.
      assert (EV : v = v0 /\ d2 = d1).
      { unfold mem in T1. cbn [existsb] in T1. unfold action in AC.
        destruct (n =? 15) eqn:E15; [discriminate|]. destruct (n =? 120) eqn:E120; [discriminate|].
        destruct (n =? 121) eqn:E121; [discriminate|]. destruct (n =? 122) eqn:E122; [discriminate|].
        destruct (n =? 123) eqn:E123; [discriminate|]. destruct (n =? 130) eqn:E130; [discriminate|].
        destruct (n =? 148) eqn:E148; [discriminate|]. now injection AC. }
      destruct EV as [-> ->]. clear AC.
      assert (RA : 0 < A).
      { unfold prod_of in P. destruct (n <=? 0); [discriminate|]. apply nth_error_In in P.
        pose proof (proj1 (forallb_forall _ _) heads_pos _ P) as Q. cbv beta in Q. cbn [fst] in Q. lia. }
      assert (NX : forall z, In z [-12; -13; -52; -53; -55; -56] -> - A <> z).
      { intros z I E. rewrite E in T2. apply mem_In in I. congruence. }
      destruct (all_fields _ _ _ _ _ AF T3) as [S1 S2].
      destruct (mem (- A) high) eqn:HH.
      * constructor; try congruence; try (intros; lia);
          try (intros E; exfalso; revert E; apply NX; cbn [In]; tauto).
        { exact (all_frac _ _ _ _ _ AF). }
        { intros [E|E]; exfalso; revert E; apply NX; cbn [In]; tauto. }
        { intros _. now split. }
      * cbn [orb] in T4. destruct (all_low _ _ _ _ _ AF T3 T4) as (L1 & L2 & ->).
        assert (KW : mem (- A) kws = false).
        { destruct (mem (- A) kws) eqn:E; [|reflexivity]. apply mem_In in E. unfold kws in E. cbn [In] in E.
          destruct E as [E|[E|[E|[E|[E|[E|[E|[E|[E|[]]]]]]]]]]; try lia; exfalso; symmetry in E; revert E; apply NX; cbn [In]; tauto. }
        apply low_facts; auto; try lia; try (intros E; exfalso; revert E; apply NX; cbn [In]; tauto).
        intros [E|E]; exfalso; revert E; apply NX; cbn [In]; tauto.
    + cbn [odd In] in O.
      assert (CH : forall c e u, In c charcodes -> facts c u (val e) d d1 -> v0 = val e -> Some (v0, d1) = Some (v, d2) ->
                facts (-13) u v d d2).
      { intros c e u I F1 -> AC'. injection AC' as <- <-. 
        assert (Hc : mem c high = false) by (unfold charcodes in I; cbn [In] in I; destruct I as [<-|[<-|[<-|[<-|[<-|[]]]]]]; reflexivity).
        assert (Pc : 0 < c) by (unfold charcodes in I; cbn [In] in I; lia).
        rewrite (f_same _ _ _ _ _ F1 Hc), (f_term _ _ _ _ _ F1 Pc).
        assert (C : Forall (fun p => In (fst p) charcodes) [(c, val e)]) by (constructor; [exact I|constructor]).
        destruct (chars_lack _ C).
        apply low_facts; try reflexivity; try lia; try assumption.
        intros _. split; [unfold texts; cbn [map snd concat]; now rewrite app_nil_r|]. split; [discriminate|exact C]. }
      assert (KS : forall c e u, In c str_codes -> facts c u (val e) d d1 -> v0 = val e -> Some (v0, d1) = Some (v, d2) ->
                facts (-52) u v d d2).
      { intros c e u I F1 -> AC'. injection AC' as <- <-. 
        assert (Hc : mem c high = false) by (unfold str_codes in I; cbn [In] in I; destruct I as [<-|[<-|[<-|[<-|[<-|[<-|[]]]]]]]; reflexivity).
        assert (Pc : 0 < c) by (unfold str_codes in I; cbn [In] in I; lia).
        rewrite (f_same _ _ _ _ _ F1 Hc), (f_term _ _ _ _ _ F1 Pc).
        constructor; try reflexivity; try (intros; discriminate); try (intros; lia).
        intros _. now exists c. }
      repeat (destruct O as [O|O]; [injection O; intros <- <- <-|]); [..|contradiction].
      * (* char_list: char_list char_symbol *)
        apply all_2 in AF. destruct AF as (e1 & e2 & u & x & m1 & -> & -> & F1 & F2).
        injection AC as <- <-.
        rewrite (f_same _ _ _ _ _ F2 eq_refl), (f_same _ _ _ _ _ F1 eq_refl).
        destruct (f_chars _ _ _ _ _ F1 (or_introl eq_refl)) as (E1 & N1 & C1).
        destruct (f_chars _ _ _ _ _ F2 (or_intror eq_refl)) as (E2 & N2 & C2).
        assert (C : Forall (fun p => In (fst p) charcodes) (u ++ x)) by (apply Forall_app; now split).
        destruct (chars_lack _ C).
        apply low_facts; try reflexivity; try lia; try assumption.
        intros _. split; [rewrite E1, E2, texts_app; reflexivity|]. split; [|exact C].
        destruct u; [congruence|discriminate].
      * apply all_1 in AF. destruct AF as (e & -> & F1). injection AC as <- <-.
        rewrite (V0 _ _ eq_refl), (f_same _ _ _ _ _ F1 eq_refl).
        destruct (f_chars _ _ _ _ _ F1 (or_intror eq_refl)) as (E1 & N1 & C1).
        destruct (chars_lack _ C1).
        apply low_facts; try reflexivity; try lia; try assumption.
        intros _. now split.
      * apply all_1 in AF. destruct AF as (e & -> & F1). apply (CH 5 e w); [cbn; tauto|exact F1|exact (V0 _ _ eq_refl)|exact AC].
      * apply all_1 in AF. destruct AF as (e & -> & F1). apply (CH 9 e w); [cbn; tauto|exact F1|exact (V0 _ _ eq_refl)|exact AC].
      * apply all_1 in AF. destruct AF as (e & -> & F1). apply (CH 10 e w); [cbn; tauto|exact F1|exact (V0 _ _ eq_refl)|exact AC].
      * apply all_1 in AF. destruct AF as (e & -> & F1). apply (CH 11 e w); [cbn; tauto|exact F1|exact (V0 _ _ eq_refl)|exact AC].
      * apply all_1 in AF. destruct AF as (e & -> & F1). apply (CH 12 e w); [cbn; tauto|exact F1|exact (V0 _ _ eq_refl)|exact AC].
      * (* monetary_keyword: mon_keyword_string mon_string EOL *)
        apply all_3 in AF. destruct AF as (e1 & e2 & e3 & u & x & y & m1 & m2 & -> & -> & _ & F1 & F2 & F3).
        injection AC as <- <-.
        rewrite (f_same _ _ _ _ _ F3 eq_refl), (f_same _ _ _ _ _ F2 eq_refl), (f_same _ _ _ _ _ F1 eq_refl).
        destruct (f_kwstr _ _ _ _ _ F1 eq_refl) as (t & -> & It).
        destruct (f_low _ _ _ _ _ F2 eq_refl eq_refl) as [L1 L2].
        pose proof (f_str _ _ _ _ _ F2 eq_refl) as SS.
        rewrite (f_term _ _ _ _ _ F3 eq_refl).
        destruct (one_lack 16 (val e3)) as [L3 L4]; [cbn; lia|lia|].
        assert (LS : lacks sk (x ++ [(16, val e3)])) by (apply lacks_app; now split).
        assert (LG : lacks gk ([(t, val e1)] ++ x ++ [(16, val e3)])).
        { apply lacks_app. split; [|apply lacks_app; now split]. constructor; [|constructor].
          apply gk_code. cbn [fst]. unfold str_codes in It. cbn [In] in It. lia. }
        cbn [rev app nth]. unfold assignMonetaryString.
        constructor; try (intros; discriminate); try (intros; lia).
        { destruct (beqb (val e1) _); reflexivity. }
        intros _. split; [|apply field_lacks; [exact LG|destruct (beqb (val e1) _); reflexivity]].
        destruct (beqb (val e1) (B "int_curr_symbol")) eqn:BE.
        { apply field_one; [|exact LS|exact SS]. unfold sk. cbn [fst snd]. apply mem_In in It. now rewrite It. }
        { apply field_lacks; [|reflexivity]. constructor; [|exact LS]. unfold sk. cbn [fst snd]. rewrite BE. apply andb_false_r. }
      * (* mon_keyword_char NUMBER EOL *)
        apply all_3 in AF. destruct AF as (e1 & e2 & e3 & u & x & y & m1 & m2 & -> & -> & I1 & F1 & F2 & F3).
        cbn [action] in AC. change (action 121 (rev [e1; e2; e3]) v0 d1) with
          (option_map (pair v0) (assignMonetaryNumber d1 (yys e1) (val e2))) in AC.
        unfold assignMonetaryNumber in AC. destruct (atoi (val e2)); [|discriminate].
        rewrite (state_not_token _ I1) in AC. injection AC as <- <-.
        rewrite (f_same _ _ _ _ _ F3 eq_refl), (f_same _ _ _ _ _ F2 eq_refl), (f_same _ _ _ _ _ F1 eq_refl).
        destruct (f_low _ _ _ _ _ F1 eq_refl eq_refl) as [L1 L2].
        destruct (f_low _ _ _ _ _ F2 eq_refl eq_refl) as [L3 L4].
        destruct (f_low _ _ _ _ _ F3 eq_refl eq_refl) as [L5 L6].
        constructor; try (intros; discriminate); try (intros; lia); try reflexivity.
        intros _. split; (apply field_lacks; [|reflexivity]); (apply lacks_app; split; [assumption|]);
          apply lacks_app; now split.
      * apply all_3 in AF. destruct AF as (e1 & e2 & e3 & u & x & y & m1 & m2 & -> & -> & I1 & F1 & F2 & F3).
        change (action 122 (rev [e1; e2; e3]) v0 d1) with
          (option_map (pair v0) (assignMonetaryNumber d1 (yys e1) (B "-1"))) in AC.
        unfold assignMonetaryNumber in AC. destruct (atoi (B "-1")); [|discriminate].
        rewrite (state_not_token _ I1) in AC. injection AC as <- <-.
        rewrite (f_same _ _ _ _ _ F3 eq_refl), (f_same _ _ _ _ _ F2 eq_refl), (f_same _ _ _ _ _ F1 eq_refl).
        destruct (f_low _ _ _ _ _ F1 eq_refl eq_refl) as [L1 L2].
        destruct (f_low _ _ _ _ _ F2 eq_refl eq_refl) as [L3 L4].
        destruct (f_low _ _ _ _ _ F3 eq_refl eq_refl) as [L5 L6].
        constructor; try (intros; discriminate); try (intros; lia); try reflexivity.
        intros _. split; (apply field_lacks; [|reflexivity]); (apply lacks_app; split; [assumption|]);
          apply lacks_app; now split.
      * (* mon_keyword_grouping mon_group_list EOL *)
        apply all_3 in AF. destruct AF as (e1 & e2 & e3 & u & x & y & m1 & m2 & -> & -> & I1 & F1 & F2 & F3).
        change (action 123 (rev [e1; e2; e3]) v0 d1) with
          (option_map (pair v0) (assignMonetaryGrouping d1 (val e2))) in AC.
        unfold assignMonetaryGrouping in AC. destruct (atoi_all (split_on ";" (val e2))) as [g|] eqn:EG; [|discriminate].
        injection AC as <- <-.
        rewrite (f_same _ _ _ _ _ F3 eq_refl), (f_same _ _ _ _ _ F2 eq_refl), (f_same _ _ _ _ _ F1 eq_refl).
        destruct (f_grp _ _ _ _ _ F2 eq_refl) as (ns & C & E2).
        destruct (group_lack _ (proj1 (galt_codes _ _ C))) as [L1 L2].
        rewrite (f_kwgrp _ _ _ _ _ F1 eq_refl), (f_term _ _ _ _ _ F3 eq_refl).
        destruct (one_lack 16 (val e3)) as [L3 L4]; [cbn; lia|lia|].
        constructor; try (intros; discriminate); try (intros; lia); try reflexivity.
        intros _. split.
        { apply field_lacks; [|reflexivity]. apply lacks_app. split; [|apply lacks_app; now split].
          constructor; [|constructor]. reflexivity. }
        { cbn [app]. rewrite <- (app_nil_r (x ++ [(16, val e3)])). apply field_one; [reflexivity| |].
          - rewrite app_nil_r. apply lacks_app; now split.
          - exists (val e3), x, ns. rewrite <- E2. split; [reflexivity|]. split; [exact C|exact EG]. }
      * apply all_1 in AF. destruct AF as (e & -> & F1). apply (KS 82 e w); [cbn; tauto|exact F1|exact (V0 _ _ eq_refl)|exact AC].
      * apply all_1 in AF. destruct AF as (e & -> & F1). apply (KS 83 e w); [cbn; tauto|exact F1|exact (V0 _ _ eq_refl)|exact AC].
      * apply all_1 in AF. destruct AF as (e & -> & F1). apply (KS 81 e w); [cbn; tauto|exact F1|exact (V0 _ _ eq_refl)|exact AC].
      * apply all_1 in AF. destruct AF as (e & -> & F1). apply (KS 84 e w); [cbn; tauto|exact F1|exact (V0 _ _ eq_refl)|exact AC].
      * apply all_1 in AF. destruct AF as (e & -> & F1). apply (KS 80 e w); [cbn; tauto|exact F1|exact (V0 _ _ eq_refl)|exact AC].
      * apply all_1 in AF. destruct AF as (e & -> & F1). apply (KS 79 e w); [cbn; tauto|exact F1|exact (V0 _ _ eq_refl)|exact AC].
      * (* mon_string: " char_list " *)
        apply all_3 in AF. destruct AF as (e1 & e2 & e3 & u & x & y & m1 & m2 & -> & -> & I1 & F1 & F2 & F3).
        injection AC as <- <-. cbn [rev app nth].
        rewrite (f_same _ _ _ _ _ F3 eq_refl), (f_same _ _ _ _ _ F2 eq_refl), (f_same _ _ _ _ _ F1 eq_refl).
        destruct (f_chars _ _ _ _ _ F2 (or_introl eq_refl)) as (E1 & N1 & C1).
        destruct (chars_lack _ C1) as [L1 L2].
        rewrite (f_term _ _ _ _ _ F1 eq_refl), (f_term _ _ _ _ _ F3 eq_refl).
        destruct (one_lack 94 (val e1)) as [L3 L4]; [cbn; lia|lia|].
        destruct (one_lack 94 (val e3)) as [L5 L6]; [cbn; lia|lia|].
        apply low_facts; try reflexivity; try lia.
        { apply lacks_app. split; [assumption|]. apply lacks_app; now split. }
        { apply lacks_app. split; [assumption|]. apply lacks_app; now split. }
        intros _. left. exists (val e1), x, (val e3). now repeat split.
      * apply all_1 in AF. destruct AF as (e & -> & F1). injection AC as <- <-.
        rewrite (V0 _ _ eq_refl), (f_same _ _ _ _ _ F1 eq_refl), (f_term _ _ _ _ _ F1 eq_refl).
        destruct (one_lack 93 (val e)) as [L3 L4]; [cbn; lia|lia|].
        apply low_facts; try reflexivity; try lia; try assumption.
        intros _. right. reflexivity.
      * apply all_1 in AF. destruct AF as (e & -> & F1). injection AC as <- <-.
        rewrite (V0 _ _ eq_refl), (f_same _ _ _ _ _ F1 eq_refl), (f_term _ _ _ _ _ F1 eq_refl).
        constructor; try (intros; discriminate); try (intros; lia); try reflexivity.
      * apply all_1 in AF. destruct AF as (e & -> & F1). injection AC as <- <-.
        rewrite (V0 _ _ eq_refl), (f_same _ _ _ _ _ F1 eq_refl), (f_term _ _ _ _ _ F1 eq_refl).
        destruct (one_lack 6 (val e)) as [L3 L4]; [cbn; lia|lia|].
        apply low_facts; try reflexivity; try lia; try assumption.
        intros _. exists [val e]. split; [constructor|reflexivity].
      * apply all_3 in AF. destruct AF as (e1 & e2 & e3 & u & x & y & m1 & m2 & -> & -> & I1 & F1 & F2 & F3).
        injection AC as <- <-. cbn [rev app nth].
        rewrite (f_same _ _ _ _ _ F3 eq_refl), (f_same _ _ _ _ _ F2 eq_refl), (f_same _ _ _ _ _ F1 eq_refl).
        destruct (f_grp _ _ _ _ _ F1 eq_refl) as (ns & C & E2).
        rewrite (f_term _ _ _ _ _ F2 eq_refl), (f_term _ _ _ _ _ F3 eq_refl).
        assert (CC : galt (u ++ [(95, val e2)] ++ [(6, val e3)]) (ns ++ [val e3])) by (now constructor).
        destruct (group_lack _ (proj1 (galt_codes _ _ CC))) as [L1 L2].
        apply low_facts; try reflexivity; try lia; try assumption.
        intros _. exists (ns ++ [val e3]). split; [exact CC|].
        rewrite join_snoc by (exact (proj2 (galt_codes _ _ C))). now rewrite E2.
  - intros d. constructor.
  - intros X r u w e es d d1 d2 _ F I _ AF. econstructor; eauto.
Qed.

Theorem parse_values : forall w v d d', meansZ (-1) w v d d' ->
  int_frac_digits d' = int_frac_digits d /\ sym_field w d d' /\ grp_field w d d'.
Proof.
  intros w v d d' H. pose proof (proj1 means_facts _ _ _ _ _ H) as F.
  destruct (f_fields _ _ _ _ _ F eq_refl) as [F1 F2]. split; [exact (f_frac _ _ _ _ _ F)|now split].
Qed.
