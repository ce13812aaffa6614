(* Completeness of the generated parser: it accepts every sentence of the grammar. *)
From Verif Require Import GoBase GoFacts LocGramSpec LocYaccModel LocYaccCert LocYaccProofs LocYaccGram LocYaccSound.
Local Open Scope Z_scope.

(* ---- the unambiguous grammar ---- *)

Inductive der' : Z -> list (Z * bytes) -> Prop :=
| d_term : forall t v, 4 <= t <= 98 -> der' t [(t, v)]
| d_prod : forall A r n w, In (A, r, n) prods' -> ders' r w -> der' A w
with ders' : list Z -> list (Z * bytes) -> Prop :=
| ds_nil : ders' [] []
| ds_cons : forall X r u w, der' X u -> ders' r w -> ders' (X :: r) (u ++ w).

Scheme der_mut := Induction for der' Sort Prop
  with ders_mut := Induction for ders' Sort Prop.
Combined Scheme der_both from der_mut, ders_mut.

Definition nt_info (X : Z) : option (Z * bool * list Z) :=
  option_map snd (find (fun p => fst p =? X) nts').
Definition first_of (X : Z) : list Z :=
  if X <? 0 then match nt_info X with Some (_, _, f) => f | None => [] end else [X].
Definition nullable (X : Z) : bool :=
  (X <? 0) && match nt_info X with Some (_, b, _) => b | None => false end.
Fixpoint firstseq (r la : list Z) : list Z :=
  match r with
  | [] => la
  | X :: r' => if nullable X then first_of X ++ firstseq r' la else first_of X
  end.
Definition subset (l l' : list Z) : bool := forallb (fun x => mem x l') l.
Definition look_set (l : nat) : list Z := nth l la_tab [].
Definition items (s : Z) : list (nat * nat * nat) := nth (Z.to_nat s) items_tab [].
Definition has_item (s : Z) (i d : nat) (L : list Z) : bool :=
  mem s states &&
  existsb (fun it => Nat.eqb (fst (fst it)) i && Nat.eqb (snd (fst it)) d && subset L (look_set (snd it))) (items s).

(* the state entered over a symbol *)
Definition over (s X : Z) : option Z :=
  if X <? 0 then match nt_info X with Some (a, _, _) => goto_ s a | None => None end
  else match act_of s X with AShift g => Some g | _ => None end.

Definition of_lhs (X : Z) : list nat :=
  filter (fun j => match nth_error prods' j with Some (A, _, _) => A =? X | None => false end) (seq 0 (length prods')).

Definition check_item (s : Z) (it : nat * nat * nat) : bool :=
  match it with
  | (i, d, l) =>
      match nth_error prods' i with
      | None => false
      | Some (A, r, n) =>
          match nth_error r d with
          | None =>
              Nat.eqb d (length r) &&
              forallb (fun t => match act_of s t with AReduce m => m =? n | _ => false end) (look_set l)
          | Some X =>
              match over s X with
              | None => false
              | Some g =>
                  has_item g i (S d) (look_set l) &&
                  forallb (fun j => has_item s j 0 (firstseq (skipn (S d) r) (look_set l))) (of_lhs X)
              end
          end
      end
  end.

Definition check_prod (p : Z * list Z * Z) : bool :=
  match p with
  | (A, r, n) =>
      match nt_info A, at_ yyR1 n, at_ yyR2 n with
      | Some (a, nul, f), Some a', Some k =>
          (A <? 0) && (a =? a') && (k =? Z.of_nat (length r)) &&
          subset (firstseq r []) f && implb (forallb nullable r) nul
      | _, _, _ => false
      end
  end.

Lemma items_valid : forallb (fun s => forallb (check_item s) (items s)) states = true.
Proof. vm_compute. reflexivity. Qed.

Lemma prods_valid : forallb check_prod prods' = true.
Proof. vm_compute. reflexivity. Qed.

Lemma start_items : forallb (fun j => has_item 0 j 0 [1]) (of_lhs (-1)) = true.
Proof. vm_compute. reflexivity. Qed.

(* ---- first sets ---- *)

Definition hd1 (p : list (Z * bytes)) : Z := match p with x :: _ => fst x | [] => 1 end.

Lemma subset_incl : forall l l', subset l l' = true -> incl l l'.
Proof.
  intros l l' H x Hx. unfold subset in H. rewrite forallb_forall in H. now apply mem_In, H.
Qed.

Lemma firstseq_nil_incl : forall r la, incl (firstseq r []) (firstseq r la).
Proof.
  induction r as [|X r IH]; intros la x Hx; cbn [firstseq] in *; [contradiction|].
  destruct (nullable X); [|exact Hx]. apply in_app_or in Hx. apply in_or_app.
  destruct Hx as [Hx|Hx]; [now left|right; now apply IH].
Qed.

Lemma first_ok :
  (forall X w, der' X w -> (w = [] -> nullable X = true) /\ (w <> [] -> In (hd1 w) (first_of X))) /\
  (forall r w, ders' r w -> (w = [] -> forallb nullable r = true) /\ (w <> [] -> In (hd1 w) (firstseq r []))).
Proof.
  apply der_both.
  - intros t v H. split; [discriminate|]. intros _. unfold first_of.
    destruct (t <? 0) eqn:E; [apply Z.ltb_lt in E; lia|now left].
  - intros A r n w I _ [H1 H2].
    pose proof (proj1 (forallb_forall _ _) prods_valid _ I) as K. unfold check_prod in K.
    destruct (nt_info A) as [[[a nul] f]|] eqn:NI; [|discriminate].
    destruct (at_ yyR1 n) as [a'|]; [|discriminate]. destruct (at_ yyR2 n) as [k|]; [|discriminate].
    apply andb_prop in K. destruct K as [K K5]. apply andb_prop in K. destruct K as [K K4].
    apply andb_prop in K. destruct K as [K K3]. apply andb_prop in K. destruct K as [K1 K2].
    unfold nullable, first_of. rewrite K1, NI. cbn [andb]. split.
    + intros E. rewrite (H1 E) in K5. exact K5.
    + intros E. apply (subset_incl _ _ K4), H2, E.
  - split; [reflexivity|congruence].
  - intros X r u w _ [H1 H2] _ [H3 H4]. split.
    + intros E. apply app_eq_nil in E. destruct E as [E1 E2]. cbn [forallb]. now rewrite H1, H3.
    + intros E. cbn [firstseq]. destruct u as [|x u].
      * rewrite (H1 eq_refl). cbn [app] in *. apply in_or_app. right. now apply H4.
      * assert (F : In (hd1 ((x :: u) ++ w)) (first_of X)) by (cbn [app hd1]; apply H2; discriminate).
        destruct (nullable X); [apply in_or_app; now left|exact F].
Qed.

Lemma firstseq_ok : forall r w, ders' r w -> forall p la, In (hd1 p) la -> In (hd1 (w ++ p)) (firstseq r la).
Proof.
  induction r as [|X r IH]; intros w D p la H; inversion D; subst; [exact H|].
  cbn [firstseq]. destruct (proj1 first_ok _ _ H2) as [F1 F2].
  destruct u as [|x u].
  - rewrite (F1 eq_refl). cbn [app]. apply in_or_app. right. now apply IH.
  - assert (F : In (hd1 (((x :: u) ++ w0) ++ p)) (first_of X)) by (cbn [app hd1]; apply F2; discriminate).
    destruct (nullable X); [apply in_or_app; now left|exact F].
Qed.

(* ---- values: enough to know that no assignment panics ---- *)

Definition grp (v : bytes) : Prop := atoi_all (split_on ";" v) <> None.
Definition vok (X : Z) (v : bytes) : Prop :=
  (X = 6 -> atoi v <> None) /\ (X = -56 -> grp v).

Lemma dec_val_digits : forall b acc n, dec_val acc b = Some n -> ~ In ";"%char b.
Proof.
  induction b as [|c b IH]; intros acc n H; [auto|].
  cbn [dec_val] in H. destruct (digit_of c) as [x|] eqn:E; [|discriminate].
  intros [->|I]; [discriminate E|]. exact (IH _ _ H I).
Qed.

Lemma atoi_no_semi : forall v z, atoi v = Some z -> ~ In ";"%char v.
Proof.
  intros v z H. unfold atoi in H. destruct (parse_dec v) as [y|] eqn:P; [|discriminate]. clear H.
  unfold parse_dec in P. destruct v as [|c r]; [discriminate|].
  destruct (Ascii.eqb c "-") eqn:E1.
  { apply Ascii.eqb_eq in E1. subst c. destruct r as [|c' r']; [discriminate|].
    destruct (dec_val 0 (c' :: r')) eqn:D; [|discriminate].
    intros [E|I]; [discriminate|]. exact (dec_val_digits _ _ _ D I). }
  destruct (Ascii.eqb c "+") eqn:E2.
  { apply Ascii.eqb_eq in E2. subst c. destruct r as [|c' r']; [discriminate|].
    destruct (dec_val 0 (c' :: r')) eqn:D; [|discriminate].
    intros [E|I]; [discriminate|]. exact (dec_val_digits _ _ _ D I). }
  destruct (dec_val 0 (c :: r)) eqn:D; [|discriminate]. exact (dec_val_digits _ _ _ D).
Qed.

Lemma grp_one : forall v, atoi v <> None -> grp v.
Proof.
  intros v H. unfold grp. destruct (atoi v) as [z|] eqn:E; [|congruence].
  rewrite (split_on_no_sep _ _ (atoi_no_semi _ _ E)). cbn [atoi_all]. rewrite E. discriminate.
Qed.

Lemma split_on_sep : forall c a b, split_on c (a ++ c :: b) = split_on c a ++ split_on c b.
Proof.
  intros c a b. induction a as [|x a IH].
  - cbn [app split_on]. now rewrite Ascii.eqb_refl.
  - cbn [app split_on]. destruct (Ascii.eqb x c); [now rewrite IH|].
    rewrite IH. pose proof (split_on_nonempty c a). destruct (split_on c a) as [|h t]; [congruence|reflexivity].
Qed.

Lemma atoi_all_app : forall l l', atoi_all l <> None -> atoi_all l' <> None -> atoi_all (l ++ l') <> None.
Proof.
  induction l as [|v l IH]; intros l' H H'; [exact H'|].
  cbn [app atoi_all] in *. destruct (atoi v); [|congruence].
  destruct (atoi_all l); [|congruence].
  specialize (IH l' ltac:(discriminate) H'). destruct (atoi_all (l ++ l')); congruence.
Qed.

Lemma grp_app : forall v v', grp v -> atoi v' <> None -> grp (v ++ B ";" ++ v').
Proof.
  intros v v' H H'. unfold grp. change (B ";" ++ v') with (";"%char :: v').
  rewrite split_on_sep. apply atoi_all_app; [exact H|exact (grp_one v' H')].
Qed.

Definition zleqb : list Z -> list Z -> bool :=
  fix f l l' := match l, l' with
  | [], [] => true
  | x :: r, y :: r' => (x =? y) && f r r'
  | _, _ => false
  end.

Lemma zleqb_eq : forall l l', zleqb l l' = true -> l = l'.
Proof.
  induction l as [|x l IH]; intros [|y l'] H; try discriminate; [reflexivity|].
  cbn [zleqb] in H. apply andb_prop in H. destruct H as [H1 H2]. apply Z.eqb_eq in H1. subst; f_equal; now apply IH.
Qed.

Definition check_action (p : Z * list Z * Z) : bool :=
  match p with
  | (A, r, n) =>
      implb (n =? 121) (zleqb r [-54; 6; 16]) &&
      implb (n =? 123) (zleqb r [-55; -56; 16]) &&
      implb (n =? 148) (zleqb r [-56; 95; 6]) &&
      implb (A =? -56) ((n =? 148) || ((n =? 147) && zleqb r [6])) &&
      (A <? 0)
  end.

Lemma actions_valid : forallb check_action prods' = true.
Proof. vm_compute. reflexivity. Qed.

Lemma f2_3 : forall (P : Z -> bytes -> Prop) a b c (es : list entry), Forall2 P [a; b; c] (map val es) ->
  exists e1 e2 e3, es = [e1; e2; e3] /\ P a (val e1) /\ P b (val e2) /\ P c (val e3).
Proof.
  intros P a b c [|e1 [|e2 [|e3 [|e4 es]]]] F; cbn [map] in F; inversion F as [|? ? ? ? P1 F1]; subst;
    inversion F1 as [|? ? ? ? P2 F2]; subst; inversion F2 as [|? ? ? ? P3 F3]; subst; inversion F3; subst.
  now exists e1, e2, e3.
Qed.

Lemma action_checked : forall A r n es v0 d,
  check_action (A, r, n) = true -> Forall2 vok r (map val es) -> (forall e es', es = e :: es' -> v0 = val e) ->
  exists v d', action n (rev es) v0 d = Some (v, d') /\ vok A v.
Proof.
  intros A r n es v0 d K F V. unfold check_action in K.
  apply andb_prop in K. destruct K as [K K5]. apply andb_prop in K. destruct K as [K K4].
  apply andb_prop in K. destruct K as [K K3]. apply andb_prop in K. destruct K as [K1 K2].
  apply Z.ltb_lt in K5.
  assert (T : A <> -56 -> forall v, vok A v) by (intros NA v; split; intros E; [lia|congruence]).
  unfold action. rewrite rev_involutive.
  destruct (A =? -56) eqn:EA.
  - apply Z.eqb_eq in EA. subst A. cbn [implb] in K4.
    destruct (n =? 148) eqn:E148.
    + apply Z.eqb_eq in E148. subst n. cbn [implb] in K3. apply zleqb_eq in K3. subst r.
      apply f2_3 in F. destruct F as (e1 & e2 & e3 & -> & F1 & F2 & F3).
      eexists. exists d. split; [reflexivity|]. split; [lia|]. intros _.
      apply grp_app; [now apply F1|now apply F3].
    + cbn [orb] in K4. apply andb_prop in K4. destruct K4 as [E147 K4]. apply Z.eqb_eq in E147. subst n.
      apply zleqb_eq in K4. subst r. exists v0, d. split; [reflexivity|]. split; [lia|]. intros _.
      destruct es as [|e es]; [inversion F|]. rewrite (V _ _ eq_refl).
      cbn [map] in F. inversion F as [|x1 y1 l1 m1 F1 F1']; subst. apply grp_one. now apply F1.
  - apply Z.eqb_neq in EA. specialize (T EA).
    destruct (n =? 15); [eauto|]. destruct (n =? 120); [eauto|].
    destruct (n =? 121) eqn:E121.
    { cbn [implb] in K1. apply zleqb_eq in K1. subst r.
      apply f2_3 in F. destruct F as (e1 & e2 & e3 & -> & F1 & F2 & F3).
      cbn [nth]. unfold assignMonetaryNumber. destruct (atoi (val e2)) eqn:EN; [|exfalso; exact (proj1 F2 eq_refl EN)].
      cbn [option_map]. eauto. }
    destruct (n =? 122).
    { unfold assignMonetaryNumber. change (atoi (B "-1")) with (Some (-1)). cbn [option_map]. eauto. }
    destruct (n =? 123) eqn:E123.
    { cbn [implb] in K2. apply zleqb_eq in K2. subst r.
      apply f2_3 in F. destruct F as (e1 & e2 & e3 & -> & F1 & F2 & F3).
      cbn [nth]. unfold assignMonetaryGrouping.
      assert (GG : grp (val e2)) by now apply F2.
      unfold grp in GG. destruct (atoi_all (split_on ";" (val e2))); [|congruence].
      cbn [option_map]. eauto. }
    destruct (n =? 130); [eauto|]. destruct (n =? 148); eauto.
Qed.

Lemma action_ok : forall A r n es v0 d,
  In (A, r, n) prods' -> Forall2 vok r (map val es) -> (forall e es', es = e :: es' -> v0 = val e) ->
  exists v d', action n (rev es) v0 d = Some (v, d') /\ vok A v.
Proof.
  intros A r n es v0 d I. exact (action_checked A r n es v0 d (proj1 (forallb_forall _ _) actions_valid _ I)).
Qed.

(* ---- the main induction ---- *)

Inductive steps : config -> config -> Prop :=
| st_refl : forall c, steps c c
| st_step : forall c c1 c2, step true c = Continue c1 -> steps c1 c2 -> steps c c2.

Lemma steps_trans : forall a b c, steps a b -> steps b c -> steps a c.
Proof. intros a b c H1. induction H1; [auto|]. intros H2. econstructor; eauto. Qed.

Definition num_ok (w : list (Z * bytes)) : Prop := forall v, In (6, v) w -> atoi v <> None.

Lemma num_ok_app : forall u w, num_ok (u ++ w) -> num_ok u /\ num_ok w.
Proof. intros u w H. split; intros v I; apply H, in_or_app; auto. Qed.

Lemma has_item_spec : forall s i d L, has_item s i d L = true ->
  In s states /\ exists l, In (i, d, l) (items s) /\ incl L (look_set l).
Proof.
  intros s i d L H. unfold has_item in H. apply andb_prop in H. destruct H as [H1 H2].
  split; [now apply mem_In|]. apply existsb_exists in H2. destruct H2 as ([[i' d'] l] & I & K). cbn [fst snd] in K.
  apply andb_prop in K. destruct K as [K K3]. apply andb_prop in K. destruct K as [K1 K2].
  apply Nat.eqb_eq in K1, K2. subst. exists l. split; [exact I|now apply subset_incl].
Qed.

Lemma item_check : forall s it, In s states -> In it (items s) -> check_item s it = true.
Proof.
  intros s it Hs Hi. pose proof (proj1 (forallb_forall _ _) items_valid s Hs) as H. cbv beta in H.
  exact (proj1 (forallb_forall _ _) H it Hi).
Qed.

Lemma of_lhs_spec : forall X j r n, nth_error prods' j = Some (X, r, n) -> In j (of_lhs X).
Proof.
  intros X j r n H. unfold of_lhs. apply filter_In. split.
  - apply in_seq. assert (j < length prods')%nat by (apply nth_error_Some; congruence). lia.
  - rewrite H. apply Z.eqb_refl.
Qed.

Lemma good_peek : forall c w p, pend c = w ++ p -> peek c = hd1 (w ++ p).
Proof. intros c w p H. unfold peek, hd1. now rewrite H. Qed.

Definition consumes (X : Z) (w : list (Z * bytes)) : Prop :=
  forall c p i d l A r n,
    good c -> In (state c) states -> In (i, d, l) (items (state c)) ->
    nth_error prods' i = Some (A, r, n) -> nth_error r d = Some X ->
    num_ok w -> pend c = w ++ p -> In (hd1 p) (firstseq (skipn (S d) r) (look_set l)) ->
    exists g v c', over (state c) X = Some g /\ steps c c' /\ full c' = {| yys := g; val := v |} :: full c /\
      vok X v /\ pend c' = p /\ good c'.

Definition consumes_all (r' : list Z) (w : list (Z * bytes)) : Prop :=
  forall c p i d l A r n,
    good c -> In (state c) states -> In (i, d, l) (items (state c)) ->
    nth_error prods' i = Some (A, r, n) -> (d <= length r)%nat -> skipn d r = r' ->
    num_ok w -> pend c = w ++ p -> In (hd1 p) (look_set l) ->
    exists ents c' l', steps c c' /\ full c' = ents ++ full c /\ length ents = length r' /\
      Forall2 vok r' (map val (rev ents)) /\ In (state c') states /\
      In (i, length r, l') (items (state c')) /\ incl (look_set l) (look_set l') /\ pend c' = p /\ good c'.

Lemma skipn_nth : forall (A : Type) (l : list A) d x t, skipn d l = x :: t ->
  nth_error l d = Some x /\ skipn (S d) l = t /\ (d < length l)%nat.
Proof.
  intros A. induction l as [|y l IH]; intros d x t H.
  - rewrite skipn_nil in H. discriminate.
  - destruct d as [|d]; cbn [skipn] in H.
    + injection H as -> ->. repeat split. cbn [length]. lia.
    + destruct (IH d x t H) as (H1 & H2 & H3). repeat split; [exact H1| |cbn [length]; lia].
      cbn [skipn] in *. exact H2.
Qed.

Lemma complete_both : (forall X w, der' X w -> consumes X w) /\ (forall r w, ders' r w -> consumes_all r w).
Proof.
  apply der_both.
  - (* a terminal is shifted *)
    intros t v HT c p i d l A r n G HS HI HP HN NO PD _.
    pose proof (item_check _ _ HS HI) as K. unfold check_item in K. rewrite HP, HN in K.
    unfold over in *. assert (E : (t <? 0) = false) by (apply Z.ltb_ge; lia). rewrite E in *.
    destruct (act_of (state c) t) as [g| | | |] eqn:ACT; try discriminate.
    pose proof (step_spec c G) as SP. rewrite (good_peek _ _ _ PD) in SP. cbn [app hd1 fst] in SP.
    rewrite ACT in SP. destruct (SP t v p PD) as (c' & ST & F & P' & _ & G' & _).
    exists g, v, c'. split; [reflexivity|]. split; [econstructor; [exact ST|constructor]|].
    split; [exact F|]. split; [|now split].
    split; [|lia]. intros ->. apply NO. now left.
  - (* a production *)
    intros X r0 m w I D IH c p i d l A r n G HS HI HP HN NO PD HF.
    pose proof (item_check _ _ HS HI) as K. unfold check_item in K. rewrite HP, HN in K.
    destruct (over (state c) X) as [g|] eqn:OV; [|discriminate].
    apply andb_prop in K. destruct K as [_ K].
    destruct (In_nth_error _ _ I) as (j & HJ).
    pose proof (proj1 (forallb_forall _ _) K j (of_lhs_spec _ _ _ _ HJ)) as K2. cbv beta in K2.
    destruct (has_item_spec _ _ _ _ K2) as (_ & lj & IJ & INC).
    destruct (IH c p j 0%nat lj X r0 m G HS IJ HJ ltac:(lia) eq_refl NO PD (INC _ HF))
      as (ents & c' & l' & S1 & S2 & S3 & S4 & S5 & S6 & S7 & S8 & S9).
    pose proof (item_check _ _ S5 S6) as K3. unfold check_item in K3. rewrite HJ in K3.
    rewrite (proj2 (nth_error_None r0 (length r0)) (le_n _)) in K3.
    apply andb_prop in K3. destruct K3 as [_ K3].
    assert (PK : peek c' = hd1 p) by (rewrite (good_peek c' [] p S8); reflexivity).
    pose proof (proj1 (forallb_forall _ _) K3 (hd1 p) (S7 _ (INC _ HF))) as K4. cbv beta in K4.
    pose proof (step_spec c' S9) as SP. rewrite PK in SP.
    destruct (act_of (state c') (hd1 p)) as [|m'| | |] eqn:ACT; try discriminate.
    apply Z.eqb_eq in K4. subst m'.
    destruct SP as (c1 & ST & B1 & B2 & B3 & B4 & G1).
    pose proof (proj1 (forallb_forall _ _) prods_valid _ I) as V. unfold check_prod in V.
    destruct (nt_info X) as [[[a nul] f]|] eqn:NI; [|discriminate].
    destruct (at_ yyR1 m) as [a'|] eqn:R1; [|discriminate].
    destruct (at_ yyR2 m) as [k|] eqn:R2; [|discriminate].
    apply andb_prop in V. destruct V as [V V5]. apply andb_prop in V. destruct V as [V V4].
    apply andb_prop in V. destruct V as [V V3]. apply andb_prop in V. destruct V as [V1 V2].
    apply Z.eqb_eq in V2, V3. subst a' k.
    unfold over in OV. rewrite V1, NI in OV.
    set (v0 := match rev ents ++ above c1 with e :: _ => val e | [] => [] end).
    destruct (action_ok X r0 m (rev ents) v0 (defs c1) I) as (v & d' & AC & VO).
    { exact S4. }
    { intros e es' E. unfold v0. now rewrite E. }
    rewrite rev_involutive in AC.
    exists g, v.
    exists {| state := g; yyval := v; below := full c; above := rev ents ++ above c1;
              look := look c1; lval := lval c1; input := input c1; defs := d' |}.
    split; [reflexivity|].
    split.
    { eapply steps_trans; [exact S1|]. econstructor; [|constructor]. rewrite ST.
      unfold reduce. rewrite R1, R2.
      assert (KN : (Z.of_nat (length r0) <? 0) = false) by (apply Z.ltb_ge; lia).
      rewrite KN, Nat2Z.id, B1, S2, <- S3.
      rewrite firstn_app, Nat.sub_diag, firstn_all, skipn_app, Nat.sub_diag, skipn_all. cbn [firstn skipn app].
      rewrite app_nil_r. unfold full at 1. cbn [yys]. rewrite OV. fold v0. rewrite AC. reflexivity. }
    split; [reflexivity|]. split; [exact VO|].
    split.
    { unfold pend. cbn [look lval input]. unfold pend in B3 at 1. rewrite B3. exact S8. }
    destruct G1 as [G1 G2]. split; [exact G1|exact G2].
  - intros c p i d l A r n G HS HI HP HD HK NO PD HF.
    assert (E : d = length r).
    { pose proof (f_equal (@length Z) HK) as L. rewrite skipn_length in L. cbn [length] in L. lia. }
    subst d. exists [], c, l.
    split; [constructor|]. split; [reflexivity|]. split; [reflexivity|]. split; [constructor|].
    split; [exact HS|]. split; [exact HI|]. split; [apply incl_refl|]. split; [exact PD|exact G].
  - intros X r' u w _ IH1 D2 IH2 c p i d l A r n G HS HI HP HD HK NO PD HF.
    destruct (skipn_nth _ _ _ _ _ HK) as (N1 & N2 & N3).
    rewrite <- app_assoc in PD. apply num_ok_app in NO. destruct NO as [NO1 NO2].
    assert (HF' : In (hd1 (w ++ p)) (firstseq (skipn (S d) r) (look_set l))).
    { rewrite N2. now apply firstseq_ok. }
    destruct (IH1 c (w ++ p) i d l A r n G HS HI HP N1 NO1 PD HF') as (g & v & c1 & O & S1 & F1 & V1 & P1 & G1).
    pose proof (item_check _ _ HS HI) as K. unfold check_item in K. rewrite HP, N1, O in K.
    apply andb_prop in K. destruct K as [K _].
    destruct (has_item_spec _ _ _ _ K) as (HG & l1 & I1 & INC1).
    assert (SG : state c1 = g) by (unfold full in F1; now injection F1).
    rewrite <- SG in HG, I1.
    destruct (IH2 c1 p i (S d) l1 A r n G1 HG I1 HP N3 N2 NO2 P1 (INC1 _ HF))
      as (ents & c' & l' & S2 & F2 & L2 & V2 & H2 & I2 & INC2 & P2 & G2).
    exists (ents ++ [{| yys := g; val := v |}]), c', l'.
    split; [eapply steps_trans; eauto|].
    split; [rewrite F2, F1, <- app_assoc; reflexivity|].
    split; [rewrite app_length, L2; cbn [length]; lia|].
    split; [rewrite rev_app_distr; cbn [rev app map val]; now constructor|].
    split; [exact H2|]. split; [exact I2|]. split; [eapply incl_tran; eauto|]. now split.
Qed.

(* ---- the grammar of localedef.y derives nothing more than the unambiguous one ---- *)

Definition good' (X : Z) (w : list (Z * bytes)) : Prop :=
  if X =? -15 then der' (-14) w
  else if X =? -43 then w = [] \/ der' (-104) w
  else if X =? -42 then der' (-102) w /\ (w = [] \/ der' (-101) w)
  else der' X w.

Inductive goods' : list Z -> list (Z * bytes) -> Prop :=
| g_nil : goods' [] []
| g_cons : forall X r u w, good' X u -> goods' r w -> goods' (X :: r) (u ++ w).

Definition in_prods (A : Z) (r : list Z) (n : Z) : bool :=
  existsb (fun p => match p with (A', r', n') => (A =? A') && zleqb r r' && (n =? n') end) prods'.

Lemma in_prods_In : forall A r n, in_prods A r n = true -> In (A, r, n) prods'.
Proof.
  intros A r n H. apply existsb_exists in H. destruct H as (((A' & r') & n') & I & K).
  apply andb_prop in K. destruct K as [K K3]. apply andb_prop in K. destruct K as [K1 K2].
  apply Z.eqb_eq in K1, K3. apply zleqb_eq in K2. now subst.
Qed.

Lemma by_prod : forall A r n w, in_prods A r n = true -> ders' r w -> der' A w.
Proof. intros A r n w H D. exact (d_prod A r n w (in_prods_In _ _ _ H) D). Qed.

Definition plain (X : Z) : bool := negb (mem X [-15; -43; -42]).

Definition special : list (Z * list Z) :=
  [(15, [-15; 7]); (15, [7]); (40, [-41; -42; 16]); (42, [-42; 95; -43]); (42, [-42; 95]); (42, [-43]);
   (43, []); (43, [-13]); (43, [7]); (43, [94; -14; 94]); (43, [94; -15; 94]); (43, [14]); (43, [44])].

Definition regular (p : Z * list Z) : bool :=
  match p with
  | (A, r) => forallb plain ((- A) :: r) && existsb (fun q => match q with (A', r', _) => (- A =? A') && zleqb r r' end) prods'
  end.

Lemma gram_split : forallb (fun p => regular p || existsb (fun q => (fst p =? fst q) && zleqb (snd p) (snd q)) special) gram = true.
Proof. vm_compute. reflexivity. Qed.

Lemma plain_good : forall X w, plain X = true -> good' X w = der' X w.
Proof.
  intros X w H. unfold plain, mem in H. cbn [existsb] in H. unfold good'.
  destruct (X =? -15); [discriminate|]. destruct (X =? -43); [discriminate|]. destruct (X =? -42); [discriminate|reflexivity].
Qed.

Lemma goods_plain : forall r w, forallb plain r = true -> goods' r w -> ders' r w.
Proof.
  induction r as [|X r IH]; intros w H G; inversion G as [|X' r' u v G1 G2]; subst; [constructor|].
  cbn [forallb] in H. apply andb_prop in H. destruct H as [H1 H2].
  rewrite (plain_good _ _ H1) in G1. constructor; [exact G1|exact (IH _ H2 G2)].
Qed.

Lemma goods_1 : forall X w, goods' [X] w -> good' X w.
Proof. intros X w H. inversion H as [|X' r' u v G1 G2]; subst. inversion G2; subst. now rewrite app_nil_r. Qed.

Lemma goods_2 : forall X Y w, goods' [X; Y] w -> exists u v, w = u ++ v /\ good' X u /\ good' Y v.
Proof. intros X Y w H. inversion H as [|X' r' u v G1 G2]; subst. exists u, v. split; [reflexivity|]. split; [exact G1|now apply goods_1]. Qed.

Lemma goods_3 : forall X Y Z0 w, goods' [X; Y; Z0] w -> exists u v x, w = u ++ v ++ x /\ good' X u /\ good' Y v /\ good' Z0 x.
Proof.
  intros X Y Z0 w H. inversion H as [|X' r' u y G0 G']; subst. apply goods_2 in G'. destruct G' as (v & x & -> & G1 & G2).
  now exists u, v, x.
Qed.

Lemma ders_1 : forall X w, der' X w -> ders' [X] w.
Proof. intros X w H. rewrite <- (app_nil_r w). constructor; [exact H|constructor]. Qed.
Lemma ders_2 : forall X Y u v, der' X u -> der' Y v -> ders' [X; Y] (u ++ v).
Proof. intros X Y u v H1 H2. constructor; [exact H1|now apply ders_1]. Qed.
Lemma ders_3 : forall X Y Z0 u v x, der' X u -> der' Y v -> der' Z0 x -> ders' [X; Y; Z0] (u ++ v ++ x).
Proof. intros. constructor; [assumption|now apply ders_2]. Qed.

Ltac prod r n := apply (by_prod _ r n); [vm_compute; reflexivity|].

Lemma good_prod : forall A r w, In (A, r) gram -> goods' r w -> good' (- A) w.
Proof.
  intros A r w I G.
  pose proof (proj1 (forallb_forall _ _) gram_split _ I) as K. cbv beta in K. apply orb_prop in K.
  destruct K as [K|K].
  - unfold regular in K. apply andb_prop in K. destruct K as [K1 K2].
    cbn [forallb] in K1. apply andb_prop in K1. destruct K1 as [P1 P2].
    rewrite (plain_good _ _ P1). apply existsb_exists in K2. destruct K2 as (((A' & r') & n) & I2 & K).
    apply andb_prop in K. destruct K as [E1 E2]. apply Z.eqb_eq in E1. apply zleqb_eq in E2. rewrite E1. subst r'.
    econstructor; [exact I2|now apply goods_plain].
  - apply existsb_exists in K. destruct K as ((A' & r') & S1 & K). cbn [fst snd] in K.
    apply andb_prop in K. destruct K as [E1 E2]. apply Z.eqb_eq in E1. apply zleqb_eq in E2. subst A' r'. clear I.
    cbn [special In] in S1.
    repeat (destruct S1 as [S1|S1]; [injection S1 as <- <-|]); [..|contradiction].
    + (* symb_list: symb_list COLLSYMBOL *)
      apply goods_2 in G. destruct G as (u & v & -> & G1 & G2). change (der' (-14) (u ++ v)).
      prod [-14; 7] 23. now apply ders_2.
    + apply goods_1 in G. change (der' (-14) w). prod [7] 26. now apply ders_1.
    + (* collation_entry: collation_element weight_list EOL *)
      apply goods_3 in G. destruct G as (u & v & x & -> & G1 & (G2 & G3) & G4).
      change (der' (-40) (u ++ v ++ x)). destruct G3 as [-> |G3].
      * prod [-41; 16] 90. now apply ders_2.
      * prod [-41; -101; 16] 89. now apply ders_3.
    + (* weight_list: weight_list ; weight_symbol *)
      apply goods_3 in G. destruct G as (u & v & x & -> & (G1 & _) & G2 & G3).
      destruct G3 as [-> |G3].
      * rewrite app_nil_r. split; [prod [-102; 95] 96; now apply ders_2|right; prod [-102; 95] 96; now apply ders_2].
      * split; [prod [-102; 95; -104] 95; now apply ders_3|right; prod [-102; 95; -104] 95; now apply ders_3].
    + apply goods_2 in G. destruct G as (u & v & -> & (G1 & _) & G2).
      split; [prod [-102; 95] 96; now apply ders_2|right; prod [-102; 95] 96; now apply ders_2].
    + apply goods_1 in G. destruct G as [-> |G].
      * split; [|now left]. prod [-103] 97. apply ders_1. prod (@nil Z) 98. constructor.
      * split; [prod [-104] 97; now apply ders_1|right; prod [-104] 97; now apply ders_1].
    + inversion G. now left.
    + apply goods_1 in G. right. prod [-13] 99. now apply ders_1.
    + apply goods_1 in G. right. prod [7] 100. now apply ders_1.
    + apply goods_3 in G. destruct G as (u & v & x & -> & G1 & G2 & G3). right. prod [94; -14; 94] 101. now apply ders_3.
    + apply goods_3 in G. destruct G as (u & v & x & -> & G1 & G2 & G3). right. prod [94; -14; 94] 101. now apply ders_3.
    + apply goods_1 in G. right. prod [14] 103. now apply ders_1.
    + apply goods_1 in G. right. prod [44] 104. now apply ders_1.
Qed.

Scheme derives_mut := Induction for derives Sort Prop
  with derives_all_mut := Induction for derives_all Sort Prop.
Combined Scheme derives_both from derives_mut, derives_all_mut.

Lemma map_split : forall (A C D : Type) (f : A -> C) (g : D -> C) (l : list A) u v,
  map f l = map g (u ++ v) -> exists l1 l2, l = l1 ++ l2 /\ map f l1 = map g u /\ map f l2 = map g v.
Proof.
  intros A C D f g l u. revert l. induction u as [|x u IH]; intros l v H.
  - exists [], l. now repeat split.
  - destruct l as [|y l]; [discriminate|]. cbn [app map] in H. injection H as E H.
    destruct (IH _ _ H) as (l1 & l2 & -> & H1 & H2). exists (y :: l1), l2. cbn [app map]. now rewrite E, H1.
Qed.

Lemma derives_good :
  (forall X w, derives X w -> forall wz, map fst wz = map term_code w -> good' (sym_code X) wz) /\
  (forall r w, derives_all r w -> forall wz, map fst wz = map term_code w -> goods' (map sym_code r) wz).
Proof.
  apply derives_both.
  - intros t wz E. destruct wz as [|[c v] [|? ?]]; try discriminate. cbn [map fst] in E. injection E as ->.
    cbn [sym_code]. pose proof (term_code_range t) as R.
    rewrite plain_good; [now constructor|]. unfold plain, mem. cbn [existsb].
    rewrite !(proj2 (Z.eqb_neq _ _)) by lia. reflexivity.
  - intros A rhs w I _ IH wz E. cbn [sym_code]. apply (good_prod (nt_code A) (map sym_code rhs)); [|now apply IH].
    unfold gram. apply in_map_iff. exists (A, rhs). now split.
  - intros wz E. destruct wz; [constructor|discriminate].
  - intros X w r v _ IH1 _ IH2 wz E. destruct (map_split _ _ _ _ _ _ _ _ E) as (l1 & l2 & -> & E1 & E2).
    cbn [map]. constructor; [now apply IH1|now apply IH2].
Qed.

(* ---- acceptance ---- *)

Lemma steps_run : forall c c' o d, steps c c' -> step true c' = Stop o d -> exists fuel, run fuel true c = Some (o, d).
Proof.
  intros c c' o d H. induction H as [c|c c1 c2 E _ IH]; intros HS.
  - exists 1%nat. cbn [run]. now rewrite HS.
  - destruct (IH HS) as [f Hf]. exists (S f). cbn [run]. now rewrite E.
Qed.

Lemma parse_complete : forall d l w, well_typed l -> map t_type (visible l) = map token_number w ->
  locale_definition w -> num_ok (map coded (visible l)) ->
  exists fuel d', yyParse fuel true d l = Some (Returns 0, d').
Proof.
  intros d l w WT EW LD NO.
  pose proof (start_inv d l WT) as (G & _).
  assert (EC : map fst (map coded (visible l)) = map term_code w).
  { rewrite map_map. cbn [coded fst]. unfold term_code. rewrite <- map_map with (f := t_type) (g := translate).
    rewrite EW, map_map. reflexivity. }
  pose proof (proj1 derives_good _ _ LD _ EC) as D. cbn [sym_code] in D. change (nt_code N_locale_definition) with 1 in D.
  change (- (1)) with (-1) in D. rewrite plain_good in D by reflexivity.
  inversion D as [t v HT|A r n w' I DS]; subst; [lia|].
  destruct (In_nth_error _ _ I) as (j & HJ).
  pose proof (proj1 (forallb_forall _ _) start_items j (of_lhs_spec _ _ _ _ HJ)) as K. cbv beta in K.
  destruct (has_item_spec _ _ _ _ K) as (S0 & lj & IJ & INC).
  assert (H1 : In (hd1 []) (look_set lj)) by (apply INC; now left).
  assert (PD : pend (start d l) = map coded (visible l) ++ []) by (rewrite app_nil_r; reflexivity).
  destruct (proj2 complete_both _ _ DS (start d l) [] j 0%nat lj (-1) r n G S0 IJ HJ ltac:(lia) eq_refl NO PD H1)
    as (ents & c' & l' & S1 & S2 & S3 & S4 & S5 & S6 & S7 & S8 & S9).
  (* the last reduction *)
  pose proof (item_check _ _ S5 S6) as K3. unfold check_item in K3. rewrite HJ in K3.
  rewrite (proj2 (nth_error_None r (length r)) (le_n _)) in K3.
  apply andb_prop in K3. destruct K3 as [_ K3].
  pose proof (proj1 (forallb_forall _ _) K3 _ (S7 _ H1)) as K4. cbv beta in K4.
  pose proof (step_spec c' S9) as SP. rewrite (good_peek c' [] [] S8) in SP. cbn [app] in SP.
  destruct (act_of (state c') (hd1 [])) as [|m| | |] eqn:ACT; try discriminate.
  apply Z.eqb_eq in K4. subst m.
  destruct SP as (c1 & ST & B1 & B2 & B3 & B4 & G1).
  pose proof (proj1 (forallb_forall _ _) prods_valid _ I) as V. unfold check_prod in V.
  change (nt_info (-1)) with (Some (1, false, first_of (-1))) in V.
  destruct (at_ yyR1 n) as [a'|] eqn:R1; [|discriminate].
  destruct (at_ yyR2 n) as [k|] eqn:R2; [|discriminate].
  apply andb_prop in V. destruct V as [V _]. apply andb_prop in V. destruct V as [V _].
  apply andb_prop in V. destruct V as [V V3]. apply andb_prop in V. destruct V as [_ V2].
  apply Z.eqb_eq in V2, V3. subst a' k.
  set (v0 := match rev ents ++ above c1 with e :: _ => val e | [] => [] end).
  destruct (action_ok (-1) r n (rev ents) v0 (defs c1) I) as (v & d' & AC & _).
  { exact S4. }
  { intros e es' E. unfold v0. now rewrite E. }
  rewrite rev_involutive in AC.
  set (c2 := {| state := 1; yyval := v; below := full (start d l); above := rev ents ++ above c1;
                look := look c1; lval := lval c1; input := input c1; defs := d' |}).
  assert (ST2 : step true c' = Continue c2).
  { rewrite ST. unfold reduce. rewrite R1, R2.
    assert (KN : (Z.of_nat (length r) <? 0) = false) by (apply Z.ltb_ge; lia).
    rewrite KN, Nat2Z.id, B1, S2, <- S3.
    rewrite firstn_app, Nat.sub_diag, firstn_all, skipn_app, Nat.sub_diag, skipn_all. cbn [firstn skipn app].
    rewrite app_nil_r. unfold full at 1. cbn [yys]. change (state (start d l)) with 0.
    change (goto_ 0 1) with (Some 1). fold v0. rewrite AC. reflexivity. }
  assert (P2 : pend c2 = []).
  { unfold pend. cbn [c2 look lval input]. unfold pend in B3 at 1. rewrite B3. exact S8. }
  assert (G2 : good c2).
  { destruct G1 as [G1 _]. split; [exact G1|]. rewrite P2. constructor. }
  pose proof (step_spec c2 G2) as SP. rewrite (good_peek c2 [] [] P2) in SP. cbn [app] in SP.
  change (state c2) with 1 in SP. change (act_of 1 (hd1 [])) with AAccept in SP. cbv iota in SP.
  assert (SS : steps (start d l) c2) by (eapply steps_trans; [exact S1|econstructor; [exact ST2|constructor]]).
  destruct (steps_run _ _ _ _ SS SP) as [f Hf]. exists f, d'. exact Hf.
Qed.
