(* Facts about the parser of ed: the generated parser against the grammar it was generated from. *)
From Verif Require Import GoBase GoFacts NumFacts Utf8Facts RuneFacts EdModel EdPegModel EdPegSpec EdPegProofs EdPegProofs2 EdPegProofs3 EdPegProofs4 EdPegProofs5 EdPegProofs6.
Local Open Scope nat_scope.

Lemma sps_split : forall pos rest, exists bs rest', rest = bs ++ rest' /\ blanksN bs /\ ends_at blankN rest' /\
  pmatch (PStar r_sp) pos rest = POk (pos + List.length bs) rest' [].
Proof.
  intros pos rest. assert (H : exists bs rest', rest = bs ++ rest' /\ blanksN bs /\ ends_at blankN rest').
  { induction rest as [|c rest (bs&rest'&->&Hb&He)]; [exists [], []; repeat split; constructor|].
    destruct (blankN c) eqn:Bc.
    - exists (c :: bs), rest'. repeat split; auto. now constructor.
    - exists [], (c :: bs ++ rest'). repeat split; auto. constructor. }
  destruct H as (bs&rest'&->&Hb&He). exists bs, rest'. repeat split; auto. now apply sps_ok.
Qed.
(* what follows a match, without the blanks it begins with *)
Definition skipped (x : pres) : pres :=
  match x with POk p r t => match pmatch (PStar r_sp) p r with POk p' r' _ => POk p' r' t | y => y end | y => y end.
Definition clean (e : pexp) : Prop := forall pos rest p r t, pmatch e pos rest = POk p r t -> ends_at blankN r.
Lemma skipped_clean : forall x, (forall p r t, x = POk p r t -> ends_at blankN r) -> skipped x = x.
Proof. intros [p r t| |] H; auto. cbn [skipped]. now rewrite (sps_none p r (H _ _ _ eq_refl)). Qed.
Lemma clean_seq : forall a b, clean b -> clean (PSeq a b).
Proof.
  intros a b H pos rest p r t E. cbn [pmatch] in E. destruct (pmatch a pos rest) as [p1 r1 t1| |]; try discriminate.
  destruct (pmatch b p1 r1) as [p2 r2 t2| |] eqn:E2; try discriminate. injection E as <- <- <-. eauto.
Qed.
Lemma clean_sps : forall n, clean (PSeq (PStar r_sp) (PAct n)).
Proof.
  intros n pos rest p r t E. destruct (sps_split pos rest) as (bs&rest'&->&Hb&He&M). rewrite (seq_ok _ _ _ _ _ _ _ M) in E.
  cbn [pmatch] in E. now injection E as <- <- <-.
Qed.
Lemma clean_start : clean r_startAddr. Proof. apply clean_seq, clean_seq, clean_sps. Qed.
Lemma clean_end : clean r_endAddr. Proof. apply clean_seq, clean_seq, clean_sps. Qed.
Lemma clean_act : forall a n, clean a -> clean (PSeq a (PAct n)).
Proof.
  intros a n H pos rest p r t E. cbn [pmatch] in E. destruct (pmatch a pos rest) as [p1 r1 t1| |] eqn:E1; try discriminate.
  injection E as <- <- <-. eauto.
Qed.
Lemma skip_more : forall a n pos rest, pmatch (PSeq a (PSeq (PStar r_sp) (PAct n))) pos rest = skipped (pmatch (PSeq a (PAct n)) pos rest).
Proof.
  intros a n pos rest. cbn [pmatch]. change (fun (p : nat) (r : list N) => pmatch r_sp p r) with (pmatch r_sp).
  destruct (pmatch a pos rest) as [p r t| |]; auto. cbn [skipped].
  destruct (sps_split p r) as (bs&r'&->&Hb&He&M). cbn [pmatch] in M. cbn [pmatch]. rewrite M. reflexivity.
Qed.
Lemma seq_assoc : forall a b c pos rest, pmatch (PSeq a (PSeq b c)) pos rest = pmatch (PSeq (PSeq a b) c) pos rest.
Proof.
  intros a b c pos rest. cbn [pmatch]. destruct (pmatch a pos rest) as [p r t| |]; auto. destruct (pmatch b p r) as [p2 r2 t2| |]; auto.
  destruct (pmatch c p2 r2); auto. now rewrite app_assoc.
Qed.
Lemma sps_first : forall a pos rest, ends_at blankN rest -> pmatch (PSeq (PStar r_sp) a) pos rest = pmatch a pos rest.
Proof. intros a pos rest H. rewrite (seq_ok _ _ _ _ _ _ _ (sps_none pos rest H)). now destruct (pmatch a pos rest). Qed.
Definition src_range_alts : list pexp :=
  [PSeq r_startAddr (PSeq (chr ",") r_endAddr); PSeq r_startAddr (PSeq (chr ",") (PSeq (PStar r_sp) (PAct 9)));
   PSeq (chr ",") (PSeq r_endAddr (PSeq (PStar r_sp) (PAct 10)));
   PSeq r_startAddr (PSeq (chr ";") r_endAddr); PSeq r_startAddr (PSeq (chr ";") (PSeq (PStar r_sp) (PAct 11)));
   PSeq (chr ";") (PSeq r_endAddr (PSeq (PStar r_sp) (PAct 12)));
   PSeq r_startAddr (PSeq (PStar r_sp) (PAct 13)); PSeq (PStar r_sp) (PSeq (chr ",") (PSeq (PStar r_sp) (PAct 14)));
   PSeq (PStar r_sp) (PSeq (chr ";") (PSeq (PStar r_sp) (PAct 15)))].
Lemma src_range_alts_ok : forall pos rest, pmatch src_range pos rest = first_of src_range_alts pos rest.
Proof. intros. exact (spine_ok 8 src_range pos rest). Qed.
Lemma first_skipped : forall pos rest l l', Forall2 (fun a b => pmatch a pos rest = skipped (pmatch b pos rest)) l l' ->
  first_of l pos rest = skipped (first_of l' pos rest).
Proof.
  intros pos rest l l' H. induction H as [|a b l l' E H IH]; [reflexivity|]. cbn [first_of]. rewrite E.
  destruct (pmatch b pos rest) as [p r t| |]; auto. cbn [skipped]. destruct (sps_split p r) as (bs&r'&->&Hb&He&M). now rewrite M.
Qed.
(* the rule of the grammar is the generated one followed by blanks *)
Lemma src_range_is : forall pos rest, ends_at blankN rest -> pmatch src_range pos rest = skipped (pmatch r_range pos rest).
Proof.
  intros pos rest H. rewrite src_range_alts_ok, range_alts_ok. apply first_skipped. unfold src_range_alts, range_alts.
  assert (Cl : forall e, clean e -> pmatch e pos rest = skipped (pmatch e pos rest)) by (intros e C; symmetry; apply skipped_clean; eauto).
  repeat constructor.
  - apply Cl. apply clean_seq, clean_seq, clean_end.
  - rewrite seq_assoc, skip_more. now rewrite seq_assoc.
  - rewrite seq_assoc, skip_more. now rewrite seq_assoc.
  - apply Cl. apply clean_seq, clean_seq, clean_end.
  - rewrite seq_assoc, skip_more. now rewrite seq_assoc.
  - rewrite seq_assoc, skip_more. now rewrite seq_assoc.
  - apply skip_more.
  - now rewrite sps_first, skip_more.
  - now rewrite sps_first, skip_more.
Qed.
(* a range that leaves blanks unread ends in its separator *)
Definition ends_open (pos : nat) (rest r : list N) : Prop := exists s, separator s /\
  ((exists p1 t1, pmatch r_startAddr pos rest = POk p1 (byte_val s :: r) t1) \/ rest = byte_val s :: r).
Lemma first_in : forall l pos rest p r t, first_of l pos rest = POk p r t -> exists a, In a l /\ pmatch a pos rest = POk p r t.
Proof.
  induction l as [|a l IH]; intros pos rest p r t H; [discriminate|]. cbn [first_of] in H. destruct (pmatch a pos rest) as [p1 r1 t1| |] eqn:E; try discriminate.
  - exists a. split; [now left|]. congruence.
  - destruct (IH _ _ _ _ _ H) as (b&I&M). exists b. split; auto. now right.
Qed.
Lemma chr_inv : forall s pos rest p r t, pmatch (chr s) pos rest = POk p r t -> rest = byte_val s :: r /\ p = S pos /\ t = [].
Proof.
  intros s pos rest p r t H. cbn [pmatch chr] in H. destruct rest as [|c rest]; [discriminate|].
  destruct (N.eqb_spec c (byte_val s)) as [->|]; [|discriminate]. injection H as <- <- <-. auto.
Qed.
Lemma seq_inv : forall a b pos rest p r t, pmatch (PSeq a b) pos rest = POk p r t -> exists p1 r1 t1 t2,
  pmatch a pos rest = POk p1 r1 t1 /\ pmatch b p1 r1 = POk p r t2 /\ t = t1 ++ t2.
Proof.
  intros a b pos rest p r t H. cbn [pmatch] in H. destruct (pmatch a pos rest) as [p1 r1 t1| |]; try discriminate.
  destruct (pmatch b p1 r1) as [p2 r2 t2| |] eqn:E; try discriminate. injection H as <- <- <-. eauto 8.
Qed.
Lemma range_open : forall pos rest p r t, pmatch r_range pos rest = POk p r t -> ends_at blankN r \/ ends_open pos rest r.
Proof.
  intros pos rest p r t H. rewrite range_alts_ok in H. apply first_in in H as (a&I&M).
  assert (O : forall s n, separator s -> pmatch (PSeq r_startAddr (PSeq (chr s) (PAct n))) pos rest = POk p r t -> ends_open pos rest r).
  { intros s n Hs E. apply seq_inv in E as (p1&r1&t1&t2&E1&E2&_). apply seq_inv in E2 as (p3&r3&t3&t4&E3&E4&_).
    apply chr_inv in E3 as (->&_). cbn [pmatch] in E4. injection E4 as <- <- <-. exists s. split; auto. left. eauto. }
  assert (N : forall s n, separator s -> pmatch (PSeq (chr s) (PAct n)) pos rest = POk p r t -> ends_open pos rest r).
  { intros s n Hs E. apply seq_inv in E as (p1&r1&t1&t2&E1&E2&_). apply chr_inv in E1 as (->&_). cbn [pmatch] in E2.
    injection E2 as <- <- <-. exists s. auto. }
  pose proof comma_sep. pose proof semi_sep.
  unfold range_alts in I. repeat (destruct I as [<-|I]); eauto; try contradiction; left; revert M; apply (fun C => C pos rest p r t).
  - apply clean_seq, clean_seq, clean_end.
  - apply clean_seq, clean_act, clean_end.
  - apply clean_seq, clean_seq, clean_end.
  - apply clean_seq, clean_act, clean_end.
  - apply clean_act, clean_start.
Qed.
(* an open range followed by a blank and no range command cannot be accepted *)
Definition r_tail := PSeq (PStar r_sp) (PSeq r_newLine (PAct 1)).
Definition last_alts : list pexp :=
  [r_addrCmd; r_changeTextCmd_of r_range; r_addTextCmd; r_markCmd; r_destCmd_of r_range; r_readCmd; r_writeCmd_of r_range; r_shellCmd; r_nullCmd].
Lemma open_fails : forall pos rest p r t c r', ends_at blankN rest -> pmatch r_range pos rest = POk p r t -> r = c :: r' -> blankN c = true ->
  exists p' r'' t', first_of last_alts pos rest = POk p' r'' t' /\ pmatch r_tail p' r'' = PFail.
Proof.
  intros pos rest p r t c r' Hb Hr Er Bc.
  destruct (range_open _ _ _ _ _ Hr) as [E|(s&Hs&O)]; [subst r; cbn in E; congruence|].
  assert (Hd : exists x y, rest = x :: y /\ forall X, (forall z, starts X z = true -> In z [61; 33; 97; 105; 107; 114]%N) -> starts X x = false).
  { destruct O as [(p1&t1&E)| ->].
    - destruct rest as [|x y]; [rewrite cannot_start_nil in E by reflexivity; discriminate|]. exists x, y. split; auto.
      assert (St : starts r_startAddr x = true).
      { destruct (starts r_startAddr x) eqn:Q; auto. rewrite cannot_start in E by (auto; reflexivity). discriminate. }
      intros X HX. destruct (starts X x) eqn:Q; auto. exfalso. apply HX in Q. cbn [In] in Q.
      repeat (destruct Q as [<-|Q]; [discriminate St|]). destruct Q.
    - exists (byte_val s), r. split; auto. intros X HX. destruct (starts X (byte_val s)) eqn:Q; auto. exfalso. apply HX in Q. cbn [In] in Q.
      destruct Hs as [-> | ->]; repeat (destruct Q as [Q|Q]; [discriminate Q|]); destruct Q. }
  destruct Hd as (x&y&Ex&Hx).
  assert (Cc : c = 32%N \/ c = 9%N) by now apply blank_cases.
  assert (Rng : forall X, (starts X 32 || starts X 9)%bool = false -> sound X = true -> nullable X = false -> pmatch (PSeq (POpt r_range) X) pos rest = PFail).
  { intros X S1 S2 S3. apply orb_false_iff in S1 as [S0 S1]. rewrite (seq_ok _ _ _ _ _ _ _ (opt_ok _ _ _ _ _ _ Hr)). subst r.
    rewrite cannot_start; auto. destruct Cc as [-> | ->]; auto. }
  assert (Sep : forall X, (forall z, starts X z = true -> In z [61; 33; 97; 105; 107; 114]%N) -> starts X (byte_val s) = false).
  { intros X HX. destruct (starts X (byte_val s)) eqn:Q; auto. exfalso. apply HX in Q. cbn [In] in Q.
    destruct Hs as [-> | ->]; repeat (destruct Q as [Q|Q]; [discriminate Q|]); destruct Q. }
  assert (Sta : forall X, (forall z, starts X z = true -> In z [61; 33; 97; 105; 107; 114]%N) -> sound X = true -> nullable X = false ->
    pmatch (PSeq (POpt r_startAddr) X) pos rest = PFail /\ pmatch (PSeq (PText r_startAddr) X) pos rest = PFail).
  { intros X S1 S3 S4. destruct (pmatch r_startAddr pos rest) as [p1 r1 t1| |] eqn:E.
    - rewrite (seq_ok _ _ _ _ _ _ _ (opt_ok _ _ _ _ _ _ E)), (seq_ok _ _ _ _ _ _ _ (text_ok _ _ _ _ _ _ E)). destruct O as [(p2&t2&E2)|E2].
      + injection E2 as -> -> ->. rewrite cannot_start; auto.
      + subst rest. rewrite sep_start_fails in E by auto. discriminate.
    - rewrite (seq_ok _ _ _ _ _ _ _ (opt_fail _ _ _ E)). split; [rewrite Ex; now rewrite cannot_start by auto|].
      apply seq_fail. change (pmatch (PText r_startAddr) pos rest) with (match pmatch r_startAddr pos rest with POk p r t => POk p r (t ++ [TText pos p]) | x => x end).
      now rewrite E.
    - apply sound_no_hang in E; [destruct E|reflexivity]. }
  assert (K : forall l z, existsb (N.eqb z) l = true -> (forall u, In u l -> In u [61; 33; 97; 105; 107; 114]%N) -> In z [61; 33; 97; 105; 107; 114]%N).
  { intros l z Q HQ. apply HQ. apply existsb_exists in Q as (w&Iw&Q). apply N.eqb_eq in Q. now subst. }
  assert (Null : exists p', pmatch r_nullCmd pos rest = POk p' (byte_val s :: r) (match pmatch r_startAddr pos rest with POk _ _ t => t | _ => [] end)).
  { unfold r_nullCmd. destruct O as [(p1&t1&E)|E].
    - exists p1. rewrite (opt_ok _ _ _ _ _ _ E), E. reflexivity.
    - exists pos. rewrite E, (opt_fail _ _ _ (sep_start_fails s r pos Hs)), sep_start_fails by auto. reflexivity. }
  destruct Null as (p'&Null). eexists p', (byte_val s :: r), _. split.
  - unfold last_alts.
    assert (Eq : forall z, starts r_addrC z = true -> In z [61; 33; 97; 105; 107; 114]%N).
    { intros z Q. cbn in Q. rewrite ?orb_false_r in Q. apply N.eqb_eq in Q as ->. now left. }
    rewrite first_skip.
    2:{ unfold r_addrCmd. rewrite alt_fail; [rewrite Ex; apply cannot_start; auto|]. apply (Sta (PSeq r_addrC (PAct 16))); auto.
        intros z Q. apply Eq. cbn in *. now rewrite ?orb_false_r in *. }
    rewrite first_skip by (apply Rng; reflexivity).
    rewrite first_skip.
    2:{ apply Sta; try reflexivity. intros z Q. cbn in Q. rewrite ?orb_false_r in Q. apply orb_true_iff in Q as [Q|Q]; apply N.eqb_eq in Q as ->; cbn; tauto. }
    rewrite first_skip.
    2:{ apply Sta; try reflexivity. intros z Q. cbn in Q. rewrite ?orb_false_r in Q. apply N.eqb_eq in Q as ->; cbn; tauto. }
    rewrite first_skip by (apply Rng; reflexivity).
    rewrite first_skip.
    2:{ apply Sta; try reflexivity. intros z Q. cbn in Q. rewrite ?orb_false_r in Q. apply N.eqb_eq in Q as ->; cbn; tauto. }
    rewrite first_skip by (unfold r_writeCmd_of; rewrite alt_fail; apply Rng; reflexivity).
    rewrite first_skip.
    2:{ rewrite Ex. apply cannot_start; try reflexivity. apply Hx. intros z Q. cbn in Q. rewrite ?orb_false_r in Q. apply N.eqb_eq in Q as ->; cbn; tauto. }
    apply first_take. exact Null.
  - unfold r_tail. rewrite sps_first by (destruct Hs as [-> | ->]; reflexivity). apply seq_fail.
    destruct Hs as [-> | ->]; apply chr_other; discriminate.
Qed.

(* ---- what the generated parser accepts, the grammar accepts ---- *)
Definition src_cmd := r_cmd_of src_range.
Definition src_e := r_e_of src_range.
Definition last_alts_of (range : pexp) : list pexp :=
  [r_addrCmd; r_changeTextCmd_of range; r_addTextCmd; r_markCmd; r_destCmd_of range; r_readCmd; r_writeCmd_of range; r_shellCmd; r_nullCmd].
Definition cmd_alts_of (range : pexp) : list pexp := [r_bareCmd; r_paramCmd; r_rangeCmd_of range] ++ last_alts_of range.
Lemma cmd_alts_of_ok : forall range pos rest, pmatch (r_cmd_of range) pos rest = first_of (cmd_alts_of range) pos rest.
Proof. intros. exact (spine_ok 11 (r_cmd_of range) pos rest). Qed.
Lemma opt_cong : forall a a' X pos rest, pmatch a pos rest = pmatch a' pos rest -> pmatch (PSeq (POpt a) X) pos rest = pmatch (PSeq (POpt a') X) pos rest.
Proof. intros a a' X pos rest H. cbn [pmatch]. now rewrite H. Qed.
Lemma first_cong : forall pos rest l l', Forall2 (fun a b => pmatch a pos rest = pmatch b pos rest) l l' -> first_of l pos rest = first_of l' pos rest.
Proof. intros pos rest l l' H. induction H as [|a b l l' E H IH]; cbn [first_of]; auto. now rewrite E, IH. Qed.
Lemma alt_cong : forall a a' b b' pos rest, pmatch a pos rest = pmatch a' pos rest -> pmatch b pos rest = pmatch b' pos rest ->
  pmatch (PAlt a b) pos rest = pmatch (PAlt a' b') pos rest.
Proof. intros a a' b b' pos rest H1 H2. cbn [pmatch]. now rewrite H1, H2. Qed.
Lemma same_range : forall pos rest, pmatch src_range pos rest = pmatch r_range pos rest -> pmatch src_cmd pos rest = pmatch r_cmd pos rest.
Proof.
  intros pos rest H. unfold src_cmd, r_cmd. rewrite !cmd_alts_of_ok. apply first_cong. unfold cmd_alts_of, last_alts_of. cbn [app].
  repeat (apply Forall2_cons; [try reflexivity; try (apply opt_cong; exact H)|]); [|constructor].
  unfold r_writeCmd_of. apply alt_cong; now apply opt_cong.
Qed.
Lemma same_rangeCmd : forall pos rest, ends_at blankN rest -> pmatch (r_rangeCmd_of src_range) pos rest = pmatch (r_rangeCmd_of r_range) pos rest.
Proof.
  intros pos rest H. unfold r_rangeCmd_of. pose proof (src_range_is pos rest H) as E.
  destruct (pmatch r_range pos rest) as [p r t| |] eqn:M.
  - cbn [skipped] in E. destruct (sps_split p r) as (bs&r'&->&Hb&He&S1). rewrite S1 in E.
    rewrite (seq_ok _ _ _ _ _ _ _ (opt_ok _ _ _ _ _ _ E)), (seq_ok _ _ _ _ _ _ _ (opt_ok _ _ _ _ _ _ M)).
    rewrite (seq_ok _ _ _ _ _ _ _ S1), sps_first by auto. now destruct (pmatch r_rangeC _ r').
  - apply opt_cong. cbn [skipped] in E. congruence.
  - apply sound_no_hang in M; [destruct M|reflexivity].
Qed.
Lemma cmd_contained : forall pos rest p r t, ends_at blankN rest -> pmatch (PSeq r_cmd r_tail) pos rest = POk p r t ->
  pmatch (PSeq src_cmd r_tail) pos rest = POk p r t.
Proof.
  intros pos rest p r t H M. pose proof (src_range_is pos rest H) as E.
  assert (D : pmatch src_range pos rest = pmatch r_range pos rest \/
              exists p1 c r1 t1, pmatch r_range pos rest = POk p1 (c :: r1) t1 /\ blankN c = true).
  { destruct (pmatch r_range pos rest) as [p1 r1 t1| |] eqn:Q; auto. destruct r1 as [|c r1].
    - left. rewrite E. cbn [skipped]. now rewrite sps_none.
    - destruct (blankN c) eqn:Bc; [right; eauto 8|]. left. rewrite E. cbn [skipped]. now rewrite sps_none. }
  destruct D as [D|(p1&c&r1&t1&Q&Bc)].
  - apply same_range in D. cbn [pmatch] in *. now rewrite D.
  - apply seq_inv in M as (p2&r2&t2&t3&M1&M2&->). unfold r_cmd in M1. rewrite cmd_alts_of_ok in M1. unfold cmd_alts_of in M1. rewrite first_app in M1.
    assert (S1 : first_of [r_bareCmd; r_paramCmd; r_rangeCmd_of src_range] pos rest = first_of [r_bareCmd; r_paramCmd; r_rangeCmd_of r_range] pos rest).
    { apply first_cong. repeat (apply Forall2_cons; [try reflexivity|]); [|constructor]. now apply same_rangeCmd. }
    destruct (first_of [r_bareCmd; r_paramCmd; r_rangeCmd_of r_range] pos rest) as [p4 r4 t4| |] eqn:F; try discriminate.
    + injection M1 as -> -> ->. assert (S2 : pmatch src_cmd pos rest = POk p2 r2 t2).
      { unfold src_cmd. rewrite cmd_alts_of_ok. unfold cmd_alts_of. now rewrite first_app, S1. }
      rewrite (seq_ok _ _ _ _ _ _ _ S2). now rewrite M2.
    + exfalso. destruct (open_fails pos rest p1 (c :: r1) t1 c r1 H Q eq_refl Bc) as (p5&r5&t5&F5&T5).
      change last_alts with (last_alts_of r_range) in F5. rewrite M1 in F5. injection F5 as <- <- <-. congruence.
Qed.
Lemma e_contained : forall pos rest p r t, pmatch r_e pos rest = POk p r t -> pmatch src_e pos rest = POk p r t.
Proof.
  intros pos rest p r t M. unfold r_e, src_e, r_e_of in *. destruct (sps_split pos rest) as (bs&rest'&->&Hb&He&S1).
  rewrite (seq_ok _ _ _ _ _ _ _ S1) in M. rewrite (seq_ok _ _ _ _ _ _ _ S1). fold r_tail in M. fold r_tail. fold r_cmd in M. fold src_cmd.
  destruct (pmatch (PSeq r_cmd r_tail) (pos + List.length bs) rest') as [p1 r1 t1| |] eqn:Q; try discriminate M.
  rewrite (cmd_contained _ _ _ _ _ He Q). exact M.
Qed.
Lemma star_contained : forall k pos rest p t, star_loop (pmatch r_e) k pos rest = POk p [] t -> star_loop (pmatch src_e) k pos rest = POk p [] t.
Proof.
  induction k as [|k IH]; intros pos rest p t H; [discriminate|]. rewrite star_loop_S in *.
  destruct (pmatch r_e pos rest) as [p1 r1 t1| |] eqn:E; try discriminate.
  - rewrite (e_contained _ _ _ _ _ E). destruct (p1 =? pos); [discriminate|].
    destruct (star_loop (pmatch r_e) k p1 r1) as [p2 r2 t2| |] eqn:L; try discriminate. injection H as -> -> <-.
    now rewrite (IH _ _ _ _ L).
  - injection H as <- -> <-. assert (F : pmatch src_e pos [] = PFail) by (apply cannot_start_nil; reflexivity). now rewrite F.
Qed.
Theorem grammar_contains : forall buf toks, Parse buf = Val (Some toks) -> Parse_with src_first buf = Val (Some toks).
Proof.
  intros buf toks H. unfold Parse, Parse_with, r_first, src_first, r_first_of in *. fold r_e in H. fold src_e.
  destruct (pmatch (PSeq (PStar r_e) (PSeq (PNot PDot) (PAct 0))) 0 (runes_of buf)) as [p r t| |] eqn:E; try discriminate. injection H as ->.
  apply seq_inv in E as (p1&r1&t1&t2&E1&E2&->). assert (r1 = []) as -> by (destruct r1; [auto|discriminate]).
  assert (S1 : pmatch (PStar src_e) 0 (runes_of buf) = POk p1 [] t1) by (apply star_contained; exact E1).
  rewrite (seq_ok _ _ _ _ _ _ _ S1), E2. reflexivity.
Qed.

(* ---- blanks after a range that ends in its separator ---- *)
Lemma open_gap_rejected : forall lead r gap x rest, blanks lead -> wrange_ok r -> r <> NoAddress -> ~ closed r -> blanks gap -> gap <> [] ->
  ends_at loud [byte_val x] -> starts r_rangeC (byte_val x) = false -> (byte_val x < 128)%N ->
  rejected (lead ++ wrange_text r ++ gap ++ [x] ++ rest).
Proof.
  intros lead r gap x rest Hl Hr Ne Nc Hg Ng Lx Rx Ax. apply reject_one.
  { intros Q. apply app_eq_nil in Q as [_ Q]. apply app_eq_nil in Q as [_ Q]. apply app_eq_nil in Q as [_ Q]. discriminate. }
  set (T := runes_of rest). set (body := R (wrange_text r) ++ R gap ++ byte_val x :: T).
  assert (Hruns : runes_of (lead ++ wrange_text r ++ gap ++ [x] ++ rest) = R lead ++ body).
  { replace (lead ++ wrange_text r ++ gap ++ [x] ++ rest) with ((lead ++ wrange_text r ++ gap ++ [x]) ++ rest) by now rewrite <- !app_assoc.
    rewrite runes_R; [unfold body; now rewrite !R_app, <- !app_assoc|].
    repeat apply ascii_app; auto using ascii_blanks, ascii_wrange. apply ascii_B1; [auto|constructor]. }
  assert (Hb : ends_at blankN body) by (apply range_not_blank; auto; congruence).
  assert (El : ends_at loud (byte_val x :: T)) by exact Lx.
  rewrite Hruns. unfold r_e, r_e_of. rewrite (seq_ok _ _ _ _ _ _ _ (sps_ok 0 (R lead) body (blanks_N _ Hl) Hb)).
  set (p := 0 + List.length (R lead)).
  pose proof (range_ok r p (R gap) (byte_val x :: T) Hr Ne (blanks_N _ Hg) El) as Rg.
  assert (Cb : closedb r = false) by (destruct r; cbn in *; auto; try congruence; tauto). rewrite Cb in Rg.
  destruct gap as [|c gap]; [congruence|]. cbn [R map app] in Rg. change (map byte_val gap) with (R gap) in Rg.
  assert (Bc : blankN (byte_val c) = true) by (apply blanks_N in Hg; now inversion Hg).
  destruct (open_fails p body _ _ _ (byte_val c) (R gap ++ byte_val x :: T) Hb Rg eq_refl Bc) as (p'&r'&t'&F&Q).
  fold r_cmd. fold r_tail.
  assert (M : pmatch r_cmd p body = POk p' r' t').
  { unfold r_cmd. rewrite cmd_alts_of_ok. unfold cmd_alts_of. cbn [app].
    destruct (range_blocks r p (R (c :: gap) ++ byte_val x :: T) Hr Ne) as (B1&B2&_).
    rewrite first_skip by exact B1. rewrite first_skip by exact B2.
    rewrite first_skip; [exact F|]. apply block_range; auto using blanks_N. congruence. }
  rewrite (seq_ok _ _ _ _ _ _ _ M), Q. reflexivity.
Qed.
Lemma open_gap_write : forall lead r gap trail, blanks lead -> wrange_ok r -> r <> NoAddress -> ~ closed r -> blanks gap -> blanks trail ->
  exists toks, Parse_with src_first (lead ++ wrange_text r ++ gap ++ B "w" ++ trail ++ [nl]) = Val (Some toks) /\
    sent (Execute (lead ++ wrange_text r ++ gap ++ B "w" ++ trail ++ [nl]) toks) = [the_command ctwrite (wrange_start r) (wrange_end r) [] []].
Proof.
  intros lead r gap trail Hl Hr Ne Nc Hg Ht. set (buf := lead ++ wrange_text r ++ gap ++ B "w" ++ trail ++ [nl]).
  set (T := R trail ++ [byte_val nl]). set (body := R (wrange_text r) ++ R gap ++ byte_val "w" :: T).
  assert (Hruns : runes_of buf = R lead ++ body).
  { unfold buf. rewrite runes_ascii; [unfold body, T; now rewrite !R_app|].
    repeat apply ascii_app; auto using ascii_blanks, ascii_wrange; repeat constructor. }
  assert (Hb : ends_at blankN body) by (apply range_not_blank; auto; congruence).
  assert (E : ends_at loud (byte_val "w" :: T)) by reflexivity.
  set (p := List.length lead).
  pose proof (range_ok r p (R gap) (byte_val "w" :: T) Hr Ne (blanks_N _ Hg) E) as Rg. fold body in Rg.
  assert (Cb : closedb r = false) by (destruct r; cbn in *; auto; try congruence; tauto). rewrite Cb in Rg.
  pose proof (src_range_is p body Hb) as Sr. rewrite Rg in Sr. cbn [skipped] in Sr.
  rewrite (sps_ok _ (R gap) (byte_val "w" :: T) (blanks_N _ Hg) (loud_blank _ E)) in Sr.
  assert (N : r = NoAddress -> R gap = []) by congruence.
  set (q := p + List.length (wrange_text r) + 0 + List.length (R gap)) in *.
  assert (Hc : pmatch src_cmd p body = POk (S q) T (range_toks p r ++ [TAct 6])).
  { unfold src_cmd. rewrite cmd_alts_of_ok. unfold cmd_alts_of, last_alts_of. cbn [app]. pose proof (blanks_N _ Hg).
    assert (Rf : forall X, starts X (byte_val "w") = false -> sound X = true -> nullable X = false -> pmatch (PSeq (POpt src_range) X) p body = PFail).
    { intros X S1 S2 S3. rewrite (seq_ok _ _ _ _ _ _ _ (opt_ok _ _ _ _ _ _ Sr)). now rewrite cannot_start. }
    unfold body in *.
    rewrite first_skip by (apply block_bare; alpha). rewrite first_skip by (apply block_param; alpha).
    rewrite first_skip by (rewrite same_rangeCmd by auto; apply block_range; alpha). rewrite first_skip by (apply block_addr; alpha).
    rewrite first_skip by (apply Rf; reflexivity). rewrite first_skip by (apply block_add; alpha).
    rewrite first_skip by (apply block_mark; alpha). rewrite first_skip by (apply Rf; reflexivity).
    rewrite first_skip by (apply block_read; alpha). apply first_take.
    unfold r_writeCmd_of. rewrite alt_fail.
    + rewrite (seq_ok _ _ _ _ _ _ _ (opt_ok _ _ _ _ _ _ Sr)). rewrite (seq_ok _ _ _ _ _ _ _ (chr_ok "w" _ T)). reflexivity.
    + rewrite (seq_ok _ _ _ _ _ _ _ (opt_ok _ _ _ _ _ _ Sr)). rewrite (seq_ok _ _ _ _ _ _ _ (chr_ok "w" _ T)).
      assert (Q : forall X q, pmatch (PSeq r_sp (PSeq (PText r_param) X)) q T = PFail); [|now rewrite Q].
      intros X q'. unfold T. destruct trail as [|y trail].
      * apply seq_fail, r_sp_fails. reflexivity.
      * apply blanks_N in Ht. cbn [R map app] in *. rewrite app_comm_cons.
        rewrite (seq_ok _ _ _ _ _ _ _ (r_sp_ok q' (byte_val y) (R trail) [byte_val nl] Ht eq_refl)).
        rewrite seq_fail; auto. }
  set (toks := (range_toks p r ++ [TAct 6]) ++ [TAct 1]).
  assert (He : pmatch src_e 0 (R lead ++ body) = POk (S q + List.length trail + 1) [] toks).
  { unfold src_e, r_e_of. rewrite (seq_ok _ _ _ _ _ _ _ (sps_ok 0 (R lead) body (blanks_N _ Hl) Hb)). rewrite R_length. cbn [Nat.add]. fold p. fold src_cmd.
    rewrite (seq_ok _ _ _ _ _ _ _ Hc). unfold T.
    rewrite (seq_ok _ _ _ _ _ _ _ (sps_ok (S q) (R trail) [byte_val nl] (blanks_N _ Ht) eq_refl)). unfold r_newLine.
    rewrite (seq_ok _ _ _ _ _ _ _ (chr_ok nl _ [])). cbn [pmatch app]. rewrite R_length. unfold toks. f_equal. lia. }
  exists (toks ++ [TAct 0]). split.
  - unfold Parse_with, src_first, r_first_of. fold src_e. rewrite Hruns.
    assert (F : forall k, pmatch src_e k [] = PFail) by (intros; apply cannot_start_nil; reflexivity).
    assert (S1 : pmatch (PStar src_e) 0 (R lead ++ body) = POk (S q + List.length trail + 1) [] toks).
    { cbn [pmatch]. rewrite star_loop_S. change (pmatch src_e 0 (R lead ++ body)) with (pmatch src_e 0 (R lead ++ body)). rewrite He. destruct (Nat.eqb_spec (S q + List.length trail + 1) 0); [lia|].
      destruct (R lead ++ body) as [|x y] eqn:Q; [rewrite F in He; discriminate|]. cbn [List.length]. rewrite star_loop_S, F. now rewrite List.app_nil_r. }
    rewrite (seq_ok _ _ _ _ _ _ _ S1). reflexivity.
  - unfold Execute, toks. rewrite !fold_left_app. change zero_pstate with (st 0 0 zero_command []).
    destruct (exec_range lead r (gap ++ B "w" ++ trail ++ [nl]) 0 0 [] Hr) as (b'&e'&X). unfold buf. fold p in X. rewrite X. reflexivity.
Qed.
