(* The lexer ends on texts with LC_COLLATE whose collations go on. *)
From Verif Require Import GoBase GoFacts Utf8Facts RuneFacts RuneMore LocYaccModel LocaleModel LocaleProofs LocLexModel LocLexProofs LocDocSpec LocDocLex LocHangSpec
  LocNumProofs LocLexEnds LocCollSpec.
Local Open Scope Z_scope.

(* ---- taking characters in front of anything ---- *)
Lemma span : forall (chars r : bytes), exists v t, r = v ++ t /\ Forall (fun c => In c chars) v /\ (forall c t', t = c :: t' -> ~ In c chars).
Proof.
  intros chars. induction r as [|c r IH].
  - exists [], []. split; [reflexivity|]. split; [constructor|discriminate].
  - destruct (in_dec ascii_dec c chars) as [I|N].
    + destruct IH as (v & t & -> & F & H). exists (c :: v), t. split; [reflexivity|]. split; [now constructor|exact H].
    + exists [], (c :: r). split; [reflexivity|]. split; [constructor|]. intros c' t' E. injection E as <- _. exact N.
Qed.

(* what the last Rewind of Take does *)
Lemma stop_cases : forall s, let s' := rewind (snd (next s)) in
  (cur s' = cur s /\ rest s' = rest s /\ ~ invalid (rest s)) \/
  (invalid (rest s) /\ cur s' = skipn 2 (cur s) /\ rest s' = rev (firstn 2 (cur s)) ++ rest s).
Proof.
  intros [u t w l] s'. subst s'. unfold next. cbn [rest cur rew sent]. destruct t as [|b t].
  - left. split; [reflexivity|]. split; [reflexivity|]. intros [N _]. congruence.
  - destruct (decode_rune (b :: t)) as [r k] eqn:D. cbn [snd]. unfold rewind. cbn [rew cur rest].
    assert (Q : (r, k) = (rune_error, 1%nat) \/ (r, k) <> (rune_error, 1%nat)).
    { destruct (N.eq_dec r rune_error) as [->|N]; [|right; congruence]. destruct (Nat.eq_dec k 1) as [->|N]; [now left|right; congruence]. }
    destruct Q as [Q|Q].
    + right. injection Q as -> ->. split; [split; [discriminate|exact D]|]. change (List.length (encode_rune rune_error)) with 3%nat.
      cbn [firstn skipn rev app]. split; [reflexivity|]. now rewrite <- app_assoc.
    + left. destruct (encode_decode (b :: t) r k) as [_ F]; [discriminate|exact D|exact Q|]. rewrite <- F.
      set (q := firstn k (b :: t)) in *. assert (Lq : List.length q = List.length (rev q)) by now rewrite rev_length. rewrite Lq. split.
      * rewrite skipn_app, skipn_all, Nat.sub_diag. reflexivity.
      * split; [|intros [_ X]; congruence]. rewrite firstn_app, firstn_all, Nat.sub_diag. cbn [firstn]. rewrite app_nil_r, rev_involutive. apply firstn_skipn.
Qed.
Lemma low_valid : forall c t, low c -> ~ invalid (c :: t).
Proof. intros c t L [_ D]. rewrite decode_low in D by exact L. injection D as D. unfold low in L. rewrite D in L. discriminate L. Qed.
(* reading a character of the set *)
Lemma next_has : forall chars s r s1, Forall low chars -> next s = (r, s1) -> has chars r = true ->
  exists c t, In c chars /\ rest s = c :: t /\ s1 = {| cur := c :: cur s; rest := t; rew := Some (byte_val c) :: rew s; sent := sent s |}.
Proof.
  intros chars [u t w l] r s1 L N H. unfold next in N. cbn [rest cur rew sent] in *. destruct t as [|b t]; [injection N as <- <-; discriminate H|].
  destruct (decode_rune (b :: t)) as [n k] eqn:D. injection N as <- <-. destruct (has_low _ _ L H) as (Lr & c & I & E).
  destruct (decode_ascii _ _ _ _ D Lr) as [A ->]. rewrite E in A. apply byte_val_inj in A. subst b. exists c, t.
  split; [exact I|]. split; [reflexivity|]. now rewrite E.
Qed.
Lemma take_settles : forall chars, Forall low chars -> forall f s, Forall low (cur s) ->
  let s' := take_from f chars s in cur s' = [] \/ ~ invalid (rest s').
Proof.
  intros chars L.
  assert (R : forall s, Forall low (cur s) -> let s' := rewind (snd (next s)) in cur s' = [] \/ ~ invalid (rest s')).
  { intros s F. cbv zeta. destruct (stop_cases s) as [(E1 & E2 & E3)|(E1 & E2 & E3)]; [right; now rewrite E2|].
    destruct (cur s) as [|x [|y z]]; [left; exact E2..|]. right. rewrite E3. clear E2 E3. cbn [firstn rev app]. apply low_valid.
    inversion F as [|? ? _ F1]; subst. now inversion F1. }
  induction f as [|f IH]; intros s F; cbn [take_from]; cbv zeta; specialize (R s F); destruct (next s) as [r s1] eqn:N; cbn [snd] in R; [exact R|].
  destruct (has chars r) eqn:H; [|exact R]. destruct (next_has _ _ _ _ L N H) as (c & t & I & Er & ->). apply IH. cbn [cur].
  constructor; [exact (proj1 (Forall_forall _ _) L c I)|exact F].
Qed.
(* Take giving back what was there before it *)
Lemma take_back : forall chars, Forall low chars -> forall f s, cur s <> [] -> cur (take_from f chars s) = [] ->
  exists g t, rest s = g ++ t /\ Forall (fun c => In c chars) g /\ invalid t /\ (List.length g + List.length (cur s) <= 2)%nat.
Proof.
  intros chars L.
  assert (R : forall s, cur s <> [] -> cur (rewind (snd (next s))) = [] ->
    exists g t, rest s = g ++ t /\ Forall (fun c => In c chars) g /\ invalid t /\ (List.length g + List.length (cur s) <= 2)%nat).
  { intros s Ne E. destruct (stop_cases s) as [(E1 & _)|(E1 & E2 & E3)]; [congruence|].
    exists [], (rest s). split; [reflexivity|]. split; [constructor|]. split; [exact E1|].
    rewrite E2 in E. apply (f_equal (@List.length _)) in E. rewrite skipn_length in E. cbn [List.length] in *. lia. }
  induction f as [|f IH]; intros s Ne E; cbn [take_from] in E; specialize (R s Ne); destruct (next s) as [r s1] eqn:N; cbn [snd] in R; [now apply R|].
  destruct (has chars r) eqn:H; [|now apply R]. destruct (next_has _ _ _ _ L N H) as (c & t & I & Er & ->).
  apply IH in E; [|discriminate]. destruct E as (g & t' & Et & Fg & Iv & Le). cbn [rest cur List.length] in *. exists (c :: g), t'.
  split; [rewrite Er, Et; reflexivity|]. split; [now constructor|]. split; [exact Iv|]. cbn [List.length]. lia.
Qed.
(* where Take stops: not in front of one of its characters, if not less than three bytes before an invalid byte *)
Lemma take_front : forall chars, Forall low chars -> forall f s, (List.length (rest s) < f)%nat ->
  let s' := take_from f chars s in
  (forall c t, rest s' = c :: t -> ~ In c chars) \/ exists x t, rest s' = x ++ t /\ (List.length x <= 2)%nat /\ invalid t.
Proof.
  intros chars L. induction f as [|f IH]; intros s Le; [lia|]. cbn [take_from]. cbv zeta. pose proof (stop_cases s) as C. cbv zeta in C.
  destruct (next s) as [r s1] eqn:N; cbn [snd] in C.
  destruct (has chars r) eqn:H.
  - destruct (next_has _ _ _ _ L N H) as (c & t & I & Er & ->). apply IH. cbn [rest]. rewrite Er in Le. cbn [List.length] in Le. lia.
  - destruct C as [(_ & E & _)|(Iv & _ & E)]; rewrite E.
    + left. intros c t Et I. unfold next in N. rewrite Et in N. rewrite decode_low in N by exact (proj1 (Forall_forall _ _) L c I).
      injection N as <- _. apply has_not in H. now apply H.
    + right. exists (rev (firstn 2 (cur s))), (rest s). split; [reflexivity|]. split; [|exact Iv]. rewrite rev_length, firstn_length. lia.
Qed.

Lemma ws_cur : forall s b s', grabWhitespace s = Done b s' -> cur s' = [].
Proof.
  intros s b s' H. unfold grabWhitespace in H. cbv zeta in H. destruct (beqb _ []) eqn:Q; injection H as <- <-; [|reflexivity].
  apply beqb_eq in Q. unfold current in Q. apply (f_equal (@rev _)) in Q. now rewrite rev_involutive in Q.
Qed.
Lemma nl_cur : forall s b s', grabNewline s = Done b s' -> cur s' = [].
Proof.
  intros s b s' H. unfold grabNewline in H. cbv zeta in H. destruct (beqb _ []) eqn:Q; injection H as <- <-; [|reflexivity].
  apply beqb_eq in Q. unfold current in Q. apply (f_equal (@rev _)) in Q. now rewrite rev_involutive in Q.
Qed.
Lemma must_eq : forall m u s', must m = Done u s' -> m = Done true s'.
Proof. intros m u s' H. unfold must in H. destruct m as [[|] s| |]; cbn [bind] in H; try discriminate H. injection H as _ <-. reflexivity. Qed.
Lemma bind_eq : forall A C (m : lres A) (f : A -> lx -> lres C) c s', bind m f = Done c s' -> exists a s, m = Done a s /\ f a s = Done c s'.
Proof. intros A C m f c s' H. destruct m as [a s| |]; cbn [bind] in H; try discriminate H. now exists a, s. Qed.

Lemma nl_line : forall s s', cur s = [] -> grabNewline s = Done true s' ->
  exists m c, rest s = m ++ c :: rest s' /\ In c newLine /\ cur s' = [].
Proof.
  intros s s' C H. pose proof (nl_cur _ _ _ H) as C'. unfold grabNewline in H. cbv zeta in H. pose proof (pend_take newLine s) as E.
  destruct (beqb _ []) eqn:Q; [discriminate H|]. apply beqb_neq in Q. injection H as <-.
  pose proof (take_from_chars newLine low_line (S (List.length (rest s))) s) as F. rewrite C in F. specialize (F (Forall_nil _)). fold (take newLine s) in F.
  destruct (exists_last Q) as (m & c & Em). exists m, c. split; [|split; [|exact C']].
  - unfold pend in E. unfold current in E at 2. rewrite C in E. cbn [rev app] in E. rewrite <- E, Em, <- app_assoc. reflexivity.
  - apply Forall_rev in F. fold (current (take newLine s)) in F. rewrite Em in F. apply Forall_app in F. destruct F as [_ F]. now inversion F.
Qed.
Lemma generic_line : forall fuel esc c s s', sGeneric fuel esc c s = Done (Some SCategory) s' ->
  cur s' = [] /\ exists p x, pend s = p ++ x :: pend s' /\ In x newLine.
Proof.
  intros fuel esc c s s' H. unfold sGeneric in H. apply bind_eq in H. destruct H as (b & s1 & W1 & H). cbv zeta in H.
  pose proof (ws_fine s) as F1. rewrite W1 in F1. destruct F1 as (p1 & E1 & _).
  set (cs := upperChars ++ _) in H. pose proof (pend_take cs s1) as E2. set (s2 := take cs s1) in *. clearbody s2 cs.
  destruct (beqb (current s2) (B "END")).
  - apply bind_eq in H. destruct H as (u3 & s3 & W3 & H). pose proof (fine_must _ _ (ws_fine (emit END_STR s2))) as F3. rewrite W3 in F3. destruct F3 as (p3 & E3 & _).
    pose proof (pend_take upperChars s3) as E4. set (s4 := take upperChars s3) in *. clearbody s4. destruct (negb _); [discriminate H|].
    apply bind_eq in H. destruct H as (u5 & s5 & W5 & H). pose proof (ws_fine (emit (c_tok c) s4)) as F5. rewrite W5 in F5. destruct F5 as (p5 & E5 & _).
    apply ws_cur in W5. apply bind_eq in H. destruct H as (u6 & s6 & W6 & H). injection H as <-. apply must_eq in W6.
    destruct (nl_line _ _ W5 W6) as (m & x & Er & Ix & Cs). split; [exact Cs|].
    exists (p1 ++ current s2 ++ p3 ++ current s4 ++ p5 ++ m), x. split; [|exact Ix].
    assert (P6 : pend s5 = m ++ x :: pend s6) by (unfold pend, current; rewrite W5, Cs; exact Er).
    rewrite E1, <- E2, (pend_emit END_STR), E3, <- E4, (pend_emit (c_tok c)), E5, P6, <- !app_assoc. reflexivity.
  - destruct (look_up _ _) as [[typ g]|]; [|discriminate H]. do 3 (apply bind_eq in H; destruct H as (? & ? & _ & H)). discriminate H.
Qed.

Lemma leads_front : forall u, leads_out u -> exists v r, u = v ++ r /\ v <> [] /\ Forall (fun c => In c letters) v /\ stops letters r /\
  (In v [B "END"; B "order_start"] \/ exists g b, r = g ++ b /\ blanks g /\ leads_out b).
Proof.
  intros u H. destruct H as [w r I E|v g b Ne F Bg H].
  - exists w, r. split; [reflexivity|]. split; [intros ->; destruct I as [I|[I|[]]]; discriminate I|]. split.
    + assert (A : forallb (within letters) [B "END"; B "order_start"] = true) by (vm_compute; reflexivity).
      apply withins. exact (proj1 (forallb_forall _ _) A w I).
    + split; [exact E|now left].
  - exists v, (g ++ b). split; [reflexivity|]. split; [exact Ne|]. split; [exact F|]. split.
    + now apply (blanks_stop letters g b).
    + right. exists g, b. now split.
Qed.
Lemma letters_words : forall c, In c letters <-> In c word_chars.
Proof.
  intros c. split; intros I.
  - assert (A : within word_chars letters = true) by (vm_compute; reflexivity). apply in_b. exact (proj1 (forallb_forall _ _) A c I).
  - assert (A : within letters word_chars = true) by (vm_compute; reflexivity). apply in_b. exact (proj1 (forallb_forall _ _) A c I).
Qed.
Lemma stops_words : forall r, stops letters r -> stops word_chars r.
Proof. intros [|c r] H; [exact I|]. destruct H as [L N]. split; [exact L|]. intros J. now apply N, letters_words. Qed.
Lemma letters_facts : forall c, In c letters -> low c /\ ~ In c whiteSpace /\ ~ In c newLine /\ c <> "-"%char.
Proof.
  intros c I. assert (A : forallb (fun c => lowb c && negb (existsb (Ascii.eqb c) whiteSpace) && negb (existsb (Ascii.eqb c) newLine) && negb (Ascii.eqb c "-")) letters = true)
    by (vm_compute; reflexivity).
  pose proof (proj1 (forallb_forall _ _) A c I) as K. cbv beta in K. apply andb_prop in K. destruct K as [K K4]. apply andb_prop in K. destruct K as [K K3].
  apply andb_prop in K. destruct K as [K1 K2]. split; [now apply N.ltb_lt|]. split; [|split].
  - intros J. apply in_b in J. rewrite J in K2. discriminate K2.
  - intros J. apply in_b in J. rewrite J in K3. discriminate K3.
  - intros ->. discriminate K4.
Qed.
Lemma leads_stop : forall u, leads_out u -> stops whiteSpace u /\ stops newLine u /\ u <> [].
Proof.
  intros u H. destruct (leads_front u H) as (v & r & -> & Ne & F & _). destruct v as [|c v]; [congruence|]. inversion F as [|? ? I _]; subst.
  destruct (letters_facts c I) as (L & W & N & _). cbn [app]. split; [now split|]. split; [now split|discriminate].
Qed.
Lemma goes_stop : forall b, goes_on b -> stops newLine b.
Proof.
  intros b (g & u & -> & F & H). destruct g as [|c g]; [now apply leads_stop|]. inversion F as [|? ? I _]; subst. cbn [app].
  destruct I as [<-|[<-|[]]]; now apply stops_b.
Qed.

(* ---- one call of a state function ---- *)
Section Ends.
Variable src : bytes.
Hypothesis G : good_text src.
Hypothesis Go : collations_go_on src.
Hypothesis Nt : ~ torn src.

Definition shape (st : lstate) (p : bytes) (s : lx) : Prop :=
  match st with
  | SInit => False
  | SCategory => cur s = [] /\ (starts_line p \/ forall b, pend s <> B "LC_COLLATE" ++ b)
  | SGeneric c => In c categories
  | SCollate => (cur s = [] /\ goes_on (rest s)) \/
      exists v g u, cur s = rev v /\ v <> [] /\ Forall (fun c => In c letters) v /\ rest s = g ++ u /\ blanks g /\ leads_out u
  | SOrderStart => cur s = [] \/ (Forall (fun c => In c lowerChars) (cur s) /\ ~ invalid (rest s))
  | SOrder => cur s = []
  end.
Definition inv (st : lstate) (s : lx) : Prop := exists p, src = p ++ pend s /\ shape st p s.
Definition size (s : lx) : nat := (2 * List.length (pend s) + match cur s with [] => 1 | _ => 0 end)%nat.
Definition moves (s : lx) (r : lres (option lstate)) : Prop :=
  match r with
  | Done None _ | Panicked _ => True
  | Done (Some st) s' => inv st s' /\ (size s' < size s)%nat
  | Unfinished _ => False
  end.
Lemma size_less : forall s s' p, pend s = p ++ pend s' -> p <> [] -> (size s' < size s)%nat.
Proof.
  intros s s' p E N. apply much_shorter in E; [|exact N]. unfold size. destruct (cur s), (cur s'); lia.
Qed.

Lemma category_moves : forall s, inv SCategory s -> moves s (sCategory s).
Proof.
  intros s (p & Ep & C & Lp). destruct (list_eq_dec ascii_dec (current (take (upperChars ++ B "_") s)) (B "LC_COLLATE")) as [Q|Q].
  - unfold sCategory. cbv zeta. pose proof (pend_take (upperChars ++ B "_") s) as E. set (s1 := take (upperChars ++ B "_") s) in *. clearbody s1.
    rewrite Q. change (beqb (B "LC_COLLATE") (B "LC_COLLATE")) with true. cbv iota.
    assert (P1 : pend s = B "LC_COLLATE" ++ rest s1) by (rewrite <- E; unfold pend; now rewrite Q).
    assert (L : starts_line p) by (destruct Lp as [L|L]; [exact L|exfalso; exact (L _ P1)]).
    destruct (span whiteSpace (rest s1)) as (g & t & Er & Fg & Hg). destruct (span newLine t) as (m & b & Et & Fm & Hm). subst t.
    destruct Go as [Go1 _]. specialize (Go1 p g m b).
    assert (Gb : g ++ m <> [] -> goes_on b).
    { intros N. apply Go1; [rewrite Ep, P1, Er; reflexivity|exact L|exact Fg|exact Fm|exact N|exact Hm]. }
    unfold emit. rewrite Q. set (l := {| t_type := LC_COLLATE_STR; t_value := B "LC_COLLATE" |} :: sent s1). rewrite Er.
    assert (D : g ++ m = [] \/ g ++ m <> []) by (destruct (g ++ m); [now left|right; discriminate]).
    destruct D as [D|D].
    + apply app_eq_nil in D. destruct D as [-> ->]. cbn [app] in *. set (s2 := {| cur := []; rest := b; rew := []; sent := l |}).
      pose proof (take_from_chars whiteSpace low_white (S (List.length (rest s2))) s2 (Forall_nil _)) as F. fold (take whiteSpace s2) in F.
      pose proof (pend_take whiteSpace s2) as E2. unfold pend in E2. change (current s2 ++ rest s2) with b in E2.
      destruct (cur (take whiteSpace s2)) as [|x y] eqn:Cx.
      * unfold current in E2. rewrite Cx in E2. cbn [rev app] in E2. unfold grabNewline. cbv zeta. set (s3 := take whiteSpace s2) in *.
        assert (F3 : Forall (fun c => In c newLine) (cur s3)) by (rewrite Cx; constructor).
        pose proof (take_from_chars newLine low_line (S (List.length (rest s3))) s3 F3) as F4. fold (take newLine s3) in F4.
        pose proof (pend_take newLine s3) as E4. unfold pend in E4. unfold current in E4 at 2. rewrite Cx in E4. cbn [rev app] in E4. rewrite E2 in E4.
        destruct (beqb (current (take newLine s3)) []) eqn:Z; [exact I|]. exfalso. apply beqb_neq in Z. apply Forall_rev in F4. fold (current (take newLine s3)) in F4.
        destruct (current (take newLine s3)) as [|x y]; [congruence|]. inversion F4 as [|? ? I1 _]; subst. cbn [app] in E4. exact (Hm x _ (eq_sym E4) I1).
      * exfalso. apply Forall_rev in F. assert (Z : rev (x :: y) <> []) by (cbn [rev]; intros X; now apply app_eq_nil in X).
        unfold current in E2. rewrite Cx in E2. destruct (rev (x :: y)) as [|x' y']; [congruence|]. inversion F as [|? ? I1 _]; subst.
        cbn [app] in E2. exact (Hg x' _ (eq_sym E2) I1).
    + pose proof (Gb D) as Gb'. pose proof (goes_stop b Gb') as Sb.
      assert (Sw : stops whiteSpace (m ++ b)).
      { destruct m as [|x m].
        - cbn [app] in *. destruct Gb' as (g' & u & -> & Fg' & Lu). destruct g' as [|x g']; [now apply leads_stop|].
          exfalso. inversion Fg' as [|? ? I1 _]; subst. exact (Hg x _ eq_refl I1).
        - inversion Fm as [|? ? I1 _]; subst. cbn [app]. destruct I1 as [<-|[<-|[]]]; now apply stops_b. }
      rewrite (take_all whiteSpace g (m ++ b)) by (first [exact low_white|assumption]). unfold grabNewline. cbv zeta.
      rewrite (take_all newLine m b) by (first [exact low_line|assumption]). unfold current. cbn [cur]. rewrite app_nil_r.
      rewrite rev_app_distr, !rev_involutive. destruct (beqb (g ++ m) []) eqn:Z; [apply beqb_eq in Z; congruence|]. cbn [must bind].
      unfold emit. cbn [rest sent]. split.
      * exists (p ++ B "LC_COLLATE" ++ g ++ m). split; [rewrite Ep, P1, Er, <- !app_assoc; reflexivity|]. left. split; [reflexivity|exact Gb'].
      * apply (size_less _ _ (B "LC_COLLATE" ++ g ++ m)); [|discriminate]. rewrite P1, Er, <- !app_assoc. reflexivity.
  - pose proof (category_steps_word s Q) as S1. destruct (sCategory s) as [[st|] s'| |] eqn:R; cbn [steps moves] in *; try exact S1.
    destruct S1 as (Cm & q & Eq & Nq). split; [|now apply (size_less _ _ q)]. exists (p ++ q). split; [rewrite Ep, Eq; now rewrite app_assoc|].
    destruct st; cbn [calm shape] in *; try contradiction; [|exact Cm].
    exfalso. unfold sCategory in R. cbv zeta in R. destruct (beqb _ _).
    + apply bind_eq in R. destruct R as (? & ? & _ & R). discriminate R.
    + destruct (find _ _); cbn [option_map] in R; [|discriminate R]. apply bind_eq in R. destruct R as (? & ? & _ & R). discriminate R.
Qed.

Lemma generic_moves : forall fuel esc c s, esc <> 10%N -> (2 * List.length (pend s) < fuel)%nat -> inv (SGeneric c) s -> moves s (sGeneric fuel esc c s).
Proof.
  intros fuel esc c s Ne Le (p & Ep & Ic). assert (Gs : good_text (pend s)) by (apply (good_suffix p); now rewrite <- Ep).
  pose proof (generic_steps fuel esc c s Ic Ne Gs Le) as S1. destruct (sGeneric fuel esc c s) as [[st|] s'| |] eqn:R; cbn [steps moves] in *; try exact S1.
  destruct S1 as (Cm & q & Eq & Nq). split; [|now apply (size_less _ _ q)]. exists (p ++ q). split; [rewrite Ep, Eq; now rewrite app_assoc|].
  destruct st; cbn [calm shape] in *; try contradiction; [|exact Cm].
  destruct (generic_line _ _ _ _ _ R) as (C & p' & x & E' & I). split; [exact C|]. left. right. exists (p ++ p'), x. split; [|exact I].
  change (x :: pend s') with ([x] ++ pend s') in E'. rewrite app_assoc in E'. rewrite Eq in E'. apply app_inv_tail in E'. rewrite E'. now rewrite app_assoc.
Qed.

Lemma order_moves : forall s, inv SOrder s -> moves s (sOrder s).
Proof.
  intros s (p & Ep & C). unfold sOrder. pose proof (char_fine s) as F. destruct (grabChar s) as [b s1| |]; cbn [fine bind] in *; [|exact I|contradiction].
  destruct F as (q & Eq & Nq). destruct b; cbn [negb].
  - specialize (Nq eq_refl). pose proof (nl_fine s1) as Fn. destruct (grabNewline s1) as [b s2| |] eqn:W; cbn [must bind fine] in *; [|exact I|contradiction].
    destruct b; [|exact I]. cbn [bind moves]. destruct Fn as (q2 & E2 & _). assert (E3 : pend s = (q ++ q2) ++ pend s2) by (rewrite Eq, E2; now rewrite app_assoc). split.
    + exists (p ++ q ++ q2). split; [rewrite Ep, E3; now rewrite !app_assoc|]. exact (nl_cur _ _ _ W).
    + apply (size_less _ _ (q ++ q2)); [exact E3|]. intros X. apply app_eq_nil in X. now apply Nq.
  - cbv zeta. pose proof (pend_take lowerChars s1) as E2. set (s2 := take lowerChars s1) in *. clearbody s2.
    destruct (beqb (current s2) (B "order_end")) eqn:Q; cbn [negb]; [|exact I]. apply beqb_eq in Q.
    assert (P2 : pend s = q ++ B "order_end" ++ rest s2) by (rewrite Eq, <- E2; unfold pend; now rewrite Q).
    destruct (span newLine (rest s2)) as (m & b & Et & Fm & Hm).
    assert (D : m = [] \/ m <> []) by (destruct m; [now left|right; discriminate]). destruct D as [->|D].
    + cbn [app] in Et. destruct (grabNewline (emit ORDER_END_STR s2)) as [[|] s3| |] eqn:W; cbn [must bind]; try exact I.
      * exfalso. destruct (nl_line (emit ORDER_END_STR s2) s3 eq_refl W) as (m & c & Er & _ & _).
        unfold grabNewline in W. cbv zeta in W. set (s4 := emit ORDER_END_STR s2) in *.
        pose proof (take_from_chars newLine low_line (S (List.length (rest s4))) s4 (Forall_nil _)) as F4. fold (take newLine s4) in F4.
        pose proof (pend_take newLine s4) as E4. unfold pend in E4. change (current s4 ++ rest s4) with (rest s2) in E4. rewrite Et in E4.
        destruct (beqb (current (take newLine s4)) []) eqn:Z; [discriminate W|]. apply beqb_neq in Z. apply Forall_rev in F4. fold (current (take newLine s4)) in F4.
        destruct (current (take newLine s4)) as [|x y]; [congruence|]. inversion F4 as [|? ? I1 _]; subst. cbn [app] in E4. exact (Hm x _ (eq_sym E4) I1).
      * unfold grabNewline in W. cbv zeta in W. destruct (beqb _ _) in W; discriminate W.
    + destruct Go as [_ Go2]. assert (Gb : goes_on b).
      { apply (Go2 (p ++ q) m b); [rewrite Ep, P2, Et, <- !app_assoc; reflexivity|exact Fm|exact D|exact Hm]. }
      pose proof (goes_stop b Gb) as Sb. unfold emit. rewrite Et. unfold grabNewline. cbv zeta.
      rewrite (take_all newLine m b) by (first [exact low_line|assumption]). unfold current. cbn [cur]. rewrite app_nil_r, rev_involutive.
      destruct (beqb m []) eqn:Z; [apply beqb_eq in Z; congruence|]. cbn [must bind]. unfold emit. cbn [rest sent]. split.
      * exists (p ++ q ++ B "order_end" ++ m). split; [rewrite Ep, P2, Et, <- !app_assoc; reflexivity|]. left. split; [reflexivity|exact Gb].
      * apply (size_less _ _ (q ++ B "order_end" ++ m)); [|intros X; apply app_eq_nil in X; destruct X as [_ X]; discriminate X]. rewrite P2, Et, <- !app_assoc. reflexivity.
Qed.

Lemma low_lower : Forall low lowerChars. Proof. now apply lows. Qed.
Lemma order_start_moves : forall s, inv SOrderStart s -> moves s (sOrderStart s).
Proof.
  intros s (p & Ep & C). unfold sOrderStart. pose proof (ws_fine s) as F. destruct (grabWhitespace s) as [b s1| |] eqn:W; cbn [fine bind] in *; [|exact I|contradiction].
  destruct F as (q & Eq & Nq). pose proof (ws_cur _ _ _ W) as C1. cbv zeta.
  assert (Nq' : cur s <> [] -> q <> []).
  { intros Nc. destruct C as [C|[Fl Nv]]; [congruence|]. unfold grabWhitespace in W. cbv zeta in W. destruct (beqb _ []) eqn:Z; injection W as <- <-; [|now apply Nq].
    exfalso. destruct (take_back whiteSpace low_white _ s Nc C1) as (g & t & Er & Fg & Iv & Le).
    destruct (cur s) as [|v [|v2 vs]] eqn:Cs; [congruence| |].
    - destruct g as [|c [|c2 g]]; [cbn [app] in Er; now rewrite Er in Nv| |cbn [List.length] in Le; lia].
      apply Nt. exists p, v, c, t. apply Forall_inv in Fl. apply Forall_inv in Fg.
      split; [rewrite Ep; unfold pend, current; rewrite Cs, Er; reflexivity|]. split; [exact Fl|]. split; [exact Fg|exact Iv].
    - destruct g as [|c g]; [cbn [app] in Er; now rewrite Er in Nv|cbn [List.length] in Le; lia]. }
  assert (F2 : Forall (fun c => In c lowerChars) (cur (take lowerChars s1))).
  { apply take_from_chars; [exact low_lower|rewrite C1; constructor]. }
  assert (S2 : cur (take lowerChars s1) = [] \/ ~ invalid (rest (take lowerChars s1))).
  { apply take_settles; [exact low_lower|rewrite C1; constructor]. }
  pose proof (pend_take lowerChars s1) as E2. set (s2 := take lowerChars s1) in *. clearbody s2.
  assert (P2 : pend s = q ++ pend s2) by congruence.
  assert (Em : forall t, current s2 <> [] -> inv SOrderStart (emit t s2) /\ (size (emit t s2) < size s)%nat).
  { intros t N2. split.
    - exists (p ++ q ++ current s2). split; [rewrite Ep, P2, (pend_emit t), <- !app_assoc; reflexivity|now left].
    - apply (size_less _ _ (q ++ current s2)); [rewrite P2, (pend_emit t), <- !app_assoc; reflexivity|]. intros X. apply app_eq_nil in X. now apply N2. }
  destruct (beqb (current s2) []) eqn:Z.
  - pose proof (nl_fine s2) as Fn. destruct (grabNewline s2) as [b3 s3| |] eqn:W3; cbn [must bind fine] in *; [|exact I|contradiction].
    destruct b3; [|exact I]. cbn [bind moves]. destruct Fn as (q3 & E3 & N3). specialize (N3 eq_refl).
    assert (P3 : pend s = (q ++ q3) ++ pend s3) by (rewrite P2, E3; now rewrite app_assoc). split.
    + exists (p ++ q ++ q3). split; [rewrite Ep, P3; now rewrite !app_assoc|]. exact (nl_cur _ _ _ W3).
    + apply (size_less _ _ (q ++ q3)); [exact P3|]. intros X. apply app_eq_nil in X. now apply N3.
  - apply beqb_neq in Z. destruct (beqb _ _); [now apply Em|]. destruct (beqb _ _); [now apply Em|]. destruct (beqb _ _); [now apply Em|]. cbn [moves].
    assert (N2 : cur s2 <> []) by (intros X; apply Z; unfold current; now rewrite X). split.
    + exists (p ++ q). split; [rewrite Ep, P2; now rewrite app_assoc|]. right. split; [exact F2|]. now destruct S2.
    + destruct (cur s) as [|x y] eqn:Cs.
      * pose proof (shorter _ _ _ P2). unfold size. rewrite Cs. destruct (cur s2); [congruence|]. lia.
      * apply (size_less _ _ q); [exact P2|]. apply Nq'. discriminate.
Qed.

Lemma upper_prefix : Forall (fun c => In c upperChars) (B "LC_COLLATE").
Proof. now apply withins. Qed.
Lemma collate_word : forall fuel esc u w l p, leads_out u -> src = p ++ u ->
  let s := {| cur := []; rest := u; rew := w; sent := l |} in
  let s := take (upperChars ++ lowerChars ++ B "_") s in
  let word := current s in
  match (if beqb word (B "END") then
    bind (must (grabWhitespace (emit END_STR s))) (fun _ s =>
    let s := take upperChars s in
    if negb (beqb (current s) (B "LC_COLLATE")) then Panicked s
    else bind (grabNewline (emit LC_COLLATE_STR s)) (fun _ s => Done (Some SCategory) s))
  else if beqb word (B "order_start") then Done (Some SOrderStart) (emit ORDER_START_STR s)
  else if beqb word (B "collating-element") then
    bind (must (grabWhitespace (emit COLLATING_ELEMENT_STR s))) (fun _ s =>
    bind (must (grabChar s)) (fun _ s =>
    bind (must (grabWhitespace s)) (fun _ s =>
    let s := take (B "from") s in
    if negb (beqb (current s) (B "from")) then Panicked s
    else
      bind (must (grabWhitespace (emit FROM_STR s))) (fun _ s =>
      bind (must (grabString fuel esc s)) (fun _ s =>
      bind (grabWhitespace s) (fun _ s =>
      bind (must (grabNewline s)) (fun _ s => Done (Some SCollate) s)))))))
  else if beqb word (B "collating-symbol") then
    bind (must (grabWhitespace (emit COLLATING_SYMBOL_STR s))) (fun _ s =>
    bind (must (grabString fuel esc s)) (fun _ s =>
    bind (grabWhitespace s) (fun _ s =>
    bind (must (grabNewline s)) (fun _ s => Done (Some SCollate) s))))
  else Done (Some SCollate) s)
  with
  | Done None _ | Panicked _ => True
  | Done (Some st) s' => inv st s' /\ ((List.length (pend s') < List.length u)%nat \/ (List.length (pend s') = List.length u /\ cur s' <> []))
  | Unfinished _ => False
  end.
Proof.
  intros fuel esc u w l p Lu Ep. cbv zeta. destruct (leads_front u Lu) as (v & r & -> & Nv & Fv & Sr & Cv).
  change (upperChars ++ lowerChars ++ B "_") with word_chars.
  rewrite (take_all word_chars v r) by (first [exact low_word|eapply Forall_impl; [|exact Fv]; intros c; apply letters_words|now apply stops_words]).
  set (w1 := rev (map _ v) ++ w). set (s2 := {| cur := rev v ++ []; rest := r; rew := w1; sent := l |}).
  assert (Cu : current s2 = v) by (unfold current; cbn [cur s2]; now rewrite app_nil_r, rev_involutive). rewrite Cu.
  assert (Em : forall t, inv SOrderStart (emit t s2) /\ (List.length (pend (emit t s2)) < List.length (v ++ r))%nat).
  { intros t. assert (P : v ++ r = v ++ pend (emit t s2)) by reflexivity. split.
    - exists (p ++ v). split; [rewrite Ep; now rewrite <- app_assoc|now left].
    - now apply (much_shorter v). }
  destruct (beqb v (B "END")) eqn:Q1.
  { apply beqb_eq in Q1. pose proof (fine_must _ _ (ws_fine (emit END_STR s2))) as F3.
    destruct (must (grabWhitespace (emit END_STR s2))) as [u3 s3| |] eqn:W3; cbn [fine bind] in *; [|exact I|contradiction].
    destruct F3 as (q3 & E3 & N3). specialize (N3 eq_refl).
    assert (R3 : rest s2 = q3 ++ pend s3) by exact E3. apply must_eq, ws_cur in W3.
    pose proof (pend_take upperChars s3) as E4. pose proof (take_front upperChars low_upper (S (List.length (rest s3))) s3 ltac:(lia)) as T4. cbv zeta in T4.
    fold (take upperChars s3) in T4. set (s4 := take upperChars s3) in *. clearbody s4.
    destruct (beqb (current s4) (B "LC_COLLATE")) eqn:Q4; cbn [negb]; [|exact I]. apply beqb_eq in Q4.
    pose proof (nl_fine (emit LC_COLLATE_STR s4)) as F5. destruct (grabNewline (emit LC_COLLATE_STR s4)) as [b5 s5| |] eqn:W5; cbn [fine bind] in *; [|exact I|contradiction].
    destruct F5 as (q5 & E5 & N5).
    assert (P5 : v ++ r = v ++ q3 ++ B "LC_COLLATE" ++ q5 ++ pend s5).
    { change r with (rest s2) at 1. rewrite R3, <- E4, (pend_emit LC_COLLATE_STR), Q4, E5. reflexivity. }
    split; [|left; apply (much_shorter (v ++ q3 ++ B "LC_COLLATE" ++ q5)); [rewrite P5, <- !app_assoc; reflexivity|intros X; apply app_eq_nil in X; now apply Nv]].
    exists (p ++ v ++ q3 ++ B "LC_COLLATE" ++ q5). split; [rewrite Ep, P5, <- !app_assoc; reflexivity|].
    pose proof (nl_cur _ _ _ W5) as C5. split; [exact C5|]. destruct b5.
    - left. right. destruct (nl_line (emit LC_COLLATE_STR s4) s5 eq_refl W5) as (m & x & Er & Ix & _).
      assert (Q5 : q5 = m ++ [x]).
      { apply (app_inv_tail (pend s5)). rewrite <- E5. unfold pend at 2, current. rewrite C5. cbn [rev app]. rewrite <- app_assoc. exact Er. }
      exists (p ++ v ++ q3 ++ B "LC_COLLATE" ++ m), x. split; [|exact Ix]. rewrite Q5. rewrite <- !app_assoc. reflexivity.
    - right. intros b Eb. assert (R5 : rest s4 = pend s5).
      { unfold grabNewline in W5. cbv zeta in W5. pose proof (pend_take newLine (emit LC_COLLATE_STR s4)) as E6.
        destruct (beqb _ _) in W5; [|discriminate W5]. injection W5 as <-. rewrite E6. reflexivity. }
      rewrite R5, Eb in T4. destruct T4 as [T4|(x & t & E6 & Lx & Iv)].
      + apply (T4 "L"%char (B "C_COLLATE" ++ b) eq_refl). now apply in_b.
      + destruct x as [|x0 [|x1 [|x2 x]]]; [| | |cbn [List.length] in Lx; lia].
        * cbn [app] in E6. rewrite <- E6 in Iv. revert Iv. apply low_valid. reflexivity.
        * cbn [app] in E6. injection E6 as _ E6. rewrite <- E6 in Iv. revert Iv. apply low_valid. reflexivity.
        * cbn [app] in E6. injection E6 as _ _ E6. rewrite <- E6 in Iv. revert Iv. apply low_valid. reflexivity. }
  destruct (beqb v (B "order_start")) eqn:Q2; [split; [apply Em|left; apply Em]|].
  assert (Nm : ~ In "-"%char v).
  { intros J. apply (proj1 (Forall_forall _ _) Fv) in J. apply letters_facts in J. now apply J. }
  destruct (beqb v (B "collating-element")) eqn:Q3; [exfalso; apply Nm; apply beqb_eq in Q3; rewrite Q3; now apply in_b|].
  destruct (beqb v (B "collating-symbol")) eqn:Q4; [exfalso; apply Nm; apply beqb_eq in Q4; rewrite Q4; now apply in_b|].
  destruct Cv as [Cv|(g & b & -> & Bg & Lb)]; [exfalso; destruct Cv as [<-|[<-|[]]]; [discriminate Q1|discriminate Q2]|].
  split; [|right; split; [unfold pend; rewrite Cu; reflexivity|]].
  - exists p. split; [rewrite Ep; unfold pend; rewrite Cu; reflexivity|]. right. exists v, g, b. cbn [cur rest s2]. rewrite app_nil_r. auto 6.
  - cbn [cur s2]. rewrite app_nil_r. intros X. apply Nv. apply (f_equal (@rev _)) in X. now rewrite rev_involutive in X.
Qed.

Lemma collate_moves : forall fuel esc s, inv SCollate s -> moves s (sCollate fuel esc s).
Proof.
  intros fuel esc s (p & Ep & Sh).
  assert (K : exists q u b w l, grabWhitespace s = Done b {| cur := []; rest := u; rew := w; sent := l |} /\ pend s = q ++ u /\ leads_out u /\ (q = [] -> cur s = [])).
  { destruct s as [cs rs ws l]. cbn [shape cur rest] in Sh. destruct Sh as [(-> & g & u & -> & Fg & Lu)|(v & g & u & -> & Nv & Fv & -> & Bg & Lu)];
      destruct (leads_stop u Lu) as (Sw & _ & _); unfold grabWhitespace; cbv zeta.
    - rewrite (take_all whiteSpace g u) by (first [exact low_white|assumption]). unfold current. cbn [cur]. rewrite app_nil_r, rev_involutive.
      exists g, u. unfold pend, current, emit. cbn [cur rev rest app sent]. destruct (beqb g []) eqn:Z.
      + apply beqb_eq in Z. subst g. cbn [rev app map]. do 3 eexists. split; [reflexivity|]. now split.
      + do 3 eexists. split; [reflexivity|]. now split.
    - assert (Fg : Forall (fun c => In c whiteSpace) g).
      { destruct Bg as [_ Fg]. eapply Forall_impl; [|exact Fg]. intros c Hc. cbv beta in Hc. destruct Hc as [-> | ->]; [now left|right; now left]. }
      rewrite (take_all whiteSpace g u) by (first [exact low_white|assumption]). unfold current. cbn [cur].
      exists (v ++ g), u. unfold pend, current, emit. cbn [cur rest sent]. rewrite rev_app_distr, !rev_involutive.
      destruct (beqb (v ++ g) []) eqn:Z; [apply beqb_eq in Z; apply app_eq_nil in Z; destruct Z; congruence|].
      do 3 eexists. split; [reflexivity|]. split; [now rewrite app_assoc|]. split; [exact Lu|]. intros Z'. apply app_eq_nil in Z'. destruct Z'; congruence. }
  destruct K as (q & u & b & w & l & W & Eq & Lu & Cq). unfold sCollate. rewrite W. cbn [bind].
  pose proof (collate_word fuel esc u w l (p ++ q) Lu ltac:(rewrite Ep, Eq; now rewrite app_assoc)) as K. cbv zeta in K |- *.
  match type of K with match ?r with _ => _ end => destruct r as [[st|] s'| |] end; try exact K. destruct K as [Iv K]. split; [exact Iv|].
  apply (f_equal (@List.length _)) in Eq. rewrite app_length in Eq. unfold size. destruct K as [K|[K Nc]].
  - destruct (cur s), (cur s'); lia.
  - destruct (cur s'); [congruence|]. destruct q; [rewrite Cq by reflexivity; cbn [List.length] in *; lia|]. cbn [List.length] in *. destruct (cur s); lia.
Qed.

Lemma call_moves : forall fuel esc st s, esc <> 10%N -> (2 * List.length (pend s) < fuel)%nat -> inv st s -> moves s (call fuel esc st s).
Proof.
  intros fuel esc st s Ne Le Iv. destruct st; cbn [call].
  - destruct Iv as (p & _ & []).
  - now apply category_moves.
  - now apply generic_moves.
  - now apply collate_moves.
  - now apply order_start_moves.
  - now apply order_moves.
Qed.
Lemma inv_shorter : forall st s, inv st s -> (List.length (pend s) <= List.length src)%nat.
Proof. intros st s (p & E & _). now apply (shorter p). Qed.
Lemma run_moves : forall k fuel esc st s, esc <> 10%N -> (2 * List.length src < fuel)%nat -> inv st s -> (size s < k)%nat ->
  forall s', lex_run k fuel esc st s <> Unfinished s'.
Proof.
  induction k as [|k IH]; intros fuel esc st s Ne Le Iv Lk s'; [lia|]. cbn [lex_run]. pose proof (inv_shorter _ _ Iv) as Ls.
  pose proof (call_moves fuel esc st s Ne ltac:(lia) Iv) as M.
  destruct (call fuel esc st s) as [[st1|] s1| |]; cbn [bind moves] in *; try discriminate; [|contradiction].
  destruct M as [I1 L1]. apply IH; [exact Ne|exact Le|exact I1|lia].
Qed.
Lemma lex_moves : forall esc s', esc <> 10%N -> lex (2 * List.length src + 3) esc src <> Unfinished s'.
Proof.
  intros esc s' Ne. unfold lex. replace (2 * List.length src + 3)%nat with (S (2 * List.length src + 2)) by lia. cbn [lex_run call bind].
  apply run_moves; [exact Ne|lia| |].
  - exists []. split; [reflexivity|]. split; [reflexivity|]. left. now left.
  - unfold size, pend, current. cbn [cur rest rev app]. lia.
Qed.
End Ends.
