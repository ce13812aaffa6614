From Verif Require Import GoBase GoFacts NumFacts Utf8Facts RuneFacts RuneMore RegexModel RegexSpec RegexProofs RegexGramSpec RegexPrintModel.

(* ---- what readUntil finds ---- *)
Lemma read_loop_quoted : forall stop u, stop <> c_bslash -> quoted stop u -> forall v j,
  read_loop (u ++ stop :: v) stop j = Some (j + length u).
Proof.
  intros stop u Ns Q. induction Q as [|c l H1 H2 Q IH|c l Q IH]; intros v j; cbn [app read_loop length].
  - destruct (N.eqb_spec stop c_bslash); [contradiction|]. rewrite N.eqb_refl. f_equal. lia.
  - destruct (N.eqb_spec c c_bslash); [contradiction|]. destruct (N.eqb_spec c stop); [contradiction|].
    rewrite IH. f_equal. lia.
  - rewrite N.eqb_refl, IH. f_equal. lia.
Qed.
Lemma readUntil_quoted : forall stop u v, stop <> c_bslash -> quoted stop u ->
  readUntil (u ++ stop :: v) stop = Ok (length u).
Proof.
  intros stop u v Ns Q. unfold readUntil. rewrite read_loop_quoted by auto.
  inversion Q; subst; cbn [app length].
  - now rewrite N.eqb_refl.
  - destruct (N.eqb_spec c stop); [contradiction|]. reflexivity.
  - destruct (N.eqb_spec c_bslash stop); [congruence|]. reflexivity.
Qed.
Lemma read_loop_inv : forall n l stop j k, length l <= n -> read_loop l stop j = Some k ->
  exists u v, l = u ++ stop :: v /\ k = j + length u /\ quoted stop u.
Proof.
  induction n as [|n IH]; intros l stop j k L H.
  - destruct l; [discriminate|cbn in L; lia].
  - destruct l as [|r t]; [discriminate|]. cbn [length] in L. cbn [read_loop] in H.
    destruct (N.eqb_spec r c_bslash).
    + destruct t as [|r' t']; [discriminate|]. cbn [length] in L.
      apply IH in H as (u&v&E&K&Q); [|lia]. subst r t'. exists (c_bslash :: r' :: u), v. cbn [app length].
      repeat split; auto; [lia|]. now constructor.
    + destruct (N.eqb_spec r stop).
      * injection H as <-. subst r. exists [], t. cbn. repeat split; [lia|constructor].
      * apply IH in H as (u&v&E&K&Q); [|lia]. subst t. exists (r :: u), v. cbn [app length].
        repeat split; auto; [lia|]. now constructor.
Qed.
Lemma readUntil_inv : forall l stop k, readUntil l stop = Ok k ->
  exists u v, l = u ++ stop :: v /\ k = length u /\ quoted stop u.
Proof.
  intros [|r t] stop k H; [discriminate|]. unfold readUntil in H. destruct (N.eqb_spec r stop).
  - injection H as <-. subst. exists [], t. repeat split. constructor.
  - destruct (read_loop _ _ _) eqn:E; [|discriminate]. injection H as <-.
    apply (read_loop_inv (length (r :: t))) in E as (u&v&E&K&Q); auto. exists u, v. auto.
Qed.
Lemma quoted_plain : forall stop u, ~ In stop u -> ~ In c_bslash u -> quoted stop u.
Proof.
  induction u as [|c u IH]; intros H1 H2; [constructor|]. cbn [In] in *. apply q_char; [intros -> |intros -> |apply IH]; tauto.
Qed.

(* ---- numbers ---- *)
Lemma decimal_nonneg : forall d, (0 <= decimal d)%Z. Proof. intros. unfold decimal. lia. Qed.
Lemma digits_atoi : forall d, digits d -> atoi (string_of_runes d) =
  if (decimal d <=? max_int64)%Z then Some (decimal d) else None.
Proof.
  intros d [Ne F].
  assert (F' : Forall (fun r => (r < 128)%N) d) by (eapply Forall_impl; [|exact F]; cbv beta; intros; lia).
  assert (Nm : numeral (string_of_runes d) (decimal d)).
  { exists [], (string_of_runes d). rewrite string_of_ascii_runes by auto. split; [reflexivity|]. split; [|split].
    - intros E. apply map_eq_nil in E. contradiction.
    - apply Forall_forall. intros c I. apply in_map_iff in I as (r&<-&I). rewrite Forall_forall in F. apply F in I.
      unfold is_dec_digit. rewrite N_ascii_embedding by lia. lia.
    - left. split; auto. unfold decimal, digits_value. f_equal.
      assert (G : forall l acc, Forall (fun r => (48 <= r <= 57)%N) l ->
        fold_left (fun v r => 10 * v + (r - 48))%N l acc = fold_left (fun a c => 10 * a + digit_value c)%N (map ascii_of_N l) acc).
      { induction l as [|r l IH]; intros acc Fl; [reflexivity|]. inversion Fl; subst. cbn [map fold_left].
        rewrite IH by auto. replace (digit_value (ascii_of_N r)) with (r - 48)%N; [reflexivity|].
        unfold digit_value. now rewrite N_ascii_embedding by lia. }
      now apply G. }
  pose proof (decimal_nonneg d) as P.
  destruct (decimal d <=? max_int64)%Z eqn:E.
  - apply atoi_spec. split; auto. unfold min_int64. lia.
  - destruct (atoi (string_of_runes d)) as [z|] eqn:A; auto. apply atoi_spec in A as [A B]. 
    apply parse_dec_spec in A, Nm. rewrite A in Nm. injection Nm as ->. lia.
Qed.

(* ---- parseCount ---- *)
Lemma digits_safe : forall d, digits d -> ~ In c_rbrace d /\ ~ In c_bslash d.
Proof. intros d D. split; apply digits_not; auto; unfold c_rbrace, c_bslash; lia. Qed.
Lemma parseCount_repeated : forall r mn mx l, repeated r mn mx ->
  (r = [] -> hd 0%N l <> c_star /\ hd 0%N l <> c_lbrace) ->
  parseCount (r ++ l) = Ok ({| cmin := mn; cmax := mx |}, length r).
Proof.
  intros r mn mx l H HR. destruct H as [| |d [D M]|d [D M]|d d' [D M] [D' M']].
  - destruct (HR eq_refl) as [H1 H2]. destruct l as [|x t]; [reflexivity|]. cbn [hd app] in *. unfold parseCount.
    destruct (N.eqb_spec x c_lbrace); [contradiction|]. destruct (N.eqb_spec x c_star); [contradiction|]. reflexivity.
  - reflexivity.
  - destruct (digits_safe d D) as [S1 S2]. cbn [app]. rewrite <- app_assoc. cbn [app].
    rewrite parseCount_brace by auto. rewrite breCountRe_exactly by auto. unfold mustBeInt. rewrite digits_atoi by auto.
    replace (_ <=? _)%Z with true by lia. cbn [rbind]. do 2 f_equal. cbn [length]. rewrite app_length. cbn [length]. lia.
  - destruct (digits_safe d D) as [S1 S2].
    replace (([c_lbrace] ++ d ++ [c_comma] ++ [c_rbrace]) ++ l) with (c_lbrace :: (d ++ [c_comma]) ++ c_rbrace :: l)
      by (cbn [app]; rewrite <- !app_assoc; reflexivity).
    rewrite parseCount_brace; [|intros I; apply in_app_or in I as [I|[I|[]]]; [auto|discriminate I] ..].
    rewrite breCountRe_atleast by auto. unfold mustBeInt. rewrite digits_atoi by auto.
    replace (_ <=? _)%Z with true by lia. cbn [rbind]. do 2 f_equal. cbn [length app]. rewrite !app_length. cbn [length]. lia.
  - destruct (digits_safe d D) as [S1 S2], (digits_safe d' D') as [S3 S4].
    replace (([c_lbrace] ++ d ++ [c_comma] ++ d' ++ [c_rbrace]) ++ l)
      with (c_lbrace :: (d ++ [c_comma] ++ d') ++ c_rbrace :: l)
      by (cbn [app]; rewrite <- !app_assoc; cbn [app]; rewrite <- !app_assoc; reflexivity).
    rewrite parseCount_brace; [|intros I; apply in_app_or in I as [I|[I|I]]; [auto|discriminate I|auto] ..].
    rewrite breCountRe_between by auto. unfold mustBeInt. rewrite !digits_atoi by auto.
    replace (decimal d <=? _)%Z with true by lia. replace (decimal d' <=? _)%Z with true by lia.
    cbn [rbind]. do 2 f_equal. cbn [length app]. rewrite !app_length. cbn [length app]. rewrite !app_length. cbn [length]. lia.
Qed.
Lemma mustBeInt_digits : forall d z, digits d -> mustBeInt (string_of_runes d) = Ok z -> int_text d /\ z = decimal d.
Proof.
  intros d z D H. unfold mustBeInt in H. rewrite digits_atoi in H by auto.
  destruct (decimal d <=? max_int64)%Z eqn:E; [|discriminate]. injection H as <-. split; auto. split; auto. lia.
Qed.
Lemma breCountRe_groups : forall l g, breCountRe l = Some g ->
  match g with
  | Exactly m => l = m /\ digits m
  | AtLeast m => l = m ++ [c_comma] /\ digits m
  | Between m n => l = m ++ [c_comma] ++ n /\ digits m /\ digits n
  end.
Proof.
  intros l g H. unfold breCountRe in H. destruct (span_digits l) as [d u] eqn:E.
  apply span_digits_inv in E as [-> F]. destruct d as [|x d]; [discriminate|].
  assert (D : digits (x :: d)) by (split; [discriminate|auto]).
  destruct u as [|c u']. { injection H as <-. rewrite app_nil_r. auto. }
  destruct (N.eqb_spec c c_comma); [|discriminate]. subst c.
  destruct (span_digits u') as [d2 u2] eqn:E2. apply span_digits_inv in E2 as [-> F2].
  destruct d2 as [|y d2].
  - destruct u2; [|discriminate]. injection H as <-. auto.
  - destruct u2; [|discriminate]. injection H as <-. rewrite app_nil_r. repeat split; auto; try apply D. discriminate.
Qed.
Lemma parseCount_inv : forall l c n, parseCount l = Ok (c, n) ->
  exists r rest, l = r ++ rest /\ n = length r /\ repeated r (cmin c) (cmax c) /\
    (r = [] -> hd 0%N rest <> c_star /\ hd 0%N rest <> c_lbrace).
Proof.
  intros [|r t] c n H; unfold parseCount in H.
  { injection H as <- <-. exists [], []. cbn [cmin cmax]. repeat split; try constructor; discriminate. }
  destruct (N.eqb_spec r c_lbrace) as [->|Nb].
  - destruct (readUntil t c_rbrace) as [k| |] eqn:E; try discriminate. apply readUntil_inv in E as (u&v&->&->&Q).
    rewrite firstn_app, firstn_all, Nat.sub_diag, firstn_O, app_nil_r in H.
    destruct (breCountRe u) as [g|] eqn:G; [|discriminate]. apply breCountRe_groups in G.
    destruct g as [m|m|m m'].
    + destruct G as [-> D]. destruct (mustBeInt (string_of_runes m)) as [z| |] eqn:Z; cbn [rbind] in H; try discriminate.
      apply mustBeInt_digits in Z as [I ->]; auto. injection H as <- <-. exists ([c_lbrace] ++ m ++ [c_rbrace]), v.
      cbn [cmin cmax]. repeat split; [cbn [app]; now rewrite <- app_assoc|cbn [app length]; rewrite app_length; cbn; lia|now constructor|discriminate..].
    + destruct G as [-> D]. destruct (mustBeInt (string_of_runes m)) as [z| |] eqn:Z; cbn [rbind] in H; try discriminate.
      apply mustBeInt_digits in Z as [I ->]; auto. injection H as <- <-. exists ([c_lbrace] ++ m ++ [c_comma] ++ [c_rbrace]), v.
      cbn [cmin cmax]. repeat split; [cbn [app]; now rewrite <- !app_assoc|cbn [app length]; rewrite !app_length; cbn; lia|now constructor|discriminate..].
    + destruct G as [-> [D D']]. destruct (mustBeInt (string_of_runes m)) as [z| |] eqn:Z; cbn [rbind] in H; try discriminate.
      apply mustBeInt_digits in Z as [I ->]; auto.
      destruct (mustBeInt (string_of_runes m')) as [z'| |] eqn:Z'; cbn [rbind] in H; try discriminate.
      apply mustBeInt_digits in Z' as [I' ->]; auto.
      injection H as <- <-. exists ([c_lbrace] ++ m ++ [c_comma] ++ m' ++ [c_rbrace]), v.
      cbn [cmin cmax]. repeat split; [cbn [app]; rewrite <- !app_assoc; cbn [app]; now rewrite <- !app_assoc| |now constructor|discriminate..].
      cbn [app length]; rewrite !app_length; cbn [app length]; rewrite !app_length; cbn; lia.
  - destruct (N.eqb_spec r c_star) as [->|Ns]; injection H as <- <-; cbn [cmin cmax].
    + exists [c_star], t. repeat split; try constructor; discriminate.
    + exists [], (r :: t). repeat split; try constructor; auto.
Qed.

(* ---- the sequence of elements ---- *)
Lemma single_nonempty : forall t e, single t e -> exists r u, t = r :: u.
Proof. intros t e [c H| |cs H]; eexists _, _; reflexivity. Qed.
Lemma parse_elements_single : forall e t rest f, single t e -> parse_elements (S f) (t ++ rest) = continue_with f e rest.
Proof.
  intros e t rest f [c H| |cs H].
  - cbn [app]. rewrite parse_elements_cons. cbn [In] in H.
    destruct (N.eqb_spec c c_lbrack); [subst; tauto|]. destruct (N.eqb_spec c c_lparen); [subst; tauto|].
    destruct (N.eqb_spec c c_rparen); [subst; tauto|]. destruct (N.eqb_spec c c_dot); [subst; tauto|]. reflexivity.
  - reflexivity.
  - cbn [app]. rewrite parse_elements_cons, N.eqb_refl, <- app_assoc. cbn [app].
    rewrite readUntil_quoted by (auto; discriminate).
    rewrite firstn_app, firstn_all, Nat.sub_diag, firstn_O, app_nil_r. f_equal.
    rewrite skipn_app, skipn_all2 by lia. replace (length cs + 1 - length cs) with 1 by lia. reflexivity.
Qed.
Lemma parse_sequence : forall l es, sequence l es -> forall f, length l <= f -> parse_elements f l = Ok es.
Proof.
  induction 1 as [|p l es P Q IH|t e r mn mx l es Ht Hr HR Q IH]; intros f L.
  - destruct f; reflexivity.
  - destruct f as [|f]; [cbn in L; lia|]. cbn [length] in L. rewrite parse_elements_cons.
    destruct P as [-> | ->]; cbn [N.eqb Pos.eqb c_lbrack c_lparen c_rparen orb]; apply IH; lia.
  - destruct (single_nonempty t e Ht) as (x&u&Et). destruct f as [|f]; [subst; cbn in L; lia|].
    rewrite (parse_elements_single e) by auto. unfold continue_with, add_count.
    rewrite (parseCount_repeated r mn mx) by auto. cbn [rbind]. rewrite skipn_len_app. rewrite IH; [reflexivity|].
    subst t. rewrite !app_length in L. cbn [length] in L. lia.
Qed.
Lemma continue_inv : forall f e rest es, continue_with f e rest = Ok es ->
  exists r c l es', rest = r ++ l /\ repeated r (cmin c) (cmax c) /\
    (r = [] -> hd 0%N l <> c_star /\ hd 0%N l <> c_lbrace) /\ parse_elements f l = Ok es' /\ es = (e, c) :: es'.
Proof.
  intros f e rest es H. unfold continue_with, add_count in H.
  destruct (parseCount rest) as [[c n]| |] eqn:P; cbn [rbind] in H; try discriminate.
  apply parseCount_inv in P as (r&l&->&->&R&HR). rewrite skipn_len_app in H.
  destruct (parse_elements f l) as [es'| |] eqn:E; cbn [rbind] in H; try discriminate. injection H as <-.
  exists r, c, l, es'. auto.
Qed.
Lemma sequence_parse : forall f l es, parse_elements f l = Ok es -> sequence l es.
Proof.
  induction f as [|f IH]; intros l es H.
  - destruct l; [injection H as <-; constructor|discriminate].
  - destruct l as [|x t]; [injection H as <-; constructor|]. rewrite parse_elements_cons in H.
    assert (C : forall e u rest, single u e -> continue_with f e rest = Ok es -> sequence (u ++ rest) es).
    { intros e u rest Su Hc. apply continue_inv in Hc as (r&c&l&es'&->&R&HR&P&->). destruct c as [mn mx].
      apply sq_item; auto. }
    destruct (N.eqb_spec x c_lbrack) as [->|N1].
    + destruct (readUntil t c_rbrack) as [k| |] eqn:E; try discriminate. apply readUntil_inv in E as (u&v&->&->&Q).
      rewrite firstn_app, firstn_all, Nat.sub_diag, firstn_O, app_nil_r in H.
      rewrite skipn_app, skipn_all2 in H by lia. replace (length u + 1 - length u) with 1 in H by lia.
      cbn [skipn app] in H. replace (c_lbrack :: u ++ c_rbrack :: v) with (([c_lbrack] ++ u ++ [c_rbrack]) ++ v)
        by (cbn [app]; now rewrite <- app_assoc). eapply C; eauto. now constructor.
    + destruct (N.eqb_spec x c_lparen) as [->|N2]; [cbn [orb] in H; constructor; auto|].
      destruct (N.eqb_spec x c_rparen) as [->|N3]; [cbn [orb] in H; constructor; auto|]. cbn [orb] in H.
      destruct (N.eqb_spec x c_dot) as [->|N4].
      * apply (C Wildcard [c_dot]); auto. constructor.
      * apply (C (Plain x) [x]); auto. constructor. cbn [In]. intuition congruence.
Qed.

(* ---- anchors ---- *)
Lemma last_split : forall (l : list N), last l 0%N = c_dollar -> exists u, l = u ++ [c_dollar].
Proof.
  intros l H. destruct (list_eq_dec N.eq_dec l []) as [->|Ne]; [discriminate H|].
  exists (removelast l). rewrite (app_removelast_last 0%N Ne) at 1. now rewrite H.
Qed.
Lemma body_of_dollar : forall u, body_of (u ++ [c_dollar]) = u.
Proof. intros. unfold body_of. rewrite last_last, N.eqb_refl. now rewrite removelast_last. Qed.
Lemma parse_pattern : forall l b, parse_runes l = Ok b <-> pattern l b.
Proof.
  intros l b. split.
  - intros H. destruct (N.eq_dec (hd 0%N l) c_caret) as [E|E].
    + destruct l as [|x l]; [discriminate E|]. cbn in E. subst x. rewrite parse_runes_anchored in H.
      destruct (N.eq_dec (last l 0%N) c_dollar) as [D|D].
      * apply last_split in D as [u ->]. rewrite body_of_dollar, last_last, N.eqb_refl in H.
        destruct (parse_elements _ u) as [es| |] eqn:P; cbn [rbind] in H; try discriminate. injection H as <-.
        apply (pt_both u). eapply sequence_parse; eauto.
      * unfold body_of in H. destruct (N.eqb_spec (last l 0%N) c_dollar); [contradiction|].
        destruct (parse_elements _ l) as [es| |] eqn:P; cbn [rbind] in H; try discriminate. injection H as <-.
        apply (pt_left l); auto. eapply sequence_parse; eauto.
    + rewrite parse_runes_unanchored in H by auto.
      destruct (N.eq_dec (last l 0%N) c_dollar) as [D|D].
      * apply last_split in D as [u ->]. rewrite body_of_dollar, last_last, N.eqb_refl in H.
        destruct (parse_elements _ u) as [es| |] eqn:P; cbn [rbind] in H; try discriminate. injection H as <-.
        apply pt_right; [|eapply sequence_parse; eauto]. destruct u; [discriminate|exact E].
      * unfold body_of in H. destruct (N.eqb_spec (last l 0%N) c_dollar); [contradiction|].
        destruct (parse_elements _ l) as [es| |] eqn:P; cbn [rbind] in H; try discriminate. injection H as <-.
        apply pt_none; auto. eapply sequence_parse; eauto.
  - intros H. destruct H as [l es H1 H2 Q|l es H2 Q|l es H1 Q|l es Q].
    + rewrite parse_runes_unanchored by auto. unfold body_of.
      destruct (N.eqb_spec (last l 0%N) c_dollar); [contradiction|]. now rewrite (parse_sequence l es).
    + cbn [app]. rewrite parse_runes_anchored. unfold body_of.
      destruct (N.eqb_spec (last l 0%N) c_dollar); [contradiction|]. now rewrite (parse_sequence l es).
    + rewrite parse_runes_unanchored by (destruct l; [discriminate|exact H1]). rewrite body_of_dollar, last_last, N.eqb_refl.
      now rewrite (parse_sequence l es).
    + cbn [app]. rewrite parse_runes_anchored. rewrite body_of_dollar, last_last, N.eqb_refl.
      now rewrite (parse_sequence l es).
Qed.

(* ---- printing ---- *)
Lemma runes_of_valid : forall b, Forall valid_rune (runes_of b).
Proof.
  intros b. assert (L : length b <= length b) by auto. revert L. generalize (length b) at 2 as n. intros n. revert b.
  induction n as [|n IH]; intros b L.
  - destruct b; [constructor|cbn in L; lia].
  - destruct b as [|c b]; [constructor|]. destruct (decode_rune (c :: b)) as [r w] eqn:D.
    assert (Nb : c :: b <> []) by discriminate.
    rewrite (runes_of_step _ r w Nb D). pose proof (decode_width _ r w Nb D) as W. constructor.
    + destruct (N.eq_dec r rune_error) as [->|Nr]; [right; unfold rune_error; lia|].
      apply (encode_decode (c :: b) r w); auto. congruence.
    + apply IH. rewrite skipn_length. cbn [length] in *. lia.
Qed.
Definition el_runes (e : element) : list N :=
  match e with Plain r => [r] | Wildcard => [c_dot] | Bracket cs => [c_lbrack] ++ cs ++ [c_rbrack] end.
Definition count_runes (c : count) : list N :=
  [c_lbrace] ++ dec_runes (cmin c) ++ [c_comma] ++ dec_runes (cmax c) ++ [c_rbrace].
Definition dupl_runes (d : dupl) : list N := el_runes (fst d) ++ count_runes (snd d).

(* elements that come from a pattern *)
Definition printable (d : dupl) : Prop :=
  single (el_runes (fst d)) (fst d) /\ Forall valid_rune (el_runes (fst d)) /\
  is_count (cmin (snd d)) /\ is_count (cmax (snd d)).
Lemma repeated_counts : forall r mn mx, repeated r mn mx -> is_count mn /\ is_count mx.
Proof.
  intros r mn mx [| |d [D M]|d [D M]|d d' [D M] [D' M']]; unfold is_count, max_int64 in *;
    try pose proof (decimal_nonneg d); try pose proof (decimal_nonneg d'); lia.
Qed.
Lemma single_text : forall t e, single t e -> t = el_runes e.
Proof. intros t e [c H| |cs H]; reflexivity. Qed.
Lemma sequence_printable : forall l es, sequence l es -> Forall valid_rune l -> Forall printable es.
Proof.
  induction 1 as [|p l es P Q IH|t e r mn mx l es Ht Hr HR Q IH]; intros V.
  - constructor.
  - inversion V; auto.
  - apply Forall_app in V as [V1 V]. apply Forall_app in V as [_ V2]. constructor; auto.
    pose proof (single_text t e Ht) as E. subst t. apply repeated_counts in Hr as [C1 C2].
    split; [exact Ht|]. repeat split; auto; apply C1 || apply C2.
Qed.
Lemma dec_runes_string : forall m, (0 <= m)%Z -> string_of_runes (dec_runes m) = itoa m.
Proof.
  intros m H. pose proof (dec_runes_digits m H) as [_ D]. rewrite string_of_ascii_runes.
  - unfold dec_runes. rewrite map_map, (map_ext _ (fun x => x)) by apply ascii_N_embedding. now rewrite map_id.
  - eapply Forall_impl; [|exact D]. cbv beta. intros; lia.
Qed.
Lemma string_of_runes_app : forall a b, string_of_runes (a ++ b) = string_of_runes a ++ string_of_runes b.
Proof. intros. apply flat_map_app. Qed.
Lemma dec_runes_int : forall m, is_count m -> int_text (dec_runes m) /\ decimal (dec_runes m) = m.
Proof.
  intros m [H1 H2]. pose proof (dec_runes_digits m H1) as D. pose proof (digits_atoi _ D) as A.
  rewrite dec_runes_atoi in A by auto. replace (m <=? max_int64)%Z with true in A by lia.
  destruct (decimal (dec_runes m) <=? max_int64)%Z eqn:E; [|discriminate]. injection A as A. split; [|congruence].
  split; auto. lia.
Qed.
Lemma count_runes_valid : forall c, is_count (cmin c) -> is_count (cmax c) -> Forall valid_rune (count_runes c).
Proof.
  intros c [H1 _] [H2 _]. pose proof (dec_runes_digits _ H1) as [_ D1]. pose proof (dec_runes_digits _ H2) as [_ D2].
  assert (K : forall d, Forall (fun r => (48 <= r <= 57)%N) d -> Forall valid_rune d)
    by (intros d F; eapply Forall_impl; [|exact F]; cbv beta; unfold valid_rune; intros; lia).
  assert (O : forall r, (r < 128)%N -> Forall valid_rune [r]) by (intros; repeat constructor; unfold valid_rune; lia).
  unfold count_runes. repeat (apply Forall_app; split); auto; apply O; reflexivity.
Qed.
Lemma dupl_string : forall d, printable d -> dupl_String d = string_of_runes (dupl_runes d).
Proof.
  intros [e c] (S1&V&[C1 _]&[C2 _]). cbn [fst snd] in *. unfold dupl_String, dupl_runes. cbn [fst snd].
  rewrite string_of_runes_app. f_equal.
  - destruct e; cbn [el_Text el_runes]; rewrite ?string_of_runes_app; reflexivity.
  - unfold count_String, count_runes. rewrite !string_of_runes_app, !dec_runes_string by auto. reflexivity.
Qed.
Lemma printed_string : forall es, Forall printable es ->
  concat (map dupl_String es) = string_of_runes (concat (map dupl_runes es)) /\
  Forall valid_rune (concat (map dupl_runes es)).
Proof.
  induction 1 as [|d es P F [IH1 IH2]]; cbn [map concat]; [split; [reflexivity|constructor]|].
  rewrite string_of_runes_app, dupl_string, IH1 by auto. split; auto. apply Forall_app. split; auto.
  destruct P as (_&V&C1&C2). apply Forall_app. split; auto. now apply count_runes_valid.
Qed.
Lemma printed_sequence : forall es, Forall printable es -> sequence (concat (map dupl_runes es)) es.
Proof.
  induction 1 as [|d es P F IH]; cbn [map concat]; [constructor|]. destruct d as [e [mn mx]].
  destruct P as (Sg&V&C1&C2). cbn [fst snd cmin cmax] in *. unfold dupl_runes at 1. cbn [fst snd]. rewrite <- app_assoc.
  apply sq_item; auto; [|discriminate]. unfold count_runes. cbn [cmin cmax].
  destruct (dec_runes_int mn C1) as [I1 E1], (dec_runes_int mx C2) as [I2 E2].
  rewrite <- E1 at 2. rewrite <- E2 at 2. now constructor.
Qed.
Lemma printed_last : forall es, last (concat (map dupl_runes es)) 0%N <> c_dollar.
Proof.
  induction es as [|d es IH]; cbn [map concat]; [discriminate|].
  destruct es as [|d' es].
  - cbn [map concat]. rewrite app_nil_r. unfold dupl_runes, count_runes. rewrite !app_assoc, last_last. discriminate.
  - rewrite last_app_ne; [exact IH|]. cbn [map concat]. unfold dupl_runes, count_runes. destruct (el_runes (fst d')); discriminate.
Qed.
