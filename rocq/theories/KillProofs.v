From Verif Require Import GoBase GoFacts NumFacts Utf8Facts RuneFacts RuneMore KillModel KillSpec.

(* ---- upper case ---- *)
Lemma encode_lead : forall r c b t, (byte_val c < 128)%N -> encode_rune r ++ b = c :: t ->
  r = byte_val c /\ b = t.
Proof.
  intros r c b t H E. destruct (r <? 128)%N eqn:E0.
  - rewrite encode_ascii in E by lia. cbn [app] in E. injection E as <- <-. split; auto.
    symmetry. apply byte_val_of_N. lia.
  - exfalso. assert (K : forall n x, (128 <= n < 256)%N -> ascii_of_N n :: x <> c :: t).
    { intros n x Hn [= Q _]. rewrite <- Q in H. rewrite byte_val_of_N in H by lia. lia. }
    unfold encode_rune in E. rewrite E0 in E.
    destruct (r <? 2048)%N eqn:E1.
    { assert (r / 64 < 32)%N by (apply div_lt; lia). eapply K in E; auto. lia. }
    destruct ((55296 <=? r) && (r <=? 57343))%N eqn:E2; [eapply K in E; auto; lia|].
    destruct (r <? 65536)%N eqn:E3.
    { assert (r / 4096 < 16)%N by (apply div_lt; lia). eapply K in E; auto. lia. }
    destruct (r <? 1114112)%N eqn:E4.
    { assert (r / 262144 < 5)%N by (apply div_lt; lia). eapply K in E; auto. lia. }
    eapply K in E; auto. lia.
Qed.

Definition capital (c : ascii) : Prop := (byte_val c < 97)%N.
Lemma to_upper_step : forall b r w, b <> [] -> decode_rune b = (r, w) ->
  to_upper b = encode_rune (upper_rune r) ++ to_upper (skipn w b).
Proof. intros b r w N D. unfold to_upper. rewrite (runes_of_step b r w N D). reflexivity. Qed.
Lemma decode_305 : forall b w r, b <> [] -> decode_rune b = (r, w) -> (r = 305 \/ r = 383)%N ->
  b = encode_rune r ++ skipn w b.
Proof.
  intros b w r N D H. destruct (encode_decode b r w N D) as [_ <-]; [|now rewrite firstn_skipn].
  intros [= -> _]. vm_compute in H. destruct H; discriminate.
Qed.
Lemma to_upper_case : forall s t, Forall capital s -> to_upper t = s -> in_any_case t s.
Proof.
  induction s as [|c s IH]; intros t F E.
  - destruct t as [|d t]; [constructor|]. destruct (decode_rune (d :: t)) as [r w] eqn:D.
    rewrite (to_upper_step _ r w) in E by (auto; discriminate).
    apply app_eq_nil in E as [E _]. now apply encode_nonempty in E.
  - inversion F as [|? ? Hc Fs]; subst. unfold capital in Hc.
    destruct t as [|d t]; [discriminate|]. destruct (decode_rune (d :: t)) as [r w] eqn:D.
    rewrite (to_upper_step _ r w) in E by (auto; discriminate).
    apply encode_lead in E as [Er Es]; [|lia]. apply IH in Es; auto. unfold upper_rune in Er.
    destruct ((97 <=? r) && (r <=? 122))%N eqn:E1.
    { destruct (decode_ascii _ _ _ _ D) as [Hd ->]; [lia|]. cbn [skipn] in Es. apply case_lower; auto; lia. }
    destruct (r =? 305)%N eqn:E2.
    { assert (r = 305%N) as -> by lia. rewrite (decode_305 (d :: t) _ _ ltac:(discriminate) D) by auto.
      assert (c = "I"%char) as -> by (rewrite <- (ascii_N_embedding c); fold (byte_val c); now rewrite <- Er).
      change (encode_rune 305) with [ascii_of_N 196; ascii_of_N 177]. cbn [app]. now apply case_dotless. }
    destruct (r =? 383)%N eqn:E3.
    { assert (r = 383%N) as -> by lia. rewrite (decode_305 (d :: t) _ _ ltac:(discriminate) D) by auto.
      assert (c = "S"%char) as -> by (rewrite <- (ascii_N_embedding c); fold (byte_val c); now rewrite <- Er).
      change (encode_rune 383) with [ascii_of_N 197; ascii_of_N 191]. cbn [app]. now apply case_long_s. }
    destruct (decode_ascii _ _ _ _ D) as [Hd ->]; [lia|]. cbn [skipn] in Es.
    assert (d = c) as ->.
    { rewrite <- (ascii_N_embedding c), <- (ascii_N_embedding d). fold (byte_val c) (byte_val d). congruence. }
    now apply case_same.
Qed.
Lemma case_to_upper : forall t s, in_any_case t s -> Forall capital s -> to_upper t = s.
Proof.
  assert (A : forall d t, (byte_val d < 128)%N ->
    to_upper (d :: t) = ascii_of_N (upper_rune (byte_val d)) :: to_upper t).
  { intros d t H. rewrite (to_upper_step _ (byte_val d) 1); [|discriminate|].
    - rewrite encode_ascii; [reflexivity|]. unfold upper_rune.
      destruct ((97 <=? byte_val d) && (byte_val d <=? 122))%N eqn:E1; [lia|].
      replace (byte_val d =? 305)%N with false by lia. replace (byte_val d =? 383)%N with false by lia. auto.
    - unfold decode_rune. replace (byte_val d <? 128)%N with true by lia. reflexivity. }
  induction 1 as [|c t s H IH|c d t s H1 H2 H IH|t s H IH|t s H IH]; intros F; [reflexivity| | | |];
    inversion F as [|? ? Hc Fs]; subst; unfold capital in Hc.
  - rewrite A by lia. rewrite IH by auto. f_equal. unfold upper_rune.
    replace (97 <=? byte_val c)%N with false by lia. cbn [andb].
    replace (byte_val c =? 305)%N with false by lia. replace (byte_val c =? 383)%N with false by lia.
    apply ascii_N_embedding.
  - rewrite A by lia. rewrite IH by auto. f_equal. unfold upper_rune.
    replace ((97 <=? byte_val d) && (byte_val d <=? 122))%N with true by lia.
    replace (byte_val d - 32)%N with (byte_val c) by lia. apply ascii_N_embedding.
  - rewrite (to_upper_step _ 305 2); [|discriminate|reflexivity]. cbn [skipn]. rewrite IH by auto. reflexivity.
  - rewrite (to_upper_step _ 383 2); [|discriminate|reflexivity]. cbn [skipn]. rewrite IH by auto. reflexivity.
Qed.
Lemma signals_capital : forall s n, In (s, n) posix_signals -> Forall capital s.
Proof.
  intros s n H. repeat (destruct H as [[= <- <-]|H]; [repeat constructor|]). contradiction.
Qed.
Lemma names_upper : forall t n, names_signal t n <-> In (to_upper t, n) posix_signals.
Proof.
  intros t n. split.
  - intros (s&H&C). rewrite (case_to_upper t s); auto. eapply signals_capital; eauto.
  - intros H. exists (to_upper t). split; auto. apply to_upper_case; auto. eapply signals_capital; eauto.
Qed.

Lemma find_assoc : forall (l : list (bytes * Z)) u n, NoDup (map fst l) ->
  (option_map snd (find (fun p => beqb (fst p) u) l) = Some n <-> In (u, n) l).
Proof.
  induction l as [|[k v] l IH]; intros u n H; cbn [find In].
  - split; [discriminate|contradiction].
  - cbn [map fst] in H. inversion H; subst. cbn [fst]. destruct (beqb k u) eqn:E.
    + apply beqb_eq in E. subst u. cbn. split.
      * intros [= <-]. auto.
      * intros [[= <-]|X]; auto. exfalso. apply H2. apply in_map_iff. now exists (k, n).
    + rewrite IH by auto. apply beqb_neq in E. split; auto. intros [[= -> ->]|X]; auto. congruence.
Qed.

Lemma lookup_spec : forall t n, lookup (to_upper t) = Some n <-> names_signal t n.
Proof.
  intros t n. rewrite names_upper. apply find_assoc. vm_compute.
  repeat (constructor; [intros X; repeat (destruct X as [X|X]; [discriminate|]); contradiction|]). constructor.
Qed.

Lemma lookup_none : forall t, (forall n, ~ names_signal t n) -> lookup (to_upper t) = None.
Proof.
  intros t H. destruct (lookup (to_upper t)) as [n|] eqn:E; auto. apply lookup_spec in E. now apply H in E.
Qed.

Lemma not_l : forall a t, a <> "l"%char -> beqb ("-"%char :: a :: t) (B "-l") = false.
Proof.
  intros. apply beqb_neq. intros E. change (B "-l") with ["-"%char; "l"%char] in E. congruence.
Qed.

Lemma numeral_not : forall t n, numeral t n -> t <> [] /\ t <> B "l" /\ t <> B "s".
Proof.
  intros t n H. apply parse_dec_spec in H. repeat split; intros ->; vm_compute in H; discriminate.
Qed.

Lemma no_dash_opts : forall t, hd nl t <> "-"%char -> beqb t (B "-l") = false /\ beqb t (B "-s") = false.
Proof. intros t H. split; apply beqb_neq; intros ->; apply H; reflexivity. Qed.

Lemma dash_opts : forall t, t <> B "l" -> t <> B "s" ->
  beqb (B "-" ++ t) (B "-l") = false /\ beqb (B "-" ++ t) (B "-s") = false.
Proof.
  intros t H1 H2. change (B "-" ++ t) with ("-"%char :: t).
  change (B "-l") with ("-"%char :: B "l"). change (B "-s") with ("-"%char :: B "s").
  split; apply beqb_neq; congruence.
Qed.

Lemma parse_step : forall i r s p, item_ok i ->
  parse_args (render [i] ++ r) s p =
  parse_args r (match i with Name _ n => n | Number _ n => n | _ => s end)
               (match i with Pid _ q => q | _ => p end).
Proof.
  intros [|t n|t n|t q] r s p H; cbn [render flat_map app].
  - reflexivity.
  - cbn [parse_args]. change (beqb (B "-s") (B "-l")) with false. rewrite beqb_refl. cbv iota.
    apply lookup_spec in H. now rewrite H.
  - destruct H as [H R]. destruct (numeral_not _ _ H) as (N1&N2&N3).
    destruct (dash_opts t) as [D1 D2]; auto.
    cbn [parse_args]. rewrite D1, D2. change (B "-" ++ t) with ("-"%char :: t).
    cbv iota beta. rewrite Ascii.eqb_refl. assert (E : atoi t = Some n) by (apply atoi_spec; auto). now rewrite E.
  - destruct H as (H&R&Hd). destruct (numeral_not _ _ H) as (N1&_). destruct (no_dash_opts t Hd) as [D1 D2].
    cbn [parse_args]. rewrite D1, D2. destruct t as [|c t]; [congruence|].
    assert (E : atoi (c :: t) = Some q) by (apply atoi_spec; auto). rewrite E.
    cbn [hd] in Hd. apply Ascii.eqb_neq in Hd. now rewrite Hd.
Qed.

Lemma parse_render : forall l r s p, Forall item_ok l ->
  parse_args (render l ++ r) s p =
  parse_args r (fold_left (fun acc i => match i with Name _ n => n | Number _ n => n | _ => acc end) l s)
               (fold_left (fun acc i => match i with Pid _ p => p | _ => acc end) l p).
Proof.
  induction l as [|i l IH]; intros r s p H; [reflexivity|]. inversion H; subst.
  change (render (i :: l)) with (render [i] ++ render l) at 1 || idtac.
  replace (render (i :: l) ++ r) with (render [i] ++ (render l ++ r)).
  - rewrite parse_step by auto. rewrite IH by auto. reflexivity.
  - unfold render. cbn [flat_map]. now rewrite app_nil_r, app_assoc.
Qed.

Lemma parse_bad : forall r m s p, bad_tail r m -> parse_args r s p = Bad m.
Proof.
  intros r m s p [t r' H|t r' H1 H2 H|t r' H1 H2 H].
  - cbn [parse_args]. change (beqb (B "-s") (B "-l")) with false. rewrite beqb_refl. cbv iota.
    rewrite lookup_none by auto. reflexivity.
  - cbn [parse_args]. rewrite (proj2 (beqb_neq _ _) H1), (proj2 (beqb_neq _ _) H2).
    change (B "-" ++ t) with ("-"%char :: t). cbv iota beta. rewrite Ascii.eqb_refl.
    assert (E : atoi t = None) by (apply atoi_none; intros (z&Z1&Z2); eapply H; eauto). rewrite E. reflexivity.
  - cbn [parse_args]. destruct (no_dash_opts t H2) as [-> ->].
    destruct t as [|c t]; [congruence|]. cbn [hd] in H2. apply Ascii.eqb_neq in H2. rewrite H2.
    assert (E : atoi (c :: t) = None) by (apply atoi_none; intros (z&Z1&Z2); eapply H; eauto). rewrite E. reflexivity.
Qed.

Lemma kill_bad : forall ke l r m, Forall item_ok l -> bad_tail r m ->
  kill_main ke (render l ++ r) = {| run := {| out := []; errout := m; fin := Exit 2 |}; signals := [] |}.
Proof.
  intros ke l r m H R. unfold kill_main. rewrite parse_render by auto. now rewrite (parse_bad r m).
Qed.
Lemma kill_crash : forall ke l r, Forall item_ok l -> crash_tail r ->
  kill_main ke (render l ++ r) = {| run := {| out := []; errout := []; fin := Panicked |}; signals := [] |}.
Proof.
  intros ke l r H R. unfold kill_main. rewrite parse_render by auto. destruct R; reflexivity.
Qed.

Lemma kill_ok : forall ke l, Forall item_ok l -> (0 < last_pid l)%Z ->
  signals (kill_main ke (render l)) = [(last_pid l, 9%Z)] /\
  run (kill_main ke (render l)) =
    let said := B "sending " ++ itoa (wanted l) ++ B " to " ++ itoa (last_pid l) ++ [nl] in
    match ke (last_pid l) with
    | None => {| out := said ++ B "vim-go" ++ [nl]; errout := []; fin := Exit 0 |}
    | Some e => {| out := said; errout := B "couldn't send signal " ++ itoa (wanted l) ++ B " to " ++
                     itoa (last_pid l) ++ B ", " ++ e; fin := Exit 2 |}
    end.
Proof.
  intros ke l H P. unfold kill_main. rewrite <- (app_nil_r (render l)), parse_render by auto.
  cbn [parse_args]. fold (wanted l). fold (last_pid l). unfold process_kill.
  replace (last_pid l =? -1)%Z with false by lia. replace (last_pid l =? 0)%Z with false by lia.
  destruct (ke (last_pid l)); split; reflexivity.
Qed.

Lemma kill_nopid : forall ke l, Forall item_ok l -> last_pid l = 0%Z ->
  kill_main ke (render l) =
    {| run := {| out := B "sending " ++ itoa (wanted l) ++ B " to 0" ++ [nl];
                 errout := B "couldn't send signal " ++ itoa (wanted l) ++ B " to 0, os: process not initialized";
                 fin := Exit 2 |}; signals := [] |}.
Proof.
  intros ke l H P. unfold kill_main. rewrite <- (app_nil_r (render l)), parse_render by auto.
  cbn [parse_args]. fold (wanted l). fold (last_pid l). rewrite P. reflexivity.
Qed.

(* every argument list is valid, or has a bad or a fatal tail *)
Lemma args_total : forall args, exists l r, Forall item_ok l /\ args = render l ++ r /\
  (r = [] \/ (exists m, bad_tail r m) \/ crash_tail r).
Proof.
  assert (G : forall n args, length args <= n -> exists l r, Forall item_ok l /\ args = render l ++ r /\
    (r = [] \/ (exists m, bad_tail r m) \/ crash_tail r)).
  { assert (Q : forall t n, atoi t = None -> numeral t n -> ~ is_int64 n).
    { intros t n E N I. rewrite (proj2 (atoi_spec t n)) in E; [discriminate|]. auto. }
    induction n as [|n IH]; intros [|a r] L; cbn [length] in L; try lia.
    1,2: exists [], []; split; [constructor|split; [reflexivity|now left]].
    destruct (beqb a (B "-l")) eqn:E1.
    { apply beqb_eq in E1. subst a. destruct (IH r) as (l&r'&H&->&D); [lia|]. exists (ListOpt :: l), r'.
      split; [constructor; [exact I|auto]|]. split; [reflexivity|auto]. }
    destruct (beqb a (B "-s")) eqn:E2.
    { apply beqb_eq in E2. subst a. destruct r as [|t r].
      - exists [], [B "-s"]. split; [constructor|]. split; [reflexivity|]. right. right. constructor.
      - destruct (lookup (to_upper t)) as [k|] eqn:K.
        + destruct (IH r) as (l&r'&H&->&D); [cbn [length] in L; lia|]. exists (Name t k :: l), r'.
          split; [constructor; [now apply lookup_spec|auto]|]. split; [reflexivity|auto].
        + exists [], (B "-s" :: t :: r). split; [constructor|]. split; [reflexivity|]. right. left. eexists.
          apply bad_name. intros k Hk. apply lookup_spec in Hk. congruence. }
    apply beqb_neq in E1. apply beqb_neq in E2.
    destruct a as [|c t].
    { exists [], ([] :: r). split; [constructor|]. split; [reflexivity|]. right. right. constructor. }
    destruct (Ascii.eqb c "-") eqn:E3.
    - apply Ascii.eqb_eq in E3. subst c. destruct (atoi t) as [k|] eqn:K.
      + destruct (IH r) as (l&r'&H&->&D); [lia|]. exists (Number t k :: l), r'.
        split; [constructor; [now apply atoi_spec|auto]|]. split; [reflexivity|auto].
      + exists [], (("-"%char :: t) :: r). split; [constructor|]. split; [reflexivity|]. right. left. eexists.
        apply (bad_number t r E1 E2). intros z. now apply Q.
    - destruct (atoi (c :: t)) as [k|] eqn:K.
      + destruct (IH r) as (l&r'&H&->&D); [lia|]. exists (Pid (c :: t) k :: l), r'.
        split; [constructor; [|auto]|].
        { apply atoi_spec in K as [K1 K2]. repeat split; auto; try apply K2. cbn [hd]. now apply Ascii.eqb_neq. }
        split; [reflexivity|auto].
      + exists [], ((c :: t) :: r). split; [constructor|]. split; [reflexivity|]. right. left. eexists.
        apply bad_pid; [discriminate|cbn [hd]; now apply Ascii.eqb_neq|]. intros z. now apply Q. }
  intros args. exact (G (length args) args (le_n _)).
Qed.

(* every argument list that parses is of the valid form *)
Lemma parse_inv : forall args s p s' p', parse_args args s p = Parsed s' p' ->
  exists l, Forall item_ok l /\ args = render l.
Proof.
  assert (G : forall n args s p s' p', length args <= n -> parse_args args s p = Parsed s' p' ->
    exists l, Forall item_ok l /\ args = render l).
  { induction n as [|n IH]; intros [|a r] s p s' p' L E; cbn [length] in L; try lia.
    1,2: exists []; split; [constructor|reflexivity].
    cbn [parse_args] in E. destruct (beqb a (B "-l")) eqn:E1.
    { apply beqb_eq in E1. subst a. apply IH in E as (l&H&->); [|lia]. exists (ListOpt :: l).
      split; [constructor; [exact I|auto]|reflexivity]. }
    destruct (beqb a (B "-s")) eqn:E2.
    { apply beqb_eq in E2. subst a. destruct r as [|t r]; [discriminate|].
      destruct (lookup (to_upper t)) as [k|] eqn:K; [|discriminate].
      apply IH in E as (l&H&->); [|cbn [length] in L; lia]. exists (Name t k :: l).
      split; [constructor; [now apply lookup_spec|auto]|reflexivity]. }
    destruct a as [|c t]; [discriminate|]. destruct (Ascii.eqb c "-") eqn:E3.
    - apply Ascii.eqb_eq in E3. subst c. destruct (atoi t) as [k|] eqn:K; [|discriminate].
      apply IH in E as (l&H&->); [|lia]. exists (Number t k :: l).
      split; [constructor; [now apply atoi_spec|auto]|reflexivity].
    - destruct (atoi (c :: t)) as [k|] eqn:K; [|discriminate].
      apply IH in E as (l&H&->); [|lia]. exists (Pid (c :: t) k :: l).
      split; [constructor; [|auto]|reflexivity]. apply atoi_spec in K as [K1 K2]. repeat split; auto; try apply K2.
      cbn [hd]. now apply Ascii.eqb_neq. }
  intros. eapply G; eauto.
Qed.

Lemma last_pid_nonneg : forall l, Forall item_ok l -> (0 <= last_pid l)%Z.
Proof.
  intros l H. unfold last_pid.
  assert (G : forall l p, Forall item_ok l -> (0 <= p)%Z ->
    (0 <= fold_left (fun acc i => match i with Pid _ p => p | _ => acc end) l p)%Z).
  { induction l0 as [|i l0 IH]; intros p F P; auto. inversion F; subst. cbn [fold_left]. apply IH; auto.
    destruct i as [| | |t q]; auto. destruct H2 as ((sgn&ds&->&_&_&[[_ ->]|[-> ->]])&_&Hd); [lia|].
    exfalso. apply Hd. reflexivity. }
  apply G; auto. lia.
Qed.

Lemma kill_sends : forall ke args x, In x (signals (kill_main ke args)) ->
  exists l, Forall item_ok l /\ args = render l /\ (0 < last_pid l)%Z /\ x = (last_pid l, 9%Z).
Proof.
  intros ke args x H. unfold kill_main in H. destruct (parse_args args 15 0) as [s p|m|] eqn:E; try contradiction.
  destruct (parse_inv _ _ _ _ _ E) as (l&F&->). exists l. split; auto. split; auto.
  rewrite <- (app_nil_r (render l)), parse_render in E by auto. cbn [parse_args] in E. injection E as _ <-.
  fold (last_pid l) in H. pose proof (last_pid_nonneg l F) as P. unfold process_kill in H.
  destruct (last_pid l =? -1)%Z eqn:E1; [lia|]. destruct (last_pid l =? 0)%Z eqn:E2; [contradiction|].
  destruct (ke (last_pid l)); destruct H as [<-|[]]; split; auto; lia.
Qed.
