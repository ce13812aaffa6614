From Verif Require RuneFacts.
From Verif Require Import GoBase GoFacts NumFacts Utf8Facts LocaleModel LocaleSpec.

Lemma beqb_spec : forall a b, reflect (a = b) (beqb a b).
Proof. intros a b. destruct (beqb a b) eqn:E; constructor; [now apply beqb_eq|now apply beqb_neq]. Qed.

(* ---- C46 ---- *)
Lemma getVal_shows : forall env var, shows env var (getVal (FromEnv env) (env var)).
Proof.
  intros env var. unfold getVal. cbn [l_all l_lang FromEnv].
  destruct (beqb_spec (env (B "LC_ALL")) []) as [E|E]; cbn [negb].
  - destruct (beqb_spec (env var) []) as [E2|E2]; cbn [negb]; [now apply sh_lang|now apply sh_own].
  - now apply sh_all.
Qed.
Lemma report_string : forall env, reports env (locale_string (FromEnv env)).
Proof.
  intros env. exists (map (fun c => getVal (FromEnv env) (env c)) categories). split.
  - unfold categories. cbn [map]. repeat (constructor; [apply getVal_shows|]). constructor.
  - unfold locale_string, categories, assignment, quoted, dq.
    cbn [map combine concat flat_map l_lang l_collate l_ctype l_messages l_monetary l_numeric l_time l_all FromEnv].
    rewrite ?List.app_nil_r. change ("034"%char :: env (B "LANG") ++ ["034"%char]) with (["034"%char] ++ env (B "LANG") ++ ["034"%char]).
    rewrite <- !List.app_assoc. reflexivity.
Qed.
Lemma printf_plain : forall b f, (List.length b <= f)%nat -> ~ In "%"%char b -> printf_noargs f b = Some b.
Proof.
  induction b as [|c b IH]; intros f L H.
  - destruct f; reflexivity.
  - destruct f as [|f]; [cbn in L; lia|]. cbn [printf_noargs]. cbn [In length] in *.
    destruct (Ascii.eqb_spec c "%"); [subst; tauto|]. rewrite IH by (try lia; tauto). reflexivity.
Qed.

Lemma no_percent_report : forall env, (forall v, In v variables -> ~ In "%"%char (env v)) ->
  ~ In "%"%char (locale_string (FromEnv env)).
Proof.
  intros env H.
  assert (D : ~ In "%"%char dq) by (cbn; intros [X|[]]; discriminate).
  assert (G : forall v, In v variables -> ~ In "%"%char (getVal (FromEnv env) (env v))).
  { intros v Hv. unfold getVal. cbn [l_all l_lang FromEnv].
    assert (HA : ~ In "%"%char (env (B "LC_ALL"))) by (apply H; cbn; tauto).
    assert (HL : ~ In "%"%char (env (B "LANG"))) by (apply H; cbn; tauto).
    destruct (negb _); [|destruct (negb _); [now apply H|]]; rewrite !in_app_iff; tauto. }
  unfold locale_string.
  cbn [flat_map l_lang l_collate l_ctype l_messages l_monetary l_numeric l_time l_all FromEnv].
  assert (N1 : ~ In "%"%char [nl]) by (cbn; intros [X|[]]; discriminate).
  assert (HA : ~ In "%"%char (env (B "LC_ALL"))) by (apply H; cbn; tauto).
  assert (HL : ~ In "%"%char (env (B "LANG"))) by (apply H; cbn; tauto).
  assert (L : forall s, forallb (fun c => negb (Ascii.eqb c "%")) s = true -> ~ In "%"%char s).
  { intros s Q I. rewrite forallb_forall in Q. apply Q in I. discriminate. }
  assert (A : forall x y, ~ In "%"%char x -> ~ In "%"%char y -> ~ In "%"%char (x ++ y)).
  { intros x y X Y Q. apply in_app_or in Q. tauto. }
  repeat apply A; try assumption; try (apply L; reflexivity); try (apply G; cbn; tauto).
Qed.

Lemma printf_pair : forall f r, printf_noargs (S f) ("%"%char :: "%"%char :: r) =
  match printf_noargs f r with Some t => Some (B "%" ++ t) | None => None end.
Proof. reflexivity. Qed.
Lemma printf_doubled : forall b f, (List.length (doubled b) <= f)%nat -> printf_noargs f (doubled b) = Some b.
Proof.
  induction b as [|c b IH]; intros f L; [destruct f; reflexivity|].
  cbn [doubled] in *. destruct (Ascii.eqb_spec c "%") as [->|N].
  - destruct f as [|f]; [cbn in L; lia|]. cbn [length] in L. rewrite printf_pair, IH by lia. reflexivity.
  - destruct f as [|f]; [cbn in L; lia|]. cbn [length] in L. cbn [printf_noargs].
    destruct (Ascii.eqb_spec c "%"); [contradiction|]. rewrite IH by lia. reflexivity.
Qed.
Lemma doubled_app : forall a b, doubled (a ++ b) = doubled a ++ doubled b.
Proof. induction a as [|c a IH]; intros b; [reflexivity|]. cbn [app doubled]. rewrite IH. now destruct (Ascii.eqb c "%"). Qed.
Lemma doubled_nil : forall a, beqb (doubled a) [] = beqb a [].
Proof. intros [|c a]; [reflexivity|]. cbn [doubled]. now destruct (Ascii.eqb c "%"). Qed.
Lemma getVal_doubled : forall env var,
  getVal (FromEnv (fun v => doubled (env v))) (doubled (env var)) = doubled (getVal (FromEnv env) (env var)).
Proof.
  intros env var. unfold getVal. cbn [l_all l_lang FromEnv]. rewrite !doubled_nil.
  destruct (negb _); [|destruct (negb _); [reflexivity|]]; rewrite !doubled_app; reflexivity.
Qed.
Lemma report_doubled : forall env,
  locale_string (FromEnv (fun v => doubled (env v))) = doubled (locale_string (FromEnv env)).
Proof.
  intros env. unfold locale_string.
  cbn [flat_map l_collate l_ctype l_messages l_monetary l_numeric l_time FromEnv].
  rewrite !getVal_doubled. cbn [l_lang l_all FromEnv]. rewrite !doubled_app. reflexivity.
Qed.

(* ---- eras ---- *)
Lemma era_split : forall dir off s e n fmt, no_colon dir -> no_colon off -> no_colon s -> no_colon e -> no_colon n ->
  split_on ":"%char (era_text dir off s e n fmt) = dir :: off :: s :: e :: n :: split_on ":"%char fmt.
Proof.
  intros. unfold era_text. change (B ":") with [":"%char]. cbn [app].
  rewrite !split_on_app by auto. reflexivity.
Qed.
Lemma numeral_no_colon : forall t z, numeral t z -> no_colon t.
Proof.
  intros t z (sgn&ds&->&_&F&S) H. apply in_app_or in H as [H|H].
  - destruct S as [[[-> | ->] _]|[-> _]]; cbn in H; intuition discriminate.
  - rewrite Forall_forall in F. apply F in H. unfold is_dec_digit in H. vm_compute in H. destruct H as [_ H]. now apply H.
Qed.
Lemma split_length : forall c b, length (split_on c b) = S (count_occ ascii_dec b c).
Proof.
  induction b as [|x b IH]; [reflexivity|]. cbn [split_on]. destruct (Ascii.eqb_spec x c).
  - subst. rewrite count_occ_cons_eq by auto. cbn [length]. now rewrite IH.
  - rewrite count_occ_cons_neq by auto. pose proof (split_on_nonempty c b). destruct (split_on c b); [contradiction|]. exact IH.
Qed.

(* ---- C49: UTF-8 facts ---- *)
Lemma decode_rune_pos : forall c b, 0 < snd (decode_rune (c :: b)).
Proof.
  intros c b. unfold decode_rune.
  repeat match goal with |- context [if ?x then _ else _] => destruct x | |- context [match ?x with [] => _ | _ => _ end] => destruct x end;
    cbn; lia.
Qed.
Lemma enc_app : forall a b, string_of_runes (a ++ b) = string_of_runes a ++ string_of_runes b.
Proof. intros. unfold string_of_runes. apply flat_map_app. Qed.
Lemma enc_one : forall r, string_of_runes [r] = encode_rune r.
Proof. intros. unfold string_of_runes. cbn. apply List.app_nil_r. Qed.
Lemma enc_cons : forall r l, string_of_runes (r :: l) = encode_rune r ++ string_of_runes l.
Proof. reflexivity. Qed.
Lemma enc_nil_inv : forall l, string_of_runes l = [] -> l = [].
Proof.
  intros [|r l] H; auto. rewrite enc_cons in H. apply app_eq_nil in H as [H _]. now apply encode_nonempty in H.
Qed.

Lemma byte_val_high : forall n, (n < 256)%N -> byte_val (ascii_of_N n) = n.
Proof. intros. now apply byte_val_of_N. Qed.

Lemma decode_last_encode : forall b r, valid_rune r ->
  decode_last_rune (b ++ encode_rune r) = (r, length (encode_rune r)).
Proof.
  intros b r V. pose proof (decode_encode r [] V) as D. rewrite List.app_nil_r in D.
  unfold decode_last_rune. rewrite rev_app_distr.
  assert (S : forall k, k = length (encode_rune r) ->
     skipn (length (b ++ encode_rune r) - k) (b ++ encode_rune r) = encode_rune r).
  { intros k ->. rewrite List.app_length, Nat.add_sub. apply skipn_len_app. }
  revert S D. unfold encode_rune.
  assert (RS : forall x, (128 <= x <= 191)%N -> rune_start (ascii_of_N x) = false).
  { intros x Hx. unfold rune_start. rewrite in_range_of_N by lia. lia. }
  assert (RT : forall x, (192 <= x < 256)%N -> rune_start (ascii_of_N x) = true).
  { intros x Hx. unfold rune_start. rewrite in_range_of_N by lia. lia. }
  destruct V as [V|V].
  - destruct (r <? 128)%N eqn:E1.
    + intros _ _. cbn [rev app length]. rewrite byte_val_high by lia. now rewrite E1.
    + destruct (r <? 2048)%N eqn:E2.
      * assert (r / 64 < 32)%N by (apply N.div_lt_upper_bound; lia). pose proof (mod64 r). pose proof (N.div_le_lower_bound r 64 2 ltac:(lia) ltac:(lia)).
        intros S D. cbn [rev app length] in *. rewrite byte_val_high by lia.
        replace (128 + r mod 64 <? 128)%N with false by lia.
        cbn [last_len]. rewrite RT by lia. rewrite S, D by reflexivity. reflexivity.
      * replace ((55296 <=? r) && (r <=? 57343))%N with false by lia. replace (r <? 65536)%N with true by lia.
        assert (r / 4096 < 16)%N by (apply N.div_lt_upper_bound; lia).
        pose proof (mod64 r). pose proof (mod64 (r / 64)).
        intros S D. cbn [rev app length] in *. rewrite byte_val_high by lia.
        replace (128 + r mod 64 <? 128)%N with false by lia.
        cbn [last_len]. rewrite RS, RT by lia. rewrite S, D by reflexivity. reflexivity.
  - replace (r <? 128)%N with false by lia. replace (r <? 2048)%N with false by lia.
    replace ((55296 <=? r) && (r <=? 57343))%N with false by lia.
    pose proof (mod64 r). pose proof (mod64 (r / 64)). pose proof (mod64 (r / 4096)).
    destruct (r <? 65536)%N eqn:E3.
    + assert (r / 4096 < 16)%N by (apply N.div_lt_upper_bound; lia).
      intros S D. cbn [rev app length] in *. rewrite byte_val_high by lia.
      replace (128 + r mod 64 <? 128)%N with false by lia.
      cbn [last_len]. rewrite RS, RT by lia. rewrite S, D by reflexivity. reflexivity.
    + replace (r <? 1114112)%N with true by lia.
      assert (r / 262144 < 5)%N by (apply N.div_lt_upper_bound; lia).
      intros S D. cbn [rev app length] in *. rewrite byte_val_high by lia.
      replace (128 + r mod 64 <? 128)%N with false by lia.
      cbn [last_len]. rewrite !RS, RT by lia. rewrite S, D by reflexivity. reflexivity.
Qed.

Lemma enc_length_pos : forall r, 0 < length (encode_rune r).
Proof. intros r. pose proof (encode_nonempty r). destruct (encode_rune r); [contradiction|cbn; lia]. Qed.

(* fields *)
Lemma fields_step : forall r b f cur, valid_rune r -> fields_from (S f) cur (encode_rune r ++ b) =
  if is_space_rune r
  then match cur with Some x => x :: fields_from f None b | None => fields_from f None b end
  else fields_from f (Some (match cur with Some x => x | None => [] end ++ encode_rune r)) b.
Proof.
  intros r b f cur V. pose proof (decode_encode r b V) as D.
  destruct (encode_rune r ++ b) as [|c t] eqn:E.
  { apply app_eq_nil in E as [E _]. now apply encode_nonempty in E. }
  cbn [fields_from]. rewrite D, <- E, skipn_len_app, firstn_app, firstn_all, Nat.sub_diag, firstn_O, List.app_nil_r.
  reflexivity.
Qed.
Fixpoint rfields (cur : option bytes) (l : list N) : list bytes :=
  match l with
  | [] => match cur with Some x => [x] | None => [] end
  | r :: t =>
      if is_space_rune r then match cur with Some x => x :: rfields None t | None => rfields None t end
      else rfields (Some (match cur with Some x => x | None => [] end ++ encode_rune r)) t
  end.
Lemma fields_runes : forall l f cur, Forall valid_rune l -> length (string_of_runes l) <= f ->
  fields_from f cur (string_of_runes l) = rfields cur l.
Proof.
  induction l as [|r l IH]; intros f cur V L.
  - destruct f; reflexivity.
  - inversion V; subst. rewrite enc_cons in *. rewrite List.app_length in L. pose proof (enc_length_pos r).
    destruct f as [|f]; [lia|]. rewrite fields_step by auto. cbn [rfields].
    destruct (is_space_rune r); [destruct cur|]; rewrite IH by (auto; lia); reflexivity.
Qed.
Lemma rfields_word : forall w cur l, Forall (fun r => ~ space r) w -> w <> [] ->
  rfields cur (w ++ l) = rfields (Some (match cur with Some x => x | None => [] end ++ string_of_runes w)) l.
Proof.
  induction w as [|r w IH]; intros cur l F Ne; [contradiction|]. inversion F; subst. cbn [app rfields].
  unfold space in H1. destruct (is_space_rune r); [congruence|]. destruct w as [|r' w].
  - cbn [app]. rewrite enc_one. reflexivity.
  - rewrite IH by (auto; discriminate). rewrite <- List.app_assoc, <- enc_cons. reflexivity.
Qed.
Lemma rfields_spaces_none : forall sp l, Forall space sp -> rfields None (sp ++ l) = rfields None l.
Proof.
  induction sp as [|r sp IH]; intros l F; auto. inversion F; subst. cbn [app rfields]. unfold space in H1. rewrite H1. auto.
Qed.
Lemma rfields_spaces_some : forall sp x l, Forall space sp -> sp <> [] -> rfields (Some x) (sp ++ l) = x :: rfields None l.
Proof.
  intros [|r sp] x l F Ne; [contradiction|]. inversion F; subst. cbn [app rfields]. unfold space in H1. rewrite H1.
  now rewrite rfields_spaces_none.
Qed.
Lemma rfields_two : forall w0 a w b, Forall (fun r => ~ space r) w0 -> w0 <> [] -> directive_ok a w b ->
  rfields None (w0 ++ a ++ w ++ b) = [string_of_runes w0; string_of_runes w].
Proof.
  intros w0 a w b F0 N0 (Na&Fa&Fb&Nw&Fw).
  rewrite rfields_word, rfields_spaces_some, rfields_word by auto. cbn [app].
  destruct b as [|r b]; [reflexivity|]. rewrite <- (List.app_nil_r (r :: b)).
  rewrite rfields_spaces_some by (auto; discriminate). reflexivity.
Qed.

Lemma decode_head : forall l, Forall valid_rune l -> fst (decode_rune (string_of_runes l)) = hd rune_error l.
Proof.
  intros [|r l] V; [reflexivity|]. inversion V; subst. rewrite enc_cons, decode_encode by auto. reflexivity.
Qed.

(* directives *)
Definition ascii_word (w : list N) : Prop := Forall (fun r => (r < 128)%N /\ ~ space r) w /\ w <> [].
Lemma directive_glued : forall w0 rest a w b, ascii_word w0 -> Forall (fun r => ~ space r) rest -> Forall valid_rune (w0 ++ rest ++ a ++ w ++ b) ->
  directive_ok a w b -> checkSpecialWord (string_of_runes (w0 ++ rest ++ a ++ w ++ b)) (string_of_runes w0) = Some (hd 0%N w).
Proof.
  intros w0 rest a w b [F N0] Fr V D. unfold checkSpecialWord.
  rewrite enc_app at 1. rewrite firstn_app, firstn_all, Nat.sub_diag, firstn_O, List.app_nil_r, beqb_refl.
  unfold Fields. rewrite fields_runes by auto. rewrite (List.app_assoc w0 rest) in *.
  rewrite rfields_two; auto.
  - rewrite decode_head.
    + destruct D as (_&_&_&Nw&_). destruct w; [contradiction|reflexivity].
    + apply Forall_app in V as [_ V]. apply Forall_app in V as [_ V]. now apply Forall_app in V.
  - apply Forall_app. split; [eapply Forall_impl; [|exact F]; cbv beta; tauto|exact Fr].
  - destruct w0; [contradiction|discriminate].
Qed.
Lemma directive_check : forall w0 a w b, ascii_word w0 -> Forall valid_rune (w0 ++ a ++ w ++ b) -> directive_ok a w b ->
  checkSpecialWord (string_of_runes (w0 ++ a ++ w ++ b)) (string_of_runes w0) = Some (hd 0%N w).
Proof. intros w0 a w b W V D. exact (directive_glued w0 [] a w b W (Forall_nil _) V D). Qed.
Lemma rfields_nil : forall l, rfields None l = [] -> Forall space l.
Proof.
  assert (Q : forall l x, rfields (Some x) l <> []).
  { induction l as [|r l IH]; intros x H; [discriminate|]. cbn [rfields] in H. destruct (is_space_rune r); [discriminate|]. now apply IH in H. }
  induction l as [|r l IH]; intros H; [constructor|]. cbn [rfields] in H. destruct (is_space_rune r) eqn:E; [constructor; auto|]. now apply Q in H.
Qed.
Lemma rfields_some_one : forall l x y, rfields (Some x) l = [y] -> exists u b, l = u ++ b /\ Forall (fun r => ~ space r) u /\ Forall space b.
Proof.
  induction l as [|r l IH]; intros x y H; [exists [], []; repeat split; constructor|]. cbn [rfields] in H. destruct (is_space_rune r) eqn:E.
  - injection H as _ H. exists [], (r :: l). repeat split; [constructor|]. constructor; [exact E|now apply rfields_nil].
  - destruct (IH _ _ H) as (u&b&->&U1&U2). exists (r :: u), b. repeat split; auto. constructor; auto. unfold space. congruence.
Qed.
Lemma rfields_one : forall l y, rfields None l = [y] -> exists a u b, l = a ++ u ++ b /\ Forall space a /\ u <> [] /\ Forall (fun r => ~ space r) u /\ Forall space b.
Proof.
  induction l as [|r l IH]; intros y H; [discriminate|]. cbn [rfields] in H. destruct (is_space_rune r) eqn:E.
  - destruct (IH _ H) as (a&u&b&->&A&U&Q). exists (r :: a), u, b. repeat split; try tauto. now constructor.
  - destruct (rfields_some_one _ _ _ H) as (u&b&->&U1&U2). exists [], (r :: u), b. repeat split; auto; [discriminate|].
    constructor; auto. unfold space. congruence.
Qed.
Lemma span_word : forall l, exists u t, l = u ++ t /\ Forall (fun r => ~ space r) u /\ match t with [] => True | r :: _ => space r end.
Proof.
  induction l as [|r l IH]; [exists [], []; repeat split; constructor|]. destruct (is_space_rune r) eqn:E.
  - exists [], (r :: l). repeat split; [constructor|exact E].
  - destruct IH as (u&t&->&U&T). exists (r :: u), t. repeat split; auto. constructor; auto. unfold space. congruence.
Qed.
Lemma enc_prefix : forall w l, Forall valid_rune w -> Forall valid_rune l ->
  firstn (length (string_of_runes w)) (string_of_runes l) = string_of_runes w -> begins_with w l.
Proof.
  intros w l Vw Vl H. exists (runes_of (skipn (length (string_of_runes w)) (string_of_runes l))).
  rewrite <- runes_of_app by auto. rewrite <- H at 1. rewrite firstn_skipn. now rewrite runes_of_string.
Qed.
Lemma not_directive : forall w l, ascii_word w -> Forall valid_rune w -> Forall valid_rune l -> ~ directive_line w l ->
  checkSpecialWord (string_of_runes l) (string_of_runes w) = None.
Proof.
  intros w l [F0 N0] Vw Vl H. unfold checkSpecialWord. destruct (beqb _ _) eqn:E; auto.
  apply beqb_eq in E. apply enc_prefix in E; auto. destruct E as (l'&->). unfold Fields. rewrite fields_runes by auto.
  assert (F : Forall (fun r => ~ space r) w) by (eapply Forall_impl; [|exact F0]; cbv beta; tauto).
  destruct (span_word l') as (rest&t&->&Fr&T). rewrite List.app_assoc, rfields_word;
    [|apply Forall_app; now split|destruct w; [contradiction|discriminate]].
  destruct t as [|r t]; [reflexivity|]. cbn [rfields]. unfold space in T. rewrite T.
  destruct (rfields None t) as [|x [|y z]] eqn:R; auto. exfalso. apply H.
  destruct (rfields_one _ _ R) as (a&u&b&->&A&U1&U2&Q). exists rest, (r :: a), u, b. split; [reflexivity|]. split; [exact Fr|].
  repeat split; auto. discriminate.
Qed.
Lemma directive_begins : forall w l, directive_line w l -> begins_with w l.
Proof. intros w l (rest&a&u&b&->&_). now exists (rest ++ a ++ u ++ b). Qed.

(* trimming *)
Lemma trim_left_runes : forall sp l f, Forall space sp -> Forall valid_rune (sp ++ l) ->
  length (string_of_runes (sp ++ l)) <= f -> match l with [] => True | r :: _ => ~ space r end ->
  trim_left f (string_of_runes (sp ++ l)) = string_of_runes l.
Proof.
  induction sp as [|r sp IH]; intros l f F V L H.
  - cbn [app] in *. destruct l as [|r l]; [destruct f; reflexivity|]. inversion V; subst.
    destruct f as [|f]; [reflexivity|]. rewrite enc_cons. pose proof (decode_encode r (string_of_runes l) H2) as D.
    destruct (encode_rune r ++ string_of_runes l) as [|c t] eqn:E; auto.
    cbn [trim_left]. rewrite D. unfold space in H. now destruct (is_space_rune r).
  - cbn [app] in *. inversion F as [|? ? Sr Fr]; subst. inversion V as [|? ? Vr Vl]; subst.
    rewrite enc_cons in *. rewrite List.app_length in L. pose proof (enc_length_pos r).
    destruct f as [|f]; [lia|]. pose proof (decode_encode r (string_of_runes (sp ++ l)) Vr) as D.
    destruct (encode_rune r ++ string_of_runes (sp ++ l)) as [|c t] eqn:E.
    { apply app_eq_nil in E as [E _]. now apply encode_nonempty in E. }
    cbn [trim_left]. rewrite D. unfold space in Sr. rewrite Sr, <- E, skipn_len_app. apply IH; auto. lia.
Qed.
Lemma trim_right_runes : forall sp l f, Forall space sp -> Forall valid_rune (l ++ sp) ->
  length (string_of_runes (l ++ sp)) <= f -> (l <> [] -> ~ space (last l 0%N)) ->
  trim_right f (string_of_runes (l ++ sp)) = string_of_runes l.
Proof.
  intros sp. induction sp as [|r sp IH] using rev_ind; intros l f F V L H.
  - rewrite List.app_nil_r in *. destruct l as [|x l] using rev_ind; [destruct f; reflexivity|]. clear IHl.
    apply Forall_app in V as [_ V]. inversion V as [|? ? Vx _]; subst. specialize (H ltac:(destruct l; discriminate)). rewrite last_last in H.
    destruct f as [|f]; [reflexivity|]. rewrite enc_app, enc_one. pose proof (decode_last_encode (string_of_runes l) x Vx) as D.
    destruct (string_of_runes l ++ encode_rune x) as [|c t] eqn:E; auto.
    cbn [trim_right]. rewrite D. unfold space in H. now destruct (is_space_rune x).
  - rewrite List.app_assoc in *. apply Forall_app in F as [F1 F2]. inversion F2 as [|? ? Sr _]; subst.
    apply Forall_app in V as [V1 V2]. inversion V2 as [|? ? Vr _]; subst.
    rewrite enc_app, enc_one in *. rewrite List.app_length in L. pose proof (enc_length_pos r).
    destruct f as [|f]; [lia|]. pose proof (decode_last_encode (string_of_runes (l ++ sp)) r Vr) as D.
    destruct (string_of_runes (l ++ sp) ++ encode_rune r) as [|c t] eqn:E.
    { apply app_eq_nil in E as [_ E]. now apply encode_nonempty in E. }
    cbn [trim_right]. rewrite D. unfold space in Sr. rewrite Sr, <- E, List.app_length, Nat.add_sub.
    rewrite firstn_app, firstn_all, Nat.sub_diag, firstn_O, List.app_nil_r. apply IH; auto. lia.
Qed.
Lemma trim_runes : forall a t b, Forall space a -> Forall space b -> trimmed t -> Forall valid_rune (a ++ t ++ b) ->
  TrimSpace (string_of_runes (a ++ t ++ b)) = string_of_runes t.
Proof.
  intros a t b Fa Fb T V. unfold TrimSpace. destruct t as [|r t].
  - cbn [app] in *. rewrite <- (List.app_nil_r (a ++ b)). rewrite trim_left_runes; auto.
    + apply Forall_app. auto.
    + now rewrite List.app_nil_r.
  - rewrite trim_left_runes; auto; [|apply T].
    apply trim_right_runes; auto; [now apply Forall_app in V|]. intros _. apply T.
Qed.

(* continuation lines *)
Lemma join_cont_end : forall ec l rest, Forall text_rune l -> ~ ends_with ec l ->
  join_cont ec (string_of_runes l) rest = Ok (string_of_runes l, rest).
Proof.
  intros ec l rest F H. destruct l as [|r l] using rev_ind; [destruct rest; reflexivity|]. clear IHl.
  apply Forall_app in F as [_ F]. inversion F as [|? ? (V&NE&_) _]; subst.
  rewrite enc_app, enc_one. pose proof (decode_last_encode (string_of_runes l) r V) as D.
  destruct (string_of_runes l ++ encode_rune r) as [|c t] eqn:E; [destruct rest; reflexivity|].
  unfold join_cont. destruct rest as [|n rest]; rewrite D;
    (destruct (N.eqb_spec r rune_error); [contradiction|]); (destruct (N.eqb_spec r ec); [subst; exfalso; apply H; eexists; reflexivity|reflexivity]).
Qed.
Lemma join_cont_step : forall ec l n rest, text_rune ec ->
  join_cont ec (string_of_runes (l ++ [ec])) (n :: rest) = join_cont ec (string_of_runes l ++ TrimSpace n) rest.
Proof.
  intros ec l n rest (V&NE&_). rewrite enc_app, enc_one. pose proof (decode_last_encode (string_of_runes l) ec V) as D.
  destruct (string_of_runes l ++ encode_rune ec) as [|c t] eqn:E.
  { apply app_eq_nil in E as [_ E]. now apply encode_nonempty in E. }
  cbn [join_cont]. rewrite D. destruct (N.eqb_spec ec rune_error); [contradiction|]. rewrite N.eqb_refl. cbn [negb].
  rewrite <- E, List.app_length, Nat.add_sub, firstn_app, firstn_all, Nat.sub_diag, firstn_O, List.app_nil_r. reflexivity.
Qed.
Lemma join_cont_dangling : forall ec l, text_rune ec -> join_cont ec (string_of_runes (l ++ [ec])) [] = Panic.
Proof.
  intros ec l (V&NE&_). rewrite enc_app, enc_one. pose proof (decode_last_encode (string_of_runes l) ec V) as D.
  destruct (string_of_runes l ++ encode_rune ec) as [|c t] eqn:E.
  { apply app_eq_nil in E as [_ E]. now apply encode_nonempty in E. }
  cbn [join_cont]. rewrite D. destruct (N.eqb_spec ec rune_error); [contradiction|]. now rewrite N.eqb_refl.
Qed.

Lemma text_valid : forall l, Forall text_rune l -> Forall valid_rune l.
Proof. intros. eapply Forall_impl; [|eassumption]. intros r [H1 _]. exact H1. Qed.

Lemma join_cont_more : forall ec more acc rest, text_rune ec -> more <> [] ->
  Forall text_rune acc -> Forall (Forall text_rune) (continuation ec more) ->
  ~ ends_with ec (acc ++ texts more) ->
  Forall (fun '(a, t, b) => Forall space a /\ Forall space b) more ->
  Forall (fun '(_, t, _) => trimmed (t ++ [ec])) (removelast more) ->
  match last more ([], [], []) with (_, t, _) => trimmed t end ->
  join_cont ec (string_of_runes (acc ++ [ec])) (map string_of_runes (continuation ec more) ++ rest) =
  Ok (string_of_runes (acc ++ texts more), rest).
Proof.
  intros ec more. induction more as [|[[a t] b] more IH]; intros acc rest He Ne Fa Fc En Fs Ft Fl; [contradiction|].
  inversion Fs as [|? ? S0 Fs']; subst. cbv beta iota in S0. destruct S0 as [Sa Sb]. destruct more as [|m more].
  - cbn [continuation map app] in *. rewrite join_cont_step by auto.
    inversion Fc as [|? ? F1 _]; subst. cbn [last] in Fl. rewrite trim_runes; auto using text_valid.
    unfold texts in *. cbn [map concat] in *. rewrite List.app_nil_r in *. rewrite <- enc_app. apply join_cont_end; auto.
    apply Forall_app in F1 as [_ F1]. apply Forall_app in F1 as [F1 _]. apply Forall_app; auto.
  - change (continuation ec ((a, t, b) :: m :: more)) with ((a ++ t ++ [ec] ++ b) :: continuation ec (m :: more)) in *.
    cbn [map app] in *. rewrite join_cont_step by auto. inversion Fc as [|? ? F1 F2]; subst.
    change (removelast ((a, t, b) :: m :: more)) with ((a, t, b) :: removelast (m :: more)) in Ft.
    inversion Ft as [|? ? T1 T2]; subst. cbv beta iota in T1.
    replace (a ++ t ++ ec :: b) with (a ++ (t ++ [ec]) ++ b) in * by (rewrite <- List.app_assoc; reflexivity).
    rewrite trim_runes; auto using text_valid. rewrite <- enc_app, List.app_assoc.
    change (texts ((a, t, b) :: m :: more)) with (t ++ texts (m :: more)) in *. rewrite List.app_assoc in En.
    rewrite IH; auto.
    + now rewrite List.app_assoc.
    + discriminate.
    + apply Forall_app. split; auto. apply Forall_app in F1 as [_ F1]. apply Forall_app in F1 as [F1 _].
      now apply Forall_app in F1.
Qed.

(* whole texts *)
Lemma w_escape_word : ascii_word w_escape /\ Forall valid_rune w_escape /\ string_of_runes w_escape = B "escape_char".
Proof.
  split; [|split; [|reflexivity]].
  - split; [|discriminate]. apply Forall_forall. intros r H. cbn in H. unfold space, is_space_rune.
    repeat destruct H as [<-|H]; try (split; [vm_compute; reflexivity|vm_compute; discriminate]). contradiction.
  - apply Forall_forall. intros r H. cbn in H. left. repeat destruct H as [<-|H]; try (vm_compute; reflexivity). contradiction.
Qed.
Lemma w_comment_word : ascii_word w_comment /\ Forall valid_rune w_comment /\ string_of_runes w_comment = B "comment_char".
Proof.
  split; [|split; [|reflexivity]].
  - split; [|discriminate]. apply Forall_forall. intros r H. cbn in H. unfold space, is_space_rune.
    repeat destruct H as [<-|H]; try (split; [vm_compute; reflexivity|vm_compute; discriminate]). contradiction.
  - apply Forall_forall. intros r H. cbn in H. left. repeat destruct H as [<-|H]; try (vm_compute; reflexivity). contradiction.
Qed.

Lemma remove_lines_cons : forall f cc ec l rest, remove_lines (S f) cc ec (l :: rest) =
  if N.eqb (fst (decode_rune l)) cc then remove_lines f cc ec rest
  else
    let cc' := match checkSpecialWord l (B "comment_char") with Some r => r | None => cc end in
    match checkSpecialWord l (B "escape_char") with
    | Some r => remove_lines f cc' r rest
    | None =>
        rbind (join_cont ec l rest) (fun '(l', rest') =>
        rbind (remove_lines f cc' ec rest') (fun '(out, e) => Ok (l' ++ [nl] ++ out, e)))
    end.
Proof. reflexivity. Qed.

Definition put (pre : bytes) (r : res (bytes * N)) : res (bytes * N) := rbind r (fun '(out, e) => Ok (pre ++ out, e)).
Lemma put_put : forall a b r, put a (put b r) = put (a ++ b) r.
Proof. intros a b [[o e]| |]; cbn; auto. now rewrite List.app_assoc. Qed.

Lemma remove_item : forall i cc ec f rest, item_ok cc ec i ->
  remove_lines (S f) cc ec (map string_of_runes (item_lines cc ec i) ++ rest) =
  put (terminated (item_actual i)) (remove_lines f (next_cc cc i) (next_ec ec i) rest).
Proof.
  destruct w_escape_word as (We&Ve&Ee). destruct w_comment_word as (Wc&Vc&Ec).
  intros i cc ec f rest [F H].
  assert (P : forall r, put [] r = r) by (intros [[o e]| |]; reflexivity).
  destruct i as [t|a w b|a w b|first more]; cbn [item_lines next_cc next_ec item_actual item_output] in *.
  - inversion F as [|? ? F1 _]; subst. cbn [map app]. rewrite remove_lines_cons, decode_head by now apply text_valid.
    cbn [hd]. rewrite N.eqb_refl. unfold terminated; cbn [flat_map]. now rewrite P.
  - destruct H as [D Nc]. inversion F as [|? ? F1 _]; subst. apply text_valid in F1. cbn [map app].
    rewrite remove_lines_cons, decode_head by auto.
    change (hd rune_error (w_escape ++ a ++ w ++ b)) with 101%N. destruct (N.eqb_spec 101 cc); [congruence|].
    cbv zeta. rewrite <- Ec, <- Ee. rewrite (directive_check w_escape) by auto.
    rewrite not_directive; auto.
    intros Q. apply directive_begins in Q. destruct Q as (l'&Q). discriminate Q.
  - destruct H as (D&Nc&NE). inversion F as [|? ? F0 _]; subst. pose proof (text_valid _ F0) as F1. cbn [map app].
    rewrite remove_lines_cons, decode_head by auto.
    change (hd rune_error (w_comment ++ a ++ w ++ b)) with 99%N. destruct (N.eqb_spec 99 cc); [congruence|].
    cbv zeta. rewrite <- Ec, <- Ee. rewrite (directive_check w_comment) by auto.
    rewrite not_directive; auto. 2: { intros Q. apply directive_begins in Q. destruct Q as (l'&Q). discriminate Q. }
    rewrite join_cont_end; auto.
    + cbn [rbind]. unfold terminated; cbn [flat_map]. rewrite List.app_nil_r. unfold put.
      destruct (remove_lines _ _ _ _) as [[o e]| |]; cbn [rbind]; auto. now rewrite <- List.app_assoc.
    + intros (l'&Q). apply NE. destruct b as [|x b] using rev_ind.
      * destruct D as (_&_&_&Nw&_). destruct w as [|x w] using rev_ind; [contradiction|].
        rewrite List.app_nil_r in *. exists w. rewrite !List.app_assoc in Q. apply app_inj_tail in Q as [_ ->]. reflexivity.
      * exists (w ++ b). rewrite !List.app_assoc in *. apply app_inj_tail in Q as [_ ->]. reflexivity.
  - cbv zeta in H. destruct H as (Hh&N1&N2&NE&Sp&T1&T2). destruct more as [|m more].
    + inversion F as [|? ? F0 _]; subst. pose proof (text_valid _ F0) as F1. rewrite List.app_nil_r in Hh, N1, N2.
      unfold texts in *. cbn [map concat app] in *. rewrite List.app_nil_r in *.
      rewrite remove_lines_cons, decode_head by auto. destruct (N.eqb_spec (hd rune_error first) cc); [contradiction|].
      cbv zeta. rewrite <- Ec, <- Ee, !not_directive by auto. rewrite join_cont_end by auto. unfold terminated; cbn [rbind flat_map].
      rewrite List.app_nil_r. unfold put. destruct (remove_lines _ _ _ _) as [[o e]| |]; cbn [rbind]; auto. now rewrite <- List.app_assoc.
    + inversion F as [|? ? F0 Fm]; subst. pose proof (text_valid _ F0) as F1.
      assert (He : text_rune ec). { apply Forall_app in F0 as [_ F0]. now inversion F0. }
      cbn [map app]. rewrite remove_lines_cons, decode_head by auto.
      destruct (N.eqb_spec (hd rune_error (first ++ [ec])) cc); [contradiction|].
      cbv zeta. rewrite <- Ec, <- Ee, !not_directive by auto.
      rewrite join_cont_more; auto; [|discriminate|now apply Forall_app in F0].
      unfold terminated; cbn [rbind flat_map]. rewrite List.app_nil_r. unfold put.
      destruct (remove_lines _ _ _ _) as [[o e]| |]; cbn [rbind]; auto. now rewrite <- List.app_assoc.
Qed.

Lemma item_lines_len : forall cc ec i, 0 < length (item_lines cc ec i).
Proof. intros cc ec [| | |first [|m more]]; cbn; lia. Qed.
Lemma remove_items : forall items cc ec f rest, items_ok cc ec items ->
  length (map string_of_runes (items_lines cc ec items) ++ rest) <= f -> exists f', length rest <= f' /\
  remove_lines f cc ec (map string_of_runes (items_lines cc ec items) ++ rest) =
  put (terminated (flat_map item_actual items)) (remove_lines f' (last_cc cc items) (last_ec ec items) rest).
Proof.
  induction items as [|i items IH]; intros cc ec f rest H L.
  - exists f. split; auto. cbn. now destruct (remove_lines _ _ _ _) as [[o e]| |].
  - destruct H as [Hi Hs]. cbn [items_lines] in *. rewrite map_app, <- List.app_assoc in *.
    rewrite List.app_length, map_length in L. pose proof (item_lines_len cc ec i). destruct f as [|f]; [lia|].
    rewrite remove_item by auto.
    destruct (IH _ _ f rest Hs ltac:(lia)) as (f'&L'&E). exists f'. split; auto. rewrite E, put_put.
    unfold terminated. cbn [flat_map]. now rewrite flat_map_app.
Qed.

Lemma encode_no_nl : forall r, text_rune r -> ~ In nl (encode_rune r).
Proof.
  intros r (V&_&N10) H. apply (in_map byte_val) in H. change (byte_val nl) with 10%N in H.
  assert (G : forall n, (128 <= n < 256)%N -> byte_val (ascii_of_N n) <> 10%N) by (intros n Hn; rewrite byte_val_of_N by lia; lia).
  unfold encode_rune in H. destruct (r <? 128)%N eqn:E1.
  - cbn in H. destruct H as [H|[]]. rewrite byte_val_of_N in H by lia. congruence.
  - pose proof (mod64 r). pose proof (mod64 (r / 64)). pose proof (mod64 (r / 4096)).
    destruct (r <? 2048)%N eqn:E2.
    + assert (r / 64 < 32)%N by (apply N.div_lt_upper_bound; lia).
      cbn [map In] in H. repeat destruct H as [H|H]; try contradiction; revert H; apply G; lia.
    + destruct ((55296 <=? r) && (r <=? 57343))%N eqn:E3.
      { destruct V; lia. }
      destruct (r <? 65536)%N eqn:E4.
      * assert (r / 4096 < 16)%N by (apply N.div_lt_upper_bound; lia).
        cbn [map In] in H. repeat destruct H as [H|H]; try contradiction; revert H; apply G; lia.
      * destruct (r <? 1114112)%N eqn:E5; [|destruct V; lia].
        assert (r / 262144 < 5)%N by (apply N.div_lt_upper_bound; lia).
        cbn [map In] in H. repeat destruct H as [H|H]; try contradiction; revert H; apply G; lia.
Qed.
Lemma split_as_text : forall ls, ls <> [] -> Forall (Forall text_rune) ls ->
  split_on nl (as_text ls) = map string_of_runes ls.
Proof.
  intros ls Ne F. unfold as_text. apply split_join.
  - destruct ls; [contradiction|discriminate].
  - intros x Hx. apply in_map_iff in Hx as (l&<-&Hl). rewrite Forall_forall in F. specialize (F l Hl).
    clear -F. induction F; [intros []|]. rewrite enc_cons. intros Q. apply in_app_or in Q as [Q|Q]; [|auto].
    now apply encode_no_nl in Q.
Qed.
Lemma items_lines_text : forall items cc ec, items_ok cc ec items -> Forall (Forall text_rune) (items_lines cc ec items).
Proof.
  induction items as [|i items IH]; intros cc ec H; [constructor|]. destruct H as [[F _] H]. cbn [items_lines].
  apply Forall_app. auto.
Qed.
Lemma removeComments_items : forall items, items <> [] -> items_ok 35 92 items ->
  removeComments (as_text (items_lines 35 92 items)) = Ok (terminated (flat_map item_actual items), last_ec 92 items).
Proof.
  intros items Ne H. unfold removeComments. rewrite split_as_text.
  - destruct (remove_items items 35 92 (length (map string_of_runes (items_lines 35 92 items))) [] H) as (f'&_&E).
    { rewrite List.app_nil_r. auto. }
    rewrite List.app_nil_r in E. cbv zeta. rewrite E.
    destruct f'; cbn [remove_lines put rbind]; now rewrite List.app_nil_r.
  - destruct items as [|i items]; [contradiction|]. cbn [items_lines]. pose proof (item_lines_len 35 92 i).
    destruct (item_lines 35 92 i); [cbn in *; lia|discriminate].
  - now apply items_lines_text.
Qed.

(* an escape character with no line after it *)
Lemma removeComments_dangling : forall items line, items_ok 35 92 items ->
  let cc := last_cc 35 items in let ec := last_ec 92 items in
  Forall text_rune (line ++ [ec]) -> hd rune_error (line ++ [ec]) <> cc ->
  ~ directive_line w_escape (line ++ [ec]) ->
  removeComments (as_text (items_lines 35 92 items ++ [line ++ [ec]])) = Panic.
Proof.
  destruct w_escape_word as (We&Ve&Ee).
  intros items line H cc ec F Hh N1. unfold removeComments. rewrite split_as_text.
  - rewrite map_app. cbn [map].
    destruct (remove_items items 35 92 (length (map string_of_runes (items_lines 35 92 items) ++ [string_of_runes (line ++ [ec])]))
      [string_of_runes (line ++ [ec])] H (Nat.le_refl _)) as (f'&L&E).
    cbv zeta. rewrite E. fold cc ec. destruct f' as [|f']; [cbn in L; lia|].
    rewrite remove_lines_cons, decode_head by now apply text_valid.
    destruct (N.eqb_spec (hd rune_error (line ++ [ec])) cc); [contradiction|]. cbv zeta.
    rewrite <- Ee, (not_directive w_escape) by (auto using text_valid).
    rewrite join_cont_dangling; [reflexivity|]. apply Forall_app in F as [_ F]. now inversion F.
  - destruct (items_lines 35 92 items); discriminate.
  - apply Forall_app. split; [now apply items_lines_text|]. repeat constructor. exact F.
Qed.

(* a last line whose first word goes on after escape_char *)
Lemma removeComments_glued : forall items rest a u b, items_ok 35 92 items -> last_cc 35 items <> 101%N ->
  let line := w_escape ++ rest ++ a ++ u ++ b in
  Forall text_rune line -> Forall (fun r => ~ space r) rest -> directive_ok a u b ->
  removeComments (as_text (items_lines 35 92 items ++ [line])) = Ok (terminated (flat_map item_actual items), hd 0%N u).
Proof.
  destruct w_escape_word as (We&Ve&Ee). destruct w_comment_word as (Wc&Vc&Ec).
  intros items rest a u b H Nc line F Fr D. unfold removeComments. rewrite split_as_text.
  - rewrite map_app. cbn [map].
    destruct (remove_items items 35 92 (length (map string_of_runes (items_lines 35 92 items) ++ [string_of_runes line]))
      [string_of_runes line] H (Nat.le_refl _)) as (f'&L&E).
    cbv zeta. rewrite E. destruct f' as [|f']; [cbn in L; lia|].
    pose proof (text_valid _ F) as V.
    rewrite remove_lines_cons, decode_head by exact V.
    change (hd rune_error line) with 101%N. destruct (N.eqb_spec 101 (last_cc 35 items)); [congruence|]. cbv zeta.
    pose proof (directive_glued w_escape rest a u b We Fr V D) as G. fold line in G. rewrite <- Ee, G.
    destruct f'; cbn [remove_lines]; cbn [put rbind]; now rewrite List.app_nil_r.
  - destruct (items_lines 35 92 items); discriminate.
  - apply Forall_app. split; [now apply items_lines_text|]. constructor; [exact F|constructor].
Qed.

(* enough fuel *)
Lemma join_cont_len : forall ec rest l l' rest', join_cont ec l rest = Ok (l', rest') -> length rest' <= length rest.
Proof.
  induction rest as [|n rest IH]; intros l l' rest' H.
  - destruct l; cbn [join_cont] in H; [injection H as <- <-; auto|].
    destruct (decode_last_rune _) as [r s]. destruct (N.eqb r _); [discriminate|]. destruct (negb _); [|discriminate].
    injection H as <- <-. auto.
  - destruct l; cbn [join_cont] in H; [injection H as <- <-; auto|].
    destruct (decode_last_rune _) as [r s]. destruct (N.eqb r _); [discriminate|]. destruct (negb _).
    + injection H as <- <-. auto.
    + apply IH in H. cbn. lia.
Qed.
Lemma join_cont_no_err : forall ec rest l x, join_cont ec l rest <> Err x.
Proof.
  induction rest as [|n rest IH]; intros l x H; destruct l; cbn [join_cont] in H; try discriminate;
    destruct (decode_last_rune _) as [r s]; (destruct (N.eqb r _); [discriminate|]); destruct (negb _); try discriminate.
  now apply IH in H.
Qed.
Lemma remove_lines_no_err : forall f cc ec lines x, length lines <= f -> remove_lines f cc ec lines <> Err x.
Proof.
  induction f as [|f IH]; intros cc ec [|l rest] x L; try discriminate; [cbn in L; lia|].
  cbn [length] in L. rewrite remove_lines_cons. destruct (N.eqb _ _); [apply IH; lia|]. cbv zeta.
  destruct (checkSpecialWord l (B "escape_char")); [apply IH; lia|].
  destruct (join_cont ec l rest) as [[l' rest']|y|] eqn:J; cbn [rbind].
  - apply join_cont_len in J. match goal with |- rbind ?a _ <> _ => destruct a as [[o e]|y|] eqn:R end; cbn [rbind]; try discriminate.
    exfalso. eapply IH; [|exact R]. lia.
  - now apply join_cont_no_err in J.
  - discriminate.
Qed.

(* ---- C46: a report with a percent sign is never printed as it is ---- *)
Definition percents (b : bytes) : nat := count_occ ascii_dec b "%"%char.
Lemma percents_app : forall a b, percents (a ++ b) = percents a + percents b.
Proof. intros. apply count_occ_app. Qed.
Lemma percents_skipn : forall n b, percents (skipn n b) <= percents b.
Proof. intros n b. rewrite <- (firstn_skipn n b) at 2. rewrite percents_app. lia. Qed.
Lemma drop_while_suffix : forall p b, exists a, b = a ++ drop_while p b.
Proof.
  induction b as [|c b [a IH]]; [now exists []|]. cbn [drop_while]. destruct (p c); [|now exists []].
  exists (c :: a). cbn [app]. now f_equal.
Qed.
Definition verb_at (r : bytes) : bytes :=
  let r1 := drop_while is_digit_char (drop_while is_flag_char r) in
  match r1 with d :: r' => if Ascii.eqb d "." then drop_while is_digit_char r' else r1 | [] => [] end.
Lemma verb_suffix : forall r, exists a, r = a ++ verb_at r.
Proof.
  intros r. unfold verb_at. destruct (drop_while_suffix is_flag_char r) as [a1 E1].
  destruct (drop_while_suffix is_digit_char (drop_while is_flag_char r)) as [a2 E2].
  set (r1 := drop_while is_digit_char _) in *. rewrite E2 in E1. clear E2.
  assert (G : exists a3, r1 = a3 ++ match r1 with d :: r' => if Ascii.eqb d "." then drop_while is_digit_char r' else r1 | [] => [] end).
  { destruct r1 as [|d r']; [now exists []|]. destruct (Ascii.eqb d "."); [|now exists []].
    destruct (drop_while_suffix is_digit_char r') as [a3 E3]. exists (d :: a3). cbn [app]. now f_equal. }
  destruct G as [a3 E3]. exists (a1 ++ a2 ++ a3). rewrite E1 at 1. rewrite E3 at 1. now rewrite <- !List.app_assoc.
Qed.
Lemma printf_percent : forall f r, printf_noargs (S f) ("%"%char :: r) =
  match verb_at r with
  | [] => Some (B "%!(NOVERB)")
  | v :: _ =>
      if existsb (Ascii.eqb v) ["*"%char; "["%char] then None
      else match printf_noargs f (skipn (snd (decode_rune (verb_at r))) (verb_at r)) with
           | Some t => Some ((if Ascii.eqb v "%" then B "%"
                              else B "%!" ++ encode_rune (fst (decode_rune (verb_at r))) ++ B "(MISSING)") ++ t)
           | None => None
           end
  end.
Proof.
  intros f r. cbn [printf_noargs]. rewrite Ascii.eqb_refl. change (match _ with [] => [] | d :: r' => _ end) with (verb_at r).
  destruct (verb_at r) as [|v q]; [reflexivity|]. destruct (decode_rune (v :: q)) as [rn sz]. reflexivity.
Qed.
Lemma drop_all : forall p a b, Forall (fun c => p c = true) a -> (match b with c :: _ => p c = false | [] => True end) ->
  drop_while p (a ++ b) = b.
Proof.
  intros p a b F H. induction F as [|c a Hc F IH]; cbn [app drop_while]; [|now rewrite Hc].
  destruct b as [|c b]; [reflexivity|]. cbn [drop_while]. now rewrite H.
Qed.
Lemma flag_spec : forall c, is_flag_char c = true <-> flag c.
Proof. intros c. unfold is_flag_char, flag. rewrite existsb_exists. split; [intros (x&I&E); apply Ascii.eqb_eq in E; now subst|intros I; exists c; rewrite Ascii.eqb_refl; auto]. Qed.
Lemma digit_spec : forall c, is_digit_char c = true <-> is_dec_digit c.
Proof.
  intros c. unfold is_digit_char. destruct (digit_of c) as [d|] eqn:E.
  - apply digit_of_spec in E as [E _]. tauto.
  - split; [discriminate|]. intros D. assert (Q : digit_of c = Some (digit_value c)) by (apply digit_of_spec; auto). congruence.
Qed.
Definition plain_verb (b : bytes) : Prop :=
  match b with c :: _ => is_flag_char c = false /\ is_digit_char c = false /\ c <> "."%char | [] => True end.
Lemma verb_modifiers : forall m b, modifiers m -> plain_verb b -> verb_at (m ++ b) = b.
Proof.
  intros m b (fl&w&p&->&F1&F2&P) V. rewrite <- !List.app_assoc. unfold verb_at.
  assert (D : forall a x, Forall is_dec_digit a -> (match x with c :: _ => is_digit_char c = false | [] => True end) ->
    drop_while is_digit_char (a ++ x) = x).
  { intros a x A X. apply drop_all; auto. eapply Forall_impl; [|exact A]. intros c. apply digit_spec. }
  assert (Fl : forall a x t, Forall flag a -> Forall is_dec_digit x -> (match t with c :: _ => is_flag_char c = false | [] => True end) ->
    exists y, drop_while is_flag_char (a ++ x ++ t) = y ++ t /\ Forall is_dec_digit y).
  { intros a x t A X T. induction A as [|c a Hc A IH]; cbn [app].
    - induction X as [|c x Hx X IH]; cbn [app].
      + exists []. split; auto. destruct t; [reflexivity|]. cbn [drop_while]. now rewrite T.
      + cbn [drop_while]. destruct (is_flag_char c); auto. exists (c :: x). split; auto.
    - cbn [drop_while]. apply flag_spec in Hc. now rewrite Hc. }
  destruct P as [-> |(ds&->&Dd)].
  - cbn [app]. destruct (Fl fl w b) as (y&E&Y); auto; [destruct b; auto; now destruct V|]. rewrite E, D; auto; [|destruct b; auto; now destruct V as (_&V&_)].
    destruct b as [|c b]; auto. destruct V as (_&_&V). apply Ascii.eqb_neq in V. now rewrite V.
  - destruct (Fl fl w ((B "." ++ ds) ++ b)) as (y&E&Y); auto; [reflexivity|]. rewrite E, D; [|auto|reflexivity].
    change ((B "." ++ ds) ++ b) with ("."%char :: ds ++ b). cbv iota. rewrite Ascii.eqb_refl.
    apply D; auto. destruct b; auto; now destruct V as (_&V&_).
Qed.
Lemma verb_plain : forall r f, verb r -> plain_verb (encode_rune r ++ f) /\
  exists v q, encode_rune r ++ f = v :: q /\ existsb (Ascii.eqb v) ["*"%char; "["%char] = false /\ Ascii.eqb v "%" = false.
Proof.
  intros r f [V N].
  assert (G : forall v q, encode_rune r ++ f = v :: q -> forall c, (N_of_ascii c < 128)%N -> r <> N_of_ascii c -> v <> c).
  { intros v q E c C Q ->. pose proof (decode_encode r f V) as D. rewrite E in D.
    unfold decode_rune in D. replace (byte_val c <? 128)%N with true in D by (symmetry; apply N.ltb_lt; exact C).
    injection D as D _. unfold byte_val in D. congruence. }
  destruct (encode_rune r ++ f) as [|v q] eqn:E.
  { apply app_eq_nil in E as [E _]. now apply encode_nonempty in E. }
  specialize (G v q eq_refl). split.
  - unfold plain_verb. split; [|split].
    + apply not_true_iff_false. rewrite flag_spec. intros F. apply (G v); auto. cbn [flag In] in F.
      unfold flag in F. cbn [In] in F. repeat (destruct F as [<-|F]; [reflexivity|]). destruct F.
    + apply not_true_iff_false. rewrite digit_spec. intros F. apply (G v); auto. unfold is_dec_digit in F. lia.
    + apply G; [reflexivity|]. apply N. cbn [In]. auto.
  - exists v, q. split; auto. cbn [existsb]. rewrite orb_false_iff, orb_false_iff, !Ascii.eqb_neq.
    repeat split; try (apply G; [reflexivity|]; apply N; cbn [In]; auto 8).
Qed.
Lemma printf_printed : forall b o, printed b o -> forall f, length b <= f -> printf_noargs f b = Some o.
Proof.
  induction 1 as [|c b o C P IH|m b o M P IH|m r b o M V P IH|m M]; intros f L.
  - destruct f; reflexivity.
  - destruct f as [|f]; cbn [length] in L; [lia|]. cbn [printf_noargs]. apply Ascii.eqb_neq in C. rewrite C, IH by lia. reflexivity.
  - destruct f as [|f]; [cbn in L; lia|]. change (B "%" ++ m ++ B "%" ++ b) with ("%"%char :: m ++ "%"%char :: b).
    rewrite printf_percent, verb_modifiers by (auto; cbn; repeat split; discriminate). cbn [existsb].
    change (snd (decode_rune ("%"%char :: b))) with 1. cbn [skipn]. rewrite IH; [reflexivity|].
    rewrite !app_length in L. cbn [length B list_ascii_of_string] in L. lia.
  - destruct f as [|f]; [cbn in L; lia|]. change (B "%" ++ m ++ encode_rune r ++ b) with ("%"%char :: m ++ encode_rune r ++ b).
    destruct (verb_plain r b V) as (Pl&v&q&E&X1&X2). rewrite printf_percent, verb_modifiers by auto.
    rewrite decode_encode by apply V. cbn [fst snd]. rewrite skipn_app, Nat.sub_diag, skipn_all. cbn [skipn app].
    rewrite E at 1. rewrite X1, X2, IH; [now rewrite <- !List.app_assoc|].
    rewrite !app_length in L. cbn [length B list_ascii_of_string] in L. lia.
  - destruct f as [|f]; [cbn in L; lia|]. change (B "%" ++ m) with ("%"%char :: m). rewrite printf_percent.
    rewrite <- (List.app_nil_r m), verb_modifiers by (cbn; auto). reflexivity.
Qed.
Lemma encode_no_percent : forall r, r <> 37%N -> ~ In "%"%char (encode_rune r).
Proof.
  intros r N H. unfold encode_rune in H.
  assert (G : forall x, (128 <= x < 256)%N -> ascii_of_N x <> "%"%char).
  { intros x L E. apply (f_equal N_of_ascii) in E. rewrite N_ascii_embedding in E by lia. cbn in E. lia. }
  assert (M : forall x, (x mod 64 < 64)%N) by (intros; apply N.mod_lt; discriminate).
  destruct (r <? 128)%N eqn:E1.
  { destruct H as [H|[]]. apply (f_equal N_of_ascii) in H. rewrite N_ascii_embedding in H by lia. now cbn in H. }
  assert (Bad : ~ In "%"%char (map ascii_of_N [239; 191; 189]%N)) by (vm_compute; intuition discriminate).
  destruct (r <? 2048)%N eqn:E2.
  { destruct H as [H|[H|[]]]; revert H; apply G.
    - assert (r / 64 < 32)%N by (apply N.div_lt_upper_bound; lia). lia.
    - pose proof (M r). lia. }
  destruct (_ && _)%bool; [contradiction|]. destruct (r <? 65536)%N eqn:E3.
  { destruct H as [H|[H|[H|[]]]]; revert H; apply G.
    - assert (r / 4096 < 16)%N by (apply N.div_lt_upper_bound; lia). lia.
    - pose proof (M (r / 64)%N). lia.
    - pose proof (M r). lia. }
  destruct (r <? 1114112)%N eqn:E4; [|contradiction].
  destruct H as [H|[H|[H|[H|[]]]]]; revert H; apply G.
  - assert (r / 262144 < 8)%N by (apply N.div_lt_upper_bound; lia). lia.
  - pose proof (M (r / 4096)%N). lia.
  - pose proof (M (r / 64)%N). lia.
  - pose proof (M r). lia.
Qed.
Lemma decode_not_percent : forall v q, v <> "%"%char -> fst (decode_rune (v :: q)) <> 37%N.
Proof.
  intros v q N E. destruct (decode_rune (v :: q)) as [r w] eqn:D. cbn [fst] in E. subst r.
  apply RuneFacts.decode_ascii in D as [D _]; [|lia]. apply N. rewrite <- (ascii_N_embedding v). unfold byte_val in D. now rewrite D.
Qed.
(* the output has no more percent signs than the format *)
Lemma some_inj : forall {A} (x y : A), Some x = Some y -> x = y.
Proof. congruence. Qed.
Lemma printf_fewer : forall f b t, printf_noargs f b = Some t -> percents t <= percents b.
Proof.
  induction f as [|f IH]; intros b t H; destruct b as [|c r]; try discriminate; try (injection H as <-; auto).
  destruct (Ascii.eqb c "%") eqn:E.
  - apply Ascii.eqb_eq in E. subst c. rewrite printf_percent in H. destruct (verb_suffix r) as [a Ea].
    change (percents ("%"%char :: r)) with (S (percents r)). destruct (verb_at r) as [|v q] eqn:V.
    { assert (t = B "%!(NOVERB)") as -> by congruence. replace (percents (B "%!(NOVERB)")) with 1 by reflexivity. lia. }
    rewrite Ea, percents_app. destruct (existsb _ _); [discriminate|].
    destruct (printf_noargs f _) as [t'|] eqn:P; [|discriminate]. apply some_inj in H. rewrite <- H. clear H. apply IH in P.
    pose proof (percents_skipn (snd (decode_rune (v :: q))) (v :: q)). rewrite percents_app.
    destruct (Ascii.eqb v "%") eqn:Ev.
    + change (percents (B "%")) with 1. lia.
    + apply Ascii.eqb_neq in Ev. pose proof (encode_no_percent _ (decode_not_percent v q Ev)) as N.
      rewrite !percents_app. change (percents (B "%!")) with 1. change (percents (B "(MISSING)")) with 0.
      unfold percents at 1. rewrite (proj1 (count_occ_not_In ascii_dec _ _) N). lia.
  - cbn [printf_noargs] in H. rewrite E in H. destruct (printf_noargs f r) as [t'|] eqn:P; [|discriminate].
    injection H as <-. apply IH in P. apply Ascii.eqb_neq in E. unfold percents in *.
    rewrite !count_occ_cons_neq by auto. exact P.
Qed.
Lemma printf_after_plain : forall x f b t, ~ In "%"%char x -> printf_noargs f (x ++ b) = Some t ->
  exists f' t', printf_noargs f' b = Some t' /\ t = x ++ t'.
Proof.
  induction x as [|c x IH]; intros f b t N P; [exists f, t; auto|].
  destruct f as [|f]; [discriminate|]. cbn [app printf_noargs] in P.
  destruct (Ascii.eqb c "%") eqn:E; [apply Ascii.eqb_eq in E; subst; elim N; now left|].
  destruct (printf_noargs f (x ++ b)) as [t1|] eqn:Q; [|discriminate]. injection P as <-.
  apply IH in Q as (f'&t'&Q&->); [|intros H; apply N; now right]. exists f', t'. auto.
Qed.
(* a format is not its own output after some plain text *)
Lemma printf_ahead : forall x, x <> [] -> ~ In "%"%char x -> forall n b f t, length b <= n ->
  printf_noargs f b = Some t -> b <> x ++ t.
Proof.
  intros x X N n. induction n as [|n IH]; intros b f t L P E.
  - destruct b; [|cbn in L; lia]. destruct x; [congruence|discriminate].
  - rewrite E in P. apply printf_after_plain in P as (f'&t'&P&->); auto.
    apply (IH (x ++ t') f' t'); auto. rewrite E, List.app_length in L.
    destruct x; [congruence|]. cbn [length] in L. lia.
Qed.
Lemma printf_fixed : forall f b, printf_noargs f b = Some b -> ~ In "%"%char b.
Proof.
  induction f as [|f IH]; intros b H; destruct b as [|c r]; try discriminate; auto.
  destruct (Ascii.eqb c "%") eqn:E.
  - exfalso. apply Ascii.eqb_eq in E. subst c. rewrite printf_percent in H. destruct (verb_suffix r) as [a Ea].
    destruct (verb_at r) as [|v q] eqn:V.
    { change (B "%!(NOVERB)") with ("%"%char :: B "!(NOVERB)") in H. injection H as H. rewrite <- H in V.
      vm_compute in V. discriminate. }
    destruct (existsb _ _); [discriminate|].
    destruct (printf_noargs f _) as [t|] eqn:P; [|discriminate]. apply some_inj in H.
    destruct (Ascii.eqb v "%") eqn:Ev.
    + apply printf_fewer in P. pose proof (f_equal percents H) as C. change (B "%") with ["%"%char] in C.
      cbn [app] in C. change (percents ("%"%char :: ?z)) with (S (percents z)) in C.
      rewrite Ea, percents_app in C. apply Ascii.eqb_eq in Ev. subst v.
      change (snd (decode_rune ("%"%char :: q))) with 1 in P. cbn [skipn] in P.
      change (percents ("%"%char :: q)) with (S (percents q)) in C. lia.
    + change (B "%!") with ("%"%char :: ["!"%char]) in H. cbn [app] in H. injection H as H.
      rewrite <- H in V. assert (V' : v :: q = "!"%char :: encode_rune (fst (decode_rune (v :: q))) ++ B "(MISSING)" ++ t).
      { rewrite <- V at 1. rewrite <- List.app_assoc. reflexivity. }
      injection V' as -> Q. change (decode_rune ("!"%char :: q)) with (33%N, 1) in Q, P. cbn [fst snd skipn] in Q, P.
      apply (printf_ahead (B "!(MISSING)")) with (n := length q) in P; auto; [discriminate|].
      vm_compute. intuition discriminate.
  - cbn [printf_noargs] in H. rewrite E in H. destruct (printf_noargs f r) as [t'|] eqn:P; [|discriminate].
    injection H as ->. apply IH in P. apply Ascii.eqb_neq in E. intros [I|I]; auto.
Qed.
Lemma reports_unique : forall env a b, reports env a -> reports env b -> a = b.
Proof.
  intros env a b (va&Fa&->) (vb&Fb&->). assert (E : va = vb); [|now rewrite E].
  revert vb Fb. induction Fa as [|c v cs vs S1 _ IH]; intros vb Fb; inversion Fb as [|? w ? ws S2 F2]; subst; auto.
  f_equal; [|now apply IH]. destruct S1, S2; congruence.
Qed.
