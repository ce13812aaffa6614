(* From the parser's internal codes back to tokens: the statements of LocYaccProps.v. *)
From Verif Require Import GoBase GoFacts LocGramSpec LocYaccModel LocYaccCert LocYaccProofs LocYaccGram LocYaccSound LocYaccComplete
  LocYaccValues LocParseSpec.
Local Open Scope Z_scope.

Lemma code_is : forall x t, 0 < t_type t -> translate (t_type t) = term_code x -> is x t.
Proof. intros x t H E. exact (translate_inv _ _ H E). Qed.

Lemma is_code : forall x t, is x t -> translate (t_type t) = term_code x.
Proof. intros x t E. unfold is in E. now rewrite E. Qed.

Lemma significant_positive : forall l, positive l -> positive (significant l).
Proof. intros l H. unfold positive, significant. apply Forall_forall. intros t I. apply filter_In in I. destruct I as [I _].
  exact (proj1 (Forall_forall _ _) H t I). Qed.

Lemma codes_spell : forall w l, positive l -> map fst (map coded l) = map term_code w -> Forall2 is w l.
Proof.
  induction w as [|x w IH]; intros l H E; destruct l as [|t l]; cbn [map] in E; try discriminate; [constructor|].
  cbn [coded fst] in E. injection E as E1 E2. inversion H as [|? ? P1 P2]; subst.
  constructor; [now apply code_is|now apply IH].
Qed.

Lemma spell_numbers : forall w l, Forall2 is w l -> map t_type l = map token_number w.
Proof. intros w l H. induction H as [|x t w l E _ IH]; [reflexivity|]. cbn [map]. rewrite IH. now rewrite E. Qed.

Lemma accepted_means : forall fuel d l n d', positive l -> yyParse fuel true d l = Some (Returns n, d') ->
  n = 0 /\ exists v, meansZ (-1) (map coded (significant l)) v d d'.
Proof.
  intros fuel d l n d' P H. destruct (parse_spec d l P) as (o & d1 & E & C).
  pose proof (run_det _ _ _ _ _ _ H E) as Q. injection Q as <- <-.
  destruct C as [(C & v & M)|[C|C]]; try discriminate. injection C as ->. split; [reflexivity|]. now exists v.
Qed.

Lemma accepted_spells : forall fuel d l n d', positive l -> yyParse fuel true d l = Some (Returns n, d') ->
  n = 0 /\ exists w, spells l w /\ locale_definition w.
Proof.
  intros fuel d l n d' P H. destruct (accepted_means _ _ _ _ _ P H) as (-> & v & M). split; [reflexivity|].
  destruct (proj1 means_derives _ _ _ _ _ M) as (X & w & EX & EW & D). exists w.
  split; [apply codes_spell; [now apply significant_positive|exact EW]|].
  change (-1) with (sym_code N_locale_definition) in EX. apply sym_code_inj in EX. now subst X.
Qed.

Lemma spells_accepted : forall d l w, positive l -> spells l w -> locale_definition w ->
  (forall t, In t l -> is T_NUMBER t -> atoi (t_value t) <> None) ->
  exists d', yyParse (100 * S (length l)) true d l = Some (Returns 0, d').
Proof.
  intros d l w P S1 D N.
  destruct (parse_complete d l w P (spell_numbers _ _ S1) D) as (fuel & d' & E).
  - intros v I. apply in_map_iff in I. destruct I as (t & E & I). injection E as E1 E2. subst v.
    unfold visible in I. apply filter_In in I. destruct I as [I _]. apply N; [exact I|].
    apply code_is; [exact (proj1 (Forall_forall _ _) P t I)|exact E1].
  - destruct (parse_spec d l P) as (o & d1 & E1 & _). pose proof (run_det _ _ _ _ _ _ E E1) as Q.
    injection Q as <- <-. now exists d'.
Qed.

Lemma map_cut : forall (A C : Type) (f : A -> C) l p s, map f l = p ++ s ->
  exists p' s', l = p' ++ s' /\ map f p' = p /\ map f s' = s.
Proof.
  intros A C f l p. revert l. induction p as [|x p IH]; intros l s E.
  - exists [], l. now repeat split.
  - destruct l as [|a l]; [discriminate|]. cbn [map app] in E. injection E as <- E.
    destruct (IH l s E) as (p' & s' & -> & E1 & E2). exists (a :: p'), s'. cbn [map app]. now rewrite E1.
Qed.

Lemma coded_single : forall l c v, map coded l = [(c, v)] -> exists t, l = [t] /\ translate (t_type t) = c /\ t_value t = v.
Proof.
  intros l c v E. destruct l as [|t [|u l]]; try discriminate. cbn [map] in E. unfold coded in E. injection E as E1 E2. now exists t.
Qed.

Lemma sk_spec : forall l t, positive l -> keyword_texts l -> In t l -> sk (coded t) = true <-> is T_INT_CURR_SYMBOL_STR t.
Proof.
  intros l t P [K1 K2] I. pose proof (proj1 (Forall_forall _ _) P t I) as Pt. cbv beta in Pt.
  pose proof (proj1 (Forall_forall _ _) K1 t I) as K1t. pose proof (proj1 (Forall_forall _ _) K2 t I) as K2t.
  cbv beta in K1t, K2t.
  unfold sk, coded. cbn [fst snd]. split.
  - intros H. apply andb_prop in H. destruct H as [H1 H2]. apply beqb_eq in H2. apply mem_In in H1.
    unfold str_codes in H1. cbn [In] in H1.
    destruct H1 as [E|[E|[E|[E|[E|[E|[]]]]]]]; symmetry in E.
    + exfalso. apply K2t; [|exact H2]. right; right; right; right. now apply code_is.
    + exfalso. apply K2t; [|exact H2]. right; right; right; left. now apply code_is.
    + exfalso. apply K2t; [|exact H2]. right; left. now apply code_is.
    + now apply code_is.
    + exfalso. apply K2t; [|exact H2]. left. now apply code_is.
    + exfalso. apply K2t; [|exact H2]. right; right; left. now apply code_is.
  - intros H. rewrite (is_code _ _ H), (K1t H). reflexivity.
Qed.

Lemma gk_spec : forall t, 0 < t_type t -> gk (coded t) = true <-> is T_MON_GROUPING_STR t.
Proof.
  intros t P. unfold gk, coded. cbn [fst]. rewrite Z.eqb_eq. split; intros H.
  - now apply code_is.
  - now rewrite (is_code _ _ H).
Qed.

Lemma lacks_map : forall kw l, (forall t, In t l -> kw (coded t) = false) -> lacks kw (map coded l).
Proof.
  intros kw l H. apply Forall_forall. intros p I. apply in_map_iff in I. destruct I as (t & <- & I). now apply H.
Qed.

Lemma in_significant : forall t l, In t (significant l) -> In t l.
Proof. intros t l H. apply filter_In in H. tauto. Qed.

Lemma quoted_back : forall l v, positive l -> str_seg (map coded l) v -> quoted l v.
Proof.
  intros l v P [(q1 & chars & q2 & E & N & C & ->)|E].
  - destruct l as [|t1 l]; [discriminate|]. cbn [map] in E. unfold coded at 1 in E. injection E as E1 E2 E3.
    inversion P as [|? ? P1 P2]; subst. 
    destruct (map_cut _ _ _ _ _ _ E3) as (cs & s' & -> & <- & E4).
    apply coded_single in E4. destruct E4 as (t2 & -> & E4 & E5).
    apply Forall_app in P2. destruct P2 as [P2 P3]. inversion P3 as [|? ? P4 _]; subst.
    left. exists t1, cs, t2. split; [reflexivity|]. split; [now apply code_is|]. split; [now apply code_is|].
    split; [intros ->; now apply N|]. split.
    + apply Forall_forall. intros t I. rewrite Forall_forall in C. specialize (C (coded t) (in_map _ _ _ I)).
      cbv beta in C. unfold coded in C. cbn [fst] in C. pose proof (proj1 (Forall_forall _ _) P2 t I) as Pt. cbv beta in Pt.
      unfold charcodes in C. cbn [In] in C. unfold is_character.
      destruct C as [C|[C|[C|[C|[C|[]]]]]]; symmetry in C; [left|right; left|right; right; left|right; right; right; left|right; right; right; right];
        now apply code_is.
    + unfold texts. rewrite map_map. reflexivity.
  - apply coded_single in E. destruct E as (t & -> & E1 & E2). right. exists t.
    inversion P as [|? ? P1 _]; subst. split; [reflexivity|]. split; [now apply code_is|reflexivity].
Qed.

Theorem curr_symbol : forall fuel d l n d', positive l -> keyword_texts l ->
  yyParse fuel true d l = Some (Returns n, d') ->
  ((forall t, In t l -> ~ is T_INT_CURR_SYMBOL_STR t) -> int_curr_symbol d' = int_curr_symbol d) /\
  (forall pre k body, significant l = pre ++ k :: body -> is T_INT_CURR_SYMBOL_STR k ->
     (forall t, In t body -> ~ is T_INT_CURR_SYMBOL_STR t) ->
     exists seg post, body = seg ++ post /\ quoted seg (int_curr_symbol d')).
Proof.
  intros fuel d l n d' P K H. destruct (accepted_means _ _ _ _ _ P H) as (-> & v & M).
  destruct (parse_values _ _ _ _ M) as (_ & [F1 F2] & _). split.
  - intros N. apply F1, lacks_map. intros t I. apply in_significant in I.
    destruct (sk (coded t)) eqn:E; [|reflexivity]. apply (sk_spec _ _ P K I) in E. destruct (N _ I E).
  - intros pre k body E Hk N.
    assert (IB : forall t, In t (pre ++ k :: body) -> In t l) by (intros t I; rewrite <- E in I; now apply in_significant).
    assert (EC : map coded (significant l) = map coded pre ++ coded k :: map coded body) by (now rewrite E, map_app).
    destruct (F2 _ _ _ EC) as (seg & post & EB & Q).
    + apply (sk_spec _ _ P K); [|exact Hk]. apply IB, in_or_app. right. now left.
    + apply lacks_map. intros t I. destruct (sk (coded t)) eqn:E'; [|reflexivity].
      apply (sk_spec _ _ P K) in E'; [|apply IB, in_or_app; right; now right]. destruct (N _ I E').
    + destruct (map_cut _ _ _ _ _ _ EB) as (seg' & post' & -> & <- & <-). exists seg', post'.
      split; [reflexivity|]. apply quoted_back; [|exact Q].
      apply Forall_forall. intros t I. refine (proj1 (Forall_forall _ _) P t (IB t _)).
      apply in_or_app. right. right. apply in_or_app. now left.
Qed.

(* galt grows at the end, grouped at the front *)
Lemma grouped_snoc : forall l ns e s n e', grouped (l ++ [e]) ns -> is T_semicolon s -> is T_NUMBER n -> is T_EOL e' ->
  grouped (l ++ [s; n; e']) (ns ++ [t_value n]).
Proof.
  intros l ns e s n e' H Hs Hn He. remember (l ++ [e]) as x eqn:E. revert l E.
  induction H as [n1 e1 H1 H2|n1 s1 l1 ns1 H1 H2 H3 IH]; intros l E.
  - destruct l as [|a [|b l]]; cbn [app] in E; try discriminate.
    + injection E as -> ->. cbn [app]. constructor; [assumption|assumption|]. now constructor.
    + destruct l; discriminate.
  - destruct l as [|a [|b l]]; cbn [app] in E; try discriminate.
    + injection E as -> -> ->. inversion H3.
    + injection E as -> -> ->. cbn [app]. constructor; [assumption|assumption|]. now apply IH.
Qed.

Lemma grouped_back : forall w ns, galt w ns -> forall l e, positive l -> map coded l = w -> is T_EOL e -> grouped (l ++ [e]) ns.
Proof.
  intros w ns H. induction H as [v|w ns s v _ IH]; intros l e P E He.
  - apply coded_single in E. destruct E as (t & -> & E1 & <-). inversion P; subst. cbn [app]. constructor; [now apply code_is|exact He].
  - destruct (map_cut _ _ _ _ _ _ E) as (l1 & l2 & -> & E1 & E2). destruct (map_cut _ _ _ _ _ _ E2) as (l3 & l4 & -> & E3 & E4).
    apply coded_single in E3, E4. destruct E3 as (t & -> & E3 & _), E4 as (u & -> & E4 & <-).
    apply Forall_app in P. destruct P as [P1 P2]. inversion P2 as [|? ? P3 P4]; subst. inversion P4 as [|? ? P5 _]; subst.
    rewrite <- app_assoc. cbn [app]. eapply grouped_snoc; [apply (IH l1 e P1 eq_refl He)| | |exact He].
    + now apply code_is.
    + now apply code_is.
Qed.

Lemma split_join : forall ns, ns <> [] -> Forall (fun v => ~ In ";"%char v) ns -> split_on ";" (join (B ";") ns) = ns.
Proof.
  induction ns as [|v ns IH]; intros N F; [congruence|]. inversion F as [|? ? F1 F2]; subst.
  destruct ns as [|u ns].
  - cbn [join]. now apply split_on_no_sep.
  - change (join (B ";") (v :: u :: ns)) with (v ++ B ";" ++ join (B ";") (u :: ns)).
    change (B ";" ++ ?x) with (";"%char :: x). rewrite split_on_sep, IH by (assumption || discriminate).
    rewrite split_on_no_sep by assumption. reflexivity.
Qed.

Lemma atoi_all_map : forall l g, atoi_all l = Some g -> map atoi l = map Some g.
Proof.
  induction l as [|v l IH]; intros g H; cbn [atoi_all] in H; [injection H as <-; reflexivity|].
  destruct (atoi v) eqn:E; [|discriminate]. destruct (atoi_all l) eqn:E2; [|discriminate].
  injection H as <-. cbn [map]. now rewrite E, (IH _ eq_refl).
Qed.

Lemma grouped_numbers : forall l ns, grouped l ns -> forall v, In v ns -> exists t, In t l /\ is T_NUMBER t /\ t_value t = v.
Proof.
  intros l ns H. induction H as [n e H1 H2|n s l ns H1 H2 H3 IH]; intros v I.
  - destruct I as [<-|[]]. exists n. repeat split; [now left|exact H1].
  - destruct I as [<-|I]; [exists n; repeat split; [now left|exact H1]|].
    destruct (IH v I) as (t & It & Q). exists t. split; [right; now right|exact Q].
Qed.

Theorem grouping : forall fuel d l n d', positive l ->
  (forall t, In t l -> is T_NUMBER t -> ~ In ";"%char (t_value t)) ->
  yyParse fuel true d l = Some (Returns n, d') ->
  ((forall t, In t l -> ~ is T_MON_GROUPING_STR t) -> mon_grouping d' = mon_grouping d) /\
  (forall pre k body, significant l = pre ++ k :: body -> is T_MON_GROUPING_STR k ->
     (forall t, In t body -> ~ is T_MON_GROUPING_STR t) ->
     exists seg post ns, body = seg ++ post /\ grouped seg ns /\ map atoi ns = map Some (mon_grouping d')).
Proof.
  intros fuel d l n d' P SM H. destruct (accepted_means _ _ _ _ _ P H) as (-> & v & M).
  destruct (parse_values _ _ _ _ M) as (_ & _ & [F1 F2]).
  assert (PT : forall t, In t l -> 0 < t_type t) by (intros t I; exact (proj1 (Forall_forall _ _) P t I)).
  split.
  - intros N. apply F1, lacks_map. intros t I. apply in_significant in I.
    destruct (gk (coded t)) eqn:E; [|reflexivity]. apply gk_spec in E; [|now apply PT]. destruct (N _ I E).
  - intros pre k body E Hk N.
    assert (IB : forall t, In t (pre ++ k :: body) -> In t l) by (intros t I; rewrite <- E in I; now apply in_significant).
    assert (EC : map coded (significant l) = map coded pre ++ coded k :: map coded body) by (now rewrite E, map_app).
    destruct (F2 _ _ _ EC) as (seg & post & EB & e & seg' & ns & -> & G & Q).
    + apply gk_spec; [|exact Hk]. apply PT, IB, in_or_app. right. now left.
    + apply lacks_map. intros t I. destruct (gk (coded t)) eqn:E'; [|reflexivity].
      apply gk_spec in E'; [|apply PT, IB, in_or_app; right; now right]. destruct (N _ I E').
    + destruct (map_cut _ _ _ _ _ _ EB) as (s1 & post' & -> & E1 & <-).
      destruct (map_cut _ _ _ _ _ _ E1) as (s2 & s3 & -> & E2 & E3).
      apply coded_single in E3. destruct E3 as (te & -> & E3 & _).
      assert (PS : positive (s2 ++ [te])).
      { apply Forall_forall. intros t I. apply PT, IB, in_or_app. right. right. apply in_or_app. now left. }
      apply Forall_app in PS. destruct PS as [PS1 PS2]. inversion PS2 as [|? ? PS3 _]; subst.
      assert (GR : grouped (s2 ++ [te]) ns) by (apply (grouped_back _ _ G); [exact PS1|reflexivity|now apply code_is]).
      exists (s2 ++ [te]), post', ns. split; [reflexivity|]. split; [exact GR|].
      apply atoi_all_map. rewrite split_join in Q; [exact Q|exact (proj2 (galt_codes _ _ G))|].
      apply Forall_forall. intros u I. destruct (grouped_numbers _ _ GR u I) as (t & It & Ht & <-).
      apply SM; [|exact Ht]. apply IB, in_or_app. right. right. apply in_or_app. now left.
Qed.

(* ---- whitespace tokens change nothing ---- *)

Definition twin (c c' : config) : Prop :=
  state c = state c' /\ yyval c = yyval c' /\ below c = below c' /\ above c = above c' /\ look c = look c' /\
  lval c = lval c' /\ defs c = defs c' /\ significant (input c) = significant (input c').

Lemma next_token_twin : forall l l', significant l = significant l' ->
  match next_token l, next_token l' with
  | None, None => True
  | Some (t, r), Some (t', r') => t = t' /\ significant r = significant r'
  | _, _ => False
  end.
Proof.
  intros l l' E. pose proof (next_token_visible l) as H1. pose proof (next_token_visible l') as H2.
  change (visible l) with (significant l) in H1. change (visible l') with (significant l') in H2.
  destruct (next_token l) as [[t r]|], (next_token l') as [[t' r']|].
  - destruct H1 as [H1 _], H2 as [H2 _]. rewrite H1, H2 in E. now injection E.
  - destruct H1 as [H1 _]. congruence.
  - destruct H2 as [H2 _]. congruence.
  - exact I.
Qed.

Definition twin_result (r r' : result) : Prop :=
  match r, r' with
  | Continue c, Continue c' => twin c c'
  | Stop o d, Stop o' d' => o = o' /\ d = d'
  | _, _ => False
  end.

Lemma read_twin : forall closed c c', twin c c' ->
  match read closed c, read closed c' with
  | None, None => True
  | Some (t, r), Some (t', r') => t = t' /\ twin r r'
  | _, _ => False
  end.
Proof.
  intros closed c c' (E1 & E2 & E3 & E4 & E5 & E6 & E7 & E8). unfold read. rewrite <- E5.
  destruct (look c) as [t|] eqn:L; [split; [reflexivity|]; now repeat split; try assumption; congruence|].
  pose proof (next_token_twin _ _ E8) as N.
  destruct (next_token (input c)) as [[t r]|], (next_token (input c')) as [[t' r']|]; try contradiction.
  - destruct N as [<- N]. split; [reflexivity|]. now repeat split.
  - destruct closed; [|exact I]. split; [reflexivity|]. now repeat split.
Qed.

Lemma reduce_twin : forall n c c', twin c c' -> twin_result (reduce n c) (reduce n c').
Proof.
  intros n c c' (E1 & E2 & E3 & E4 & E5 & E6 & E7 & E8). unfold reduce. rewrite <- E3, <- E4, <- E5, <- E6, <- E7.
  destruct (at_ yyR2 n) as [k|]; [|now split]. destruct (at_ yyR1 n) as [A|]; [|now split].
  destruct (k <? 0); [now split|]. cbv zeta. destruct (skipn (Z.to_nat k) (below c)) as [|top r]; [now split|].
  destruct (goto_ (yys top) A) as [s|]; [|now split].
  destruct (action n _ _ (defs c)) as [[v d]|]; [|now split]. cbn [twin_result]. now repeat split.
Qed.

Lemma default_twin : forall closed c c', twin c c' -> twin_result (default_action closed c) (default_action closed c').
Proof.
  intros closed c c' T. pose proof T as (E1 & _ & _ & _ & _ & _ & E7 & _). unfold default_action. rewrite <- E1, <- E7.
  destruct (at_ yyDef (state c)) as [n|]; [|now split].
  destruct (n =? -2).
  - pose proof (read_twin closed _ _ T) as R.
    destruct (read closed c) as [[t r]|], (read closed c') as [[t' r']|]; try contradiction; [|now split].
    destruct R as [<- R]. pose proof R as (F1 & _ & _ & _ & _ & _ & F7 & _). rewrite <- F1, <- F7.
    destruct (exca_find (state r) yyExca) as [x|]; [|now split]. destruct (exca_pick t x) as [m|]; [|now split].
    destruct (m <? 0); [now split|]. destruct (m =? 0); [now split|]. now apply reduce_twin.
  - destruct (n =? 0); [now split|]. now apply reduce_twin.
Qed.

Lemma step_twin : forall closed c c', twin c c' -> twin_result (step closed c) (step closed c').
Proof.
  intros closed c c' (E1 & E2 & E3 & E4 & E5 & E6 & E7 & E8). unfold step. cbv zeta.
  set (c0 := {| state := state c |}). set (c0' := {| state := state c' |}).
  assert (T : twin c0 c0').
  { unfold c0, c0', twin. cbn [state yyval below above look lval defs input]. rewrite E1, E2, E3, E4, E5, E6, E7. now repeat split. }
  clearbody c0 c0'. clear - T. pose proof T as (F1 & _ & _ & _ & _ & _ & F7 & _). rewrite <- F1, <- F7.
  destruct (at_ yyPact (state c0)) as [p|]; [|now split].
  destruct (p <=? yyFlag); [now apply default_twin|].
  pose proof (read_twin closed _ _ T) as R.
  destruct (read closed c0) as [[t r]|], (read closed c0') as [[t' r']|]; try contradiction; [|now split].
  destruct R as [<- R]. destruct ((p + t <? 0) || (yyLast <=? p + t))%bool; [now apply default_twin|].
  pose proof R as (G1 & G2 & G3 & G4 & G5 & G6 & G7 & G8). rewrite <- G7.
  destruct (at_ yyAct (p + t)) as [s|]; [|now split]. destruct (at_ yyChk s) as [k|]; [|now split].
  destruct (k =? t); [|now apply default_twin]. cbn [twin_result]. unfold twin.
  cbn [state yyval below above look lval defs input]. now repeat split.
Qed.

Lemma run_twin : forall fuel closed c c', twin c c' -> run fuel closed c = run fuel closed c'.
Proof.
  induction fuel as [|f IH]; intros closed c c' T; [reflexivity|]. cbn [run].
  pose proof (step_twin closed _ _ T) as Q. destruct (step closed c), (step closed c'); cbn [twin_result] in Q; try contradiction.
  - now apply IH.
  - destruct Q as [-> ->]. reflexivity.
Qed.

Theorem whitespace_ignored : forall fuel closed d l l', significant l = significant l' ->
  yyParse fuel closed d l = yyParse fuel closed d l'.
Proof. intros fuel closed d l l' E. apply run_twin. unfold twin, start. cbn. now repeat split. Qed.
