(* What is stored for a well-formed locale definition, and preprocessing it. *)
From Verif Require Import GoBase GoFacts Utf8Facts RuneFacts LocaleSpec LocGramSpec LocYaccModel LocYaccProofs LocYaccGram LocYaccSound LocYaccValues LocParseSpec LocYaccFinal
  LocaleModel LocaleProofs LocLexModel LocLexProofs LocDocSpec LocDocLex LocDocProofs.
Local Open Scope Z_scope.

(* ---- tables ---- *)
Definition two_ok (k : bytes) : bool :=
  match k with
  | a :: b :: _ => negb (Ascii.eqb a "c" && Ascii.eqb b "o") && negb (Ascii.eqb a "e" && Ascii.eqb b "s") && lowb a && negb (Ascii.eqb a "#")
  | _ => false
  end.
Definition is_monetary (c : lc) : bool := match c with Monetary => true | _ => false end.
Definition is_a_text (s : shape) : bool := match s with a_text => true | _ => false end.
Definition is_numbers (s : shape) : bool := match s with some_numbers => true | _ => false end.
Definition key_table (c : lc) (sh : shape) (k : bytes) : bool :=
  two_ok k && negb (existsb (Ascii.eqb nl) k) && negb (kw_typ c k =? NUMBER) && (0 <? kw_typ c k) &&
  Bool.eqb (kw_typ c k =? 57424) (beqb k (B "int_curr_symbol")) &&
  Bool.eqb (kw_typ c k =? 57432) (beqb k (B "mon_grouping")) &&
  (negb (beqb k (B "int_curr_symbol")) || is_monetary c && is_a_text sh) &&
  (negb (beqb k (B "mon_grouping")) || is_monetary c && is_numbers sh).
Lemma key_tables : forallb (fun p => forallb (key_table (fst (fst p)) (snd (fst p))) (snd p)) keywords = true.
Proof. vm_compute. reflexivity. Qed.
Lemma key_tab : forall c sh ks k, In (c, sh, ks) keywords -> In k ks ->
  two_ok k = true /\ ~ In nl k /\ kw_typ c k <> NUMBER /\ 0 < kw_typ c k /\
  (kw_typ c k = 57424 <-> k = B "int_curr_symbol") /\ (kw_typ c k = 57432 <-> k = B "mon_grouping") /\
  (k = B "int_curr_symbol" -> c = Monetary /\ sh = a_text) /\ (k = B "mon_grouping" -> c = Monetary /\ sh = some_numbers).
Proof.
  intros c sh ks k I1 I2. pose proof (proj1 (forallb_forall _ _) key_tables _ I1) as H. cbv beta in H. cbn [fst snd] in H.
  apply (proj1 (forallb_forall _ _) H) in I2. unfold key_table in I2. clear H.
  repeat (apply andb_true_iff in I2; let A := fresh "A" in destruct I2 as [I2 A]).
  split; [exact I2|]. split; [intros X; apply in_b in X; rewrite X in A5; discriminate|].
  split; [intros X; rewrite X in A4; discriminate|]. split; [now apply Z.ltb_lt|].
  apply Bool.eqb_prop in A2, A1.
  split; [rewrite <- Z.eqb_eq, A2; apply beqb_eq|]. split; [rewrite <- Z.eqb_eq, A1; apply beqb_eq|].
  split; intros ->; rewrite beqb_refl in *; cbn [negb orb] in *.
  - destruct c; try discriminate A0. destruct sh; try discriminate A0. now split.
  - destruct c; try discriminate A. destruct sh; try discriminate A. now split.
Qed.

(* ---- tokens ---- *)
Definition good (t : token) : Prop :=
  0 < t_type t /\
  (is T_NUMBER t -> atoi (t_value t) <> None /\ ~ In ";"%char (t_value t)) /\
  (is T_INT_CURR_SYMBOL_STR t -> t_value t = B "int_curr_symbol") /\
  (is T_CURRENCY_SYMBOL_STR t \/ is T_MON_DECIMAL_POINT_STR t \/ is T_MON_THOUSANDS_SEP_STR t \/
   is T_POSITIVE_SIGN_STR t \/ is T_NEGATIVE_SIGN_STR t -> t_value t <> B "int_curr_symbol").
(* neither a number nor one of the keywords stored *)
Definition dull (z : Z) : bool := (0 <? z) && negb (z =? 57348) && negb (z =? 57424) && negb ((57421 <=? z) && (z <=? 57426)) && negb (z =? 57432).
Lemma dull_good : forall z v, dull z = true -> good (tk z v) /\ ~ is T_INT_CURR_SYMBOL_STR (tk z v) /\ ~ is T_MON_GROUPING_STR (tk z v).
Proof.
  intros z v H. unfold dull in H. repeat (apply andb_true_iff in H; let A := fresh "A" in destruct H as [H A]).
  apply Z.ltb_lt in H. apply negb_true_iff in A2, A1, A0, A. apply Z.eqb_neq in A2, A1, A.
  apply andb_false_iff in A0. rewrite !Z.leb_gt in A0.
  unfold good, is, tk. cbn [t_type t_value token_number]. repeat split; intros; lia.
Qed.
Definition quiet (t : token) : Prop := good t /\ ~ is T_INT_CURR_SYMBOL_STR t /\ ~ is T_MON_GROUPING_STR t.
Lemma quiet_joined : forall ls, Forall (Forall quiet) ls -> Forall quiet (joined semi ls).
Proof.
  intros ls H. induction H as [|l ls H1 H2 IH]; [constructor|]. destruct ls as [|l' ls]; [exact H1|].
  change (joined semi (l :: l' :: ls)) with (l ++ semi :: joined semi (l' :: ls)). apply Forall_app. split; [exact H1|].
  constructor; [|exact IH]. now apply dull_good.
Qed.
Lemma int_no_semi : forall z, ~ In ";"%char (itoa z).
Proof.
  intros z. destruct (itoa_shape z) as (c & t & -> & I & D & _). intros [->|H].
  - apply in_b in I. discriminate I.
  - apply (proj1 (Forall_forall _ _) D) in H. destruct H as [d H]. discriminate H.
Qed.
Lemma number_quiet : forall z, int64 z -> quiet (tk NUMBER (itoa z)).
Proof.
  intros z H. unfold quiet, good, is, tk. cbn [t_type t_value token_number]. unfold NUMBER.
  repeat split; intros; try lia; try discriminate.
  - rewrite atoi_itoa by exact H. discriminate.
  - apply int_no_semi.
Qed.
Lemma text_quiet : forall s, Forall quiet (text_toks s).
Proof.
  intros [|c s]; unfold text_toks; [repeat constructor; now apply dull_good|].
  constructor; [now apply dull_good|]. apply Forall_app. split; [|repeat constructor; now apply dull_good].
  apply Forall_map, Forall_forall. intros [] _; now apply dull_good.
Qed.
Ltac dulls := repeat (constructor; [now apply dull_good|]); try constructor.
Lemma value_quiet : forall esc sh v, fits esc sh v -> Forall quiet (value_toks v).
Proof.
  intros esc sh v F. destruct sh, v; try (exfalso; exact F); cbn [fits] in F; cbn [value_toks].
  - apply text_quiet.
  - apply text_quiet.
  - apply quiet_joined, Forall_map, Forall_forall. intros. apply text_quiet.
  - constructor; [now apply number_quiet|constructor].
  - apply quiet_joined, Forall_map. eapply Forall_impl; [|exact (proj2 F)]. intros z Hz. constructor; [now apply number_quiet|constructor].
  - apply quiet_joined, Forall_map, Forall_forall. intros. dulls.
  - apply quiet_joined, Forall_map, Forall_forall. intros. unfold pair_toks. dulls.
  - unfold regexp_toks. dulls.
Qed.

Definition key_tok (c : lc) (e : entry) : token := tk (kw_typ c (e_key e)) (e_key e).
Lemma key_good : forall esc c e, entry_ok esc c e -> good (key_tok c e) /\
  (is T_INT_CURR_SYMBOL_STR (key_tok c e) <-> e_key e = B "int_curr_symbol") /\
  (is T_MON_GROUPING_STR (key_tok c e) <-> e_key e = B "mon_grouping").
Proof.
  intros esc c e (_ & sh & ks & I1 & I2 & _). destruct (key_tab _ _ _ _ I1 I2) as (_ & _ & N & P & S1 & G & _ & _).
  unfold good, is, key_tok, tk. cbn [t_type t_value token_number]. unfold NUMBER in N.
  split; [|split; [exact S1|exact G]]. split; [exact P|]. split; [intros E; destruct (N E)|]. split; [apply S1|].
  intros H E. apply S1 in E. rewrite E in H. repeat (destruct H as [H|H]; [discriminate H|]). discriminate H.
Qed.

Definition sym_line (d : dline) : Prop := exists e, d = DEntry Monetary e /\ e_key e = B "int_curr_symbol".
Definition grp_line (d : dline) : Prop := exists e, d = DEntry Monetary e /\ e_key e = B "mon_grouping".
Lemma line_good : forall esc d k, line_ok esc d -> Forall good (line_toks d ++ [eol_tok k]) /\
  (~ sym_line d -> Forall (fun t => ~ is T_INT_CURR_SYMBOL_STR t) (line_toks d ++ [eol_tok k])) /\
  (~ grp_line d -> Forall (fun t => ~ is T_MON_GROUPING_STR t) (line_toks d ++ [eol_tok k])).
Proof.
  intros esc d k O.
  assert (EQ : quiet (eol_tok k)) by (now apply dull_good).
  assert (Q : (exists c e, d = DEntry c e) \/ Forall quiet (line_toks d)).
  { destruct d as [c|c e|c| |dir|n| |]; cbn [line_toks]; try (right; unfold end_toks; try destruct c; dulls; fail).
    - left. eauto.
    - right. destruct dir as [[g w]|]; [|dulls]. constructor; [now apply dull_good|]. constructor; [now apply dull_good|].
      constructor; [|constructor]. apply dull_good. unfold dir_typ. destruct (beqb w _); [reflexivity|]. destruct (beqb w _); reflexivity. }
  destruct Q as [(c & e & ->)|Q].
  - cbn [line_ok] in O. destruct (key_good esc c e O) as (G & S1 & M). cbn [line_toks]. unfold entry_toks. fold (key_tok c e).
    assert (W : quiet (tk WHITESPACE (e_gap e))) by (now apply dull_good).
    destruct O as (_ & sh & ks & I1 & I2 & F). apply value_quiet in F.
    assert (A : Forall quiet (tk WHITESPACE (e_gap e) :: value_toks (e_value e) ++ [eol_tok k])).
    { constructor; [exact W|]. apply Forall_app. split; [exact F|]. constructor; [exact EQ|constructor]. }
    destruct (key_tab _ _ _ _ I1 I2) as (_ & _ & _ & _ & _ & _ & K1 & K2). cbn [app]. split; [|split].
    + constructor; [exact G|]. eapply Forall_impl; [|exact A]. intros t Ht. apply Ht.
    + intros N. constructor; [intros X; apply N; apply S1 in X; destruct (K1 X) as [-> _]; exists e; now split|].
      eapply Forall_impl; [|exact A]. intros t Ht. apply Ht.
    + intros N. constructor; [intros X; apply N; apply M in X; destruct (K2 X) as [-> _]; exists e; now split|].
      eapply Forall_impl; [|exact A]. intros t Ht. apply Ht.
  - assert (A : Forall quiet (line_toks d ++ [eol_tok k])) by (apply Forall_app; split; [exact Q|constructor; [exact EQ|constructor]]).
    split; [|split]; intros; (eapply Forall_impl; [|exact A]); intros t Ht; apply Ht.
Qed.

Lemma lines_good : forall esc ll, Forall (line_ok esc) (map fst ll) -> Forall good (all_toks ll) /\
  ((forall d, In d (map fst ll) -> ~ sym_line d) -> Forall (fun t => ~ is T_INT_CURR_SYMBOL_STR t) (all_toks ll)) /\
  ((forall d, In d (map fst ll) -> ~ grp_line d) -> Forall (fun t => ~ is T_MON_GROUPING_STR t) (all_toks ll)).
Proof.
  intros esc. induction ll as [|[d k] ll IH]; intros F; [repeat constructor|]. cbn [map fst] in F. inversion F as [|? ? F1 F2]; subst.
  destruct (IH F2) as (G & S1 & M). destruct (line_good esc d k F1) as (G' & S1' & M').
  cbn [all_toks flat_map fst snd map]. fold (all_toks ll). split; [|split].
  - apply Forall_app. now split.
  - intros H. apply Forall_app. split; [apply S1', H; now left|]. apply S1. intros x Hx. apply H. now right.
  - intros H. apply Forall_app. split; [apply M', H; now left|]. apply M. intros x Hx. apply H. now right.
Qed.

(* ---- what the definition says, line by line ---- *)
Definition line_text (k : bytes) (d : dline) : list (list glyph) :=
  match d with DEntry Monetary e => match e_value e with Text s => if beqb (e_key e) k then [s] else [] | _ => [] end | _ => [] end.
Definition line_numbers (k : bytes) (d : dline) : list (list Z) :=
  match d with DEntry Monetary e => match e_value e with Numbers l => if beqb (e_key e) k then [l] else [] | _ => [] end | _ => [] end.
Lemma flat_map_none : forall (A C : Type) (f : A -> list C) l, (forall x, In x l -> f x = []) -> flat_map f l = [].
Proof. intros A C f l H. induction l as [|x l IH]; [reflexivity|]. cbn [flat_map]. rewrite H by (now left). apply IH. intros y I. apply H. now right. Qed.
Lemma flat_map_map : forall (A C D : Type) (f : A -> C) (g : C -> list D) l, flat_map g (map f l) = flat_map (fun x => g (f x)) l.
Proof. intros. induction l as [|x l IH]; [reflexivity|]. cbn [map flat_map]. now rewrite IH. Qed.
Lemma part_says : forall (C : Type) (h : dline -> list C) (g : entry -> list C),
  (forall e, h (DEntry Monetary e) = g e) -> (forall d, (forall e, d <> DEntry Monetary e) -> h d = []) ->
  forall doc, flat_map h (flat_map part_dlines doc) = flat_map g (flat_map entries_of doc).
Proof.
  intros C h g H1 H2 doc. induction doc as [|p doc IH]; [reflexivity|]. cbn [flat_map]. rewrite !flat_map_app, IH. f_equal.
  destruct p as [c es|dir order].
  - cbn [part_dlines flat_map]. rewrite (H2 (DHead c)) by discriminate. rewrite flat_map_app. cbn [flat_map app].
    rewrite (H2 (DEnd c)) by discriminate. rewrite !app_nil_r, flat_map_map. destruct c; cbn [entries_of flat_map];
      try (apply flat_map_none; intros x _; apply H2; discriminate).
    apply flat_map_ext. exact H1.
  - apply flat_map_none. intros d I. apply H2. intros e ->. cbn [part_dlines In] in I. destruct I as [I|[I|I]]; try discriminate I.
    apply in_app_or in I. destruct I as [I|I]; [apply in_map_iff in I; destruct I as (x & I & _); discriminate I|].
    cbn [In] in I. destruct I as [I|[I|[]]]; discriminate I.
Qed.
Lemma texts_lines : forall k doc, flat_map (line_text k) (flat_map part_dlines doc) = texts_of k doc.
Proof.
  intros k doc. apply part_says; [reflexivity|]. intros d H. destruct d as [|c e| | | | | |]; try reflexivity. destruct c; try reflexivity.
  now destruct (H e).
Qed.
Lemma numbers_lines : forall k doc, flat_map (line_numbers k) (flat_map part_dlines doc) = numbers_of k doc.
Proof.
  intros k doc. apply part_says; [reflexivity|]. intros d H. destruct d as [|c e| | | | | |]; try reflexivity. destruct c; try reflexivity.
  now destruct (H e).
Qed.

Lemma sym_line_text : forall esc d, line_ok esc d -> sym_line d -> exists e s, d = DEntry Monetary e /\ e_key e = B "int_curr_symbol" /\
  e_value e = Text s /\ text_ok esc s /\ line_text (B "int_curr_symbol") d = [s].
Proof.
  intros esc d O (e & -> & K). cbn [line_ok] in O. destruct O as (_ & sh & ks & I1 & I2 & F).
  destruct (key_tab _ _ _ _ I1 I2) as (_ & _ & _ & _ & _ & _ & K1 & _). destruct (K1 K) as [_ ->].
  destruct (e_value e) as [s| | | | | |] eqn:V; try (exfalso; exact F). exists e, s. cbn [line_text]. rewrite V, K, beqb_refl. auto.
Qed.
Lemma grp_line_numbers : forall esc d, line_ok esc d -> grp_line d -> exists e l, d = DEntry Monetary e /\ e_key e = B "mon_grouping" /\
  e_value e = Numbers l /\ l <> [] /\ Forall int64 l /\ line_numbers (B "mon_grouping") d = [l].
Proof.
  intros esc d O (e & -> & K). cbn [line_ok] in O. destruct O as (_ & sh & ks & I1 & I2 & F).
  destruct (key_tab _ _ _ _ I1 I2) as (_ & _ & _ & _ & _ & _ & _ & K2). destruct (K2 K) as [_ ->].
  destruct (e_value e) as [| | |l| | |] eqn:V; try (exfalso; exact F). cbn [fits] in F. exists e, l. cbn [line_numbers].
  rewrite V, K, beqb_refl. destruct F as [F1 F2]. auto 10.
Qed.
Lemma not_sym : forall d, ~ sym_line d -> line_text (B "int_curr_symbol") d = [].
Proof.
  intros d H. destruct d as [|c e| | | | | |]; try reflexivity. destruct c; try reflexivity. cbn [line_text].
  destruct (e_value e); try reflexivity. destruct (beqb _ _) eqn:E; [|reflexivity]. apply beqb_eq in E. destruct H. now exists e.
Qed.
Lemma not_grp : forall d, ~ grp_line d -> line_numbers (B "mon_grouping") d = [].
Proof.
  intros d H. destruct d as [|c e| | | | | |]; try reflexivity. destruct c; try reflexivity. cbn [line_numbers].
  destruct (e_value e); try reflexivity. destruct (beqb _ _) eqn:E; [|reflexivity]. apply beqb_eq in E. destruct H. now exists e.
Qed.

(* the last line with a property *)
Lemma last_with : forall (A : Type) (P : A -> Prop) l, (forall x, P x \/ ~ P x) ->
  (forall x, In x l -> ~ P x) \/ (exists a x b, l = a ++ x :: b /\ P x /\ forall y, In y b -> ~ P y).
Proof.
  intros A P l D. induction l as [|x l IH]; [left; intros ? []|]. destruct IH as [IH|(a & y & b & -> & Py & N)].
  - destruct (D x) as [Px|Nx].
    + right. exists [], x, l. now split.
    + left. intros y [<-|I]; [exact Nx|now apply IH].
  - right. exists (x :: a), y, b. now split.
Qed.
Lemma sym_dec : forall d, sym_line d \/ ~ sym_line d.
Proof.
  intros d. destruct d as [|c e| | | | | |]; try (right; intros (? & X & _); discriminate X).
  destruct c; try (right; intros (? & X & _); discriminate X).
  destruct (beqb (e_key e) (B "int_curr_symbol")) eqn:E; [left; exists e; split; [reflexivity|now apply beqb_eq]|].
  right. intros (e' & X & K). injection X as <-. apply beqb_eq in K. congruence.
Qed.
Lemma grp_dec : forall d, grp_line d \/ ~ grp_line d.
Proof.
  intros d. destruct d as [|c e| | | | | |]; try (right; intros (? & X & _); discriminate X).
  destruct c; try (right; intros (? & X & _); discriminate X).
  destruct (beqb (e_key e) (B "mon_grouping")) eqn:E; [left; exists e; split; [reflexivity|now apply beqb_eq]|].
  right. intros (e' & X & K). injection X as <-. apply beqb_eq in K. congruence.
Qed.

(* ---- reading the stored values back ---- *)
Lemma cut_unique : forall (A : Type) (P : A -> Prop) a x p b y q, Forall P a -> Forall P b -> ~ P x -> ~ P y ->
  a ++ x :: p = b ++ y :: q -> a = b.
Proof.
  intros A P a. induction a as [|u a IH]; intros x p [|v b] y q Fa Fb Nx Ny E; cbn [app] in E.
  - reflexivity.
  - injection E as -> _. inversion Fb; subst. contradiction.
  - injection E as <- _. inversion Fa; subst. contradiction.
  - injection E as -> E. inversion Fa as [|? ? _ Fa']; inversion Fb as [|? ? _ Fb']; subst. f_equal. exact (IH _ _ _ _ _ Fa' Fb' Nx Ny E).
Qed.
Definition shown (s : list glyph) : bytes := match s with [] => [""""%char; """"%char] | _ => written s end.
Lemma quoted_text : forall s seg post r v, seg ++ post = text_toks s ++ r -> quoted seg v -> v = shown s.
Proof.
  intros s seg post r v E Q. destruct s as [|g s].
  - change (text_toks []) with [tk TWO_DOUBLE_QUOTE_STR [""""%char; """"%char]] in E. cbn [app] in E.
    destruct Q as [(q1 & cs & q2 & -> & I1 & _)|(t & -> & _ & ->)].
    + cbn [app] in E. injection E as -> _. discriminate I1.
    + cbn [app] in E. injection E as -> _. reflexivity.
  - unfold text_toks in E. unfold shown. remember (g :: s) as l. clear Heql g s.
    destruct Q as [(q1 & cs & q2 & -> & I1 & I2 & _ & C & ->)|(t1 & -> & I1 & _)].
    + cbn [app] in E. injection E as -> E. rewrite <- !app_assoc in E. cbn [app] in E.
      assert (C' : Forall is_character (map glyph_tok l)).
      { apply Forall_map, Forall_forall. intros g _. unfold is_character, is, glyph_tok, tk. destruct g; cbn [t_type glyph_typ]; tauto. }
      assert (N : forall t, is T_dquote t -> ~ is_character t).
      { intros u Hu. unfold is_character, is in *. rewrite Hu. intros [X|[X|[X|[X|X]]]]; discriminate X. }
      apply (cut_unique _ _ _ _ _ _ _ _ C C' (N _ I2) (N (tk DQUOTE [""""%char]) eq_refl)) in E. subst cs. rewrite map_map.
      unfold written. now rewrite flat_map_concat_map.
    + cbn [app] in E. injection E as -> _. discriminate I1.
Qed.

Lemma grouped_list : forall l seg post r k ns, l <> [] ->
  seg ++ post = joined semi (map (fun z => [tk NUMBER (itoa z)]) l) ++ eol_tok k :: r -> grouped seg ns -> ns = map itoa l.
Proof.
  induction l as [|z l IH]; intros seg post r k ns Ne E G; [congruence|]. destruct l as [|z' l].
  - cbn [map joined app] in E. inversion G as [n e I1 I2|n s l' ns' I1 I2 G']; subst.
    + cbn [app] in E. injection E as -> _ _. reflexivity.
    + cbn [app] in E. injection E as _ -> _. discriminate I2.
  - change (joined semi (map (fun z => [tk NUMBER (itoa z)]) (z :: z' :: l))) with
      ([tk NUMBER (itoa z)] ++ semi :: joined semi (map (fun z => [tk NUMBER (itoa z)]) (z' :: l))) in E.
    rewrite <- app_assoc in E. cbn [app] in E. inversion G as [n e I1 I2|n s l' ns' I1 I2 G']; subst.
    + cbn [app] in E. injection E as _ -> _. discriminate I2.
    + cbn [app] in E. injection E as -> _ E. cbn [map t_value tk]. f_equal. exact (IH _ _ _ _ _ ltac:(discriminate) E G').
Qed.

(* ---- preprocessing ---- *)
Definition simple (l : bytes) : Prop :=
  ~ In nl l /\ (exists h t, l = h :: t /\ low h /\ h <> "#"%char) /\ (exists a z, l = a ++ [z] /\ low z /\ z <> "\"%char) /\
  checkSpecialWord l (B "comment_char") = None /\ checkSpecialWord l (B "escape_char") = None.

Lemma check_two : forall k r, two_ok k = true ->
  checkSpecialWord (k ++ r) (B "comment_char") = None /\ checkSpecialWord (k ++ r) (B "escape_char") = None.
Proof.
  intros [|a [|b k]] r H; try discriminate H. cbn [two_ok] in H. apply andb_true_iff in H. destruct H as [H _].
  apply andb_true_iff in H. destruct H as [H _]. apply andb_true_iff in H. destruct H as [H1 H2]. apply negb_true_iff in H1, H2.
  unfold checkSpecialWord. cbn [app].
  split.
  - destruct (beqb _ _) eqn:E; [|reflexivity]. apply beqb_eq in E. change (B "comment_char") with ("c"%char :: "o"%char :: B "mment_char") in E.
    cbn [List.length firstn] in E. injection E as -> -> _. discriminate H1.
  - destruct (beqb _ _) eqn:E; [|reflexivity]. apply beqb_eq in E. change (B "escape_char") with ("e"%char :: "s"%char :: B "cape_char") in E.
    cbn [List.length firstn] in E. injection E as -> -> _. discriminate H2.
Qed.
Lemma two_head : forall k r, two_ok k = true -> exists h t, k ++ r = h :: t /\ low h /\ h <> "#"%char.
Proof.
  intros [|a [|b k]] r H; try discriminate H. cbn [two_ok] in H. apply andb_true_iff in H. destruct H as [H H4].
  apply andb_true_iff in H. destruct H as [_ H3]. exists a, ((b :: k) ++ r). split; [reflexivity|]. split; [now apply N.ltb_lt|].
  intros ->. discriminate H4.
Qed.

Lemma plain_no_nl : forall s, plain_text s -> ~ In nl s.
Proof.
  intros s (rs & -> & F) I. assert (V : Forall valid_rune rs) by (eapply Forall_impl; [|exact F]; intros x Hx; apply Hx).
  apply in_split in I. destruct I as (a & b & E). pose proof (runes_of_string rs V) as R. rewrite E in R.
  rewrite runes_of_cut in R by reflexivity. rewrite <- R in F. apply Forall_app in F. destruct F as [_ F]. inversion F as [|? ? F1 _]; subst.
  now destruct F1 as (_ & _ & X & _).
Qed.
Lemma text_no_nl : forall esc s, text_ok esc s -> ~ In nl (written s).
Proof.
  intros esc s [F _] I. apply in_flat_map in I. destruct I as (g & I & J). apply (proj1 (Forall_forall _ _) F) in I. clear F s.
  assert (D : forall c l, In c l -> existsb (Ascii.eqb nl) l = false -> c <> nl).
  { intros c l K1 K2 ->. apply in_b in K1. congruence. }
  destruct g as [r|c|a b c|a b c|a b]; cbn [glyph_ok write_glyph] in *.
  - refine (plain_no_nl (encode_rune r) _ J). exists [r]. split; [unfold string_of_runes; cbn [flat_map]; now rewrite app_nil_r|].
    constructor; [exact I|constructor].
  - destruct J as [J|[J|[]]]; [discriminate J|]. now destruct I as (_ & _ & I).
  - destruct I as (Ia & Ib & Ic & _). destruct J as [J|[J|[J|[J|[]]]]]; [discriminate J|..].
    + now apply (D _ _ Ia eq_refl).
    + now apply (D _ _ Ib eq_refl).
    + now apply (D _ _ Ic eq_refl).
  - destruct I as (Ia & Ib & Ic & _). destruct J as [J|[J|[J|[J|J]]]]; try discriminate J.
    + now apply (D _ _ Ia eq_refl).
    + now apply (D _ _ Ib eq_refl).
    + destruct c as [c|]; [|destruct J]. destruct J as [J|[]]. now apply (D _ _ (Ic c eq_refl) eq_refl).
  - destruct I as (Ia & Ib & _). destruct J as [J|[J|[J|[J|[]]]]]; try discriminate J.
    + now apply (D _ _ Ia eq_refl).
    + now apply (D _ _ Ib eq_refl).
Qed.
Lemma name_no_nl : forall n, symbol_name n -> ~ In nl n.
Proof.
  intros n F I. apply (proj1 (Forall_forall _ _) F) in I. apply in_b in I. discriminate I.
Qed.
Lemma int_no_nl : forall z, ~ In nl (itoa z).
Proof.
  intros z. destruct (itoa_shape z) as (c & t & -> & I & D & _). intros [->|H].
  - apply in_b in I. discriminate I.
  - apply (proj1 (Forall_forall _ _) D) in H. destruct H as [d H]. discriminate H.
Qed.
Lemma join_no_nl : forall (A : Type) (write : A -> bytes) l, (forall x, In x l -> ~ In nl (write x)) -> ~ In nl (join (B ";") (map write l)).
Proof.
  intros A write l. induction l as [|x l IH]; intros H; [intros []|]. destruct l as [|y l]; [apply H; now left|].
  change (join (B ";") (map write (x :: y :: l))) with (write x ++ B ";" ++ join (B ";") (map write (y :: l))).
  intros I. apply in_app_or in I. destruct I as [I|I]; [exact (H x (or_introl eq_refl) I)|].
  apply in_app_or in I. destruct I as [I|I]; [apply in_b in I; discriminate I|]. revert I. apply IH. intros z Hz. apply H. now right.
Qed.
Lemma quotes_no_nl : forall s, ~ In nl s -> ~ In nl (in_quotes s).
Proof. intros s H [E|I]; [discriminate E|]. apply in_app_or in I. destruct I as [I|[I|[]]]; [now apply H|discriminate I]. Qed.
Lemma bracket_no_nl : forall s, ~ In nl s -> ~ In nl (bracketed s).
Proof. intros s H [E|I]; [discriminate E|]. apply in_app_or in I. destruct I as [I|[I|[]]]; [now apply H|discriminate I]. Qed.
Lemma value_no_nl : forall esc sh v, fits esc sh v -> ~ In nl (write_value v).
Proof.
  intros esc sh v F. destruct sh, v; try (exfalso; exact F); cbn [fits] in F; cbn [write_value].
  - now apply quotes_no_nl, (text_no_nl esc).
  - now apply quotes_no_nl, (text_no_nl esc).
  - apply join_no_nl. intros x I. apply quotes_no_nl, (text_no_nl esc). exact (proj1 (proj1 (Forall_forall _ _) (proj2 F) x I)).
  - apply int_no_nl.
  - apply join_no_nl. intros x _. apply int_no_nl.
  - apply join_no_nl. intros x I. apply bracket_no_nl, name_no_nl. exact (proj1 (Forall_forall _ _) (proj2 F) x I).
  - apply join_no_nl. intros x I. destruct (proj1 (Forall_forall _ _) (proj2 F) x I) as [N1 N2]. unfold pair_text.
    intros [E|J]; [discriminate E|]. apply in_app_or in J. destruct J as [J|[J|J]]; [|discriminate J|].
    + revert J. now apply bracket_no_nl, name_no_nl.
    + apply in_app_or in J. destruct J as [J|[J|[]]]; [|discriminate J]. revert J. now apply bracket_no_nl, name_no_nl.
  - now apply quotes_no_nl.
Qed.

Definition ends_well (l : bytes) : Prop := exists a z, l = a ++ [z] /\ low z /\ z <> "\"%char.
Lemma ends_app : forall a l, ends_well l -> ends_well (a ++ l).
Proof. intros a l (b & z & -> & H). exists (a ++ b), z. split; [apply app_assoc|exact H]. Qed.
Lemma ends_b : forall a z, lowb z && negb (Ascii.eqb z "\") = true -> ends_well (a ++ [z]).
Proof.
  intros a z H. apply andb_true_iff in H. destruct H as [H1 H2]. exists a, z. split; [reflexivity|]. split; [now apply N.ltb_lt|].
  intros ->. discriminate H2.
Qed.
Lemma quotes_end : forall s, ends_well (in_quotes s). Proof. intros s. now apply (ends_b (""""%char :: s)). Qed.
Lemma bracket_end : forall s, ends_well (bracketed s). Proof. intros s. now apply (ends_b ("<"%char :: s)). Qed.
Lemma int_end : forall z, ends_well (itoa z).
Proof.
  intros z. destruct (itoa_shape z) as (c & t & -> & I & D & _). destruct (exists_last (l := c :: t)) as (a & y & E); [discriminate|].
  rewrite E. apply ends_b. assert (Y : In y int_chars).
  { assert (H : In y (c :: t)) by (rewrite E; apply in_or_app; right; now left). destruct H as [<-|H]; [exact I|].
    exact (proj1 (digit_int _ (proj1 (Forall_forall _ _) D y H))). }
  assert (A : forallb (fun z => lowb z && negb (Ascii.eqb z "\")) int_chars = true) by reflexivity.
  exact (proj1 (forallb_forall _ _) A y Y).
Qed.
Lemma join_end : forall (A : Type) (write : A -> bytes) l, l <> [] -> (forall x, ends_well (write x)) -> ends_well (join (B ";") (map write l)).
Proof.
  intros A write l Ne H. induction l as [|x l IH]; [congruence|]. destruct l as [|y l]; [exact (H x)|].
  change (join (B ";") (map write (x :: y :: l))) with (write x ++ B ";" ++ join (B ";") (map write (y :: l))).
  apply ends_app, ends_app, IH. discriminate.
Qed.
Lemma value_end : forall esc sh v, fits esc sh v -> ends_well (write_value v).
Proof.
  intros esc sh v F. destruct sh, v; try (exfalso; exact F); cbn [fits] in F; cbn [write_value]; try apply quotes_end; try apply int_end;
    apply join_end; try apply (proj1 F); intros x; try apply quotes_end; try apply int_end; try apply bracket_end.
  change (pair_text x) with (("("%char :: bracketed (fst x)) ++ (","%char :: bracketed (snd x)) ++ [")"%char]).
  now apply ends_app, ends_b.
Qed.

Lemma keys_b : forall l, existsb (Ascii.eqb nl) l = false -> ~ In nl l.
Proof. intros l H I. apply in_b in I. congruence. Qed.
Lemma line_simple : forall esc d, line_ok esc d -> simple (write_line d).
Proof.
  intros esc d O. unfold simple. fold (ends_well (write_line d)). destruct d as [c|c e|c| |dir|n| |]; cbn [write_line line_ok] in *.
  - split; [destruct c; now apply keys_b|]. split; [destruct c; eexists; eexists; split; [reflexivity|now split|reflexivity|now split|reflexivity|now split|reflexivity|now split|reflexivity|now split]|].
    split; [|now destruct c]. destruct c; [now apply (ends_b (B "LC_CTYP"))|now apply (ends_b (B "LC_MONETAR"))|now apply (ends_b (B "LC_NUMERI"))|now apply (ends_b (B "LC_TIM"))|now apply (ends_b (B "LC_MESSAGE"))].
  - destruct O as ([_ G] & sh & ks & I1 & I2 & F). destruct (key_tab _ _ _ _ I1 I2) as (T & N & _). unfold write_entry.
    split; [|split; [now apply two_head|split; [apply ends_app, ends_app; now apply (value_end esc sh)|now apply check_two]]].
    intros I. apply in_app_or in I. destruct I as [I|I]; [now apply N|]. apply in_app_or in I. destruct I as [I|I].
    + apply (proj1 (Forall_forall _ _) G) in I. destruct I as [I|I]; discriminate I.
    + revert I. now apply (value_no_nl esc sh).
  - split; [destruct c; now apply keys_b|]. split; [eexists; eexists; split; [reflexivity|]; now split|].
    split; [|now destruct c]. apply ends_app. destruct c; [now apply (ends_b (B "LC_CTYP"))|now apply (ends_b (B "LC_MONETAR"))|now apply (ends_b (B "LC_NUMERI"))|now apply (ends_b (B "LC_TIM"))|now apply (ends_b (B "LC_MESSAGE"))].
  - split; [now apply keys_b|]. split; [eexists; eexists; split; [reflexivity|]; now split|]. split; [now apply (ends_b (B "LC_COLLAT"))|now split].
  - split; [|split; [eexists; eexists; split; [reflexivity|]; now split|split; [|now split]]].
    + intros I. apply in_app_or in I. destruct I as [I|I]; [revert I; now apply keys_b|]. destruct dir as [[g w]|]; [|destruct I].
      destruct O as [[_ G] W]. apply in_app_or in I. destruct I as [I|I].
      * apply (proj1 (Forall_forall _ _) G) in I. destruct I as [I|I]; discriminate I.
      * revert I. cbn [In] in W. destruct W as [<-|[<-|[<-|[]]]]; now apply keys_b.
    + destruct dir as [[g w]|]; [|rewrite app_nil_r; now apply (ends_b (B "order_star"))]. destruct O as [_ W]. apply ends_app, ends_app.
      cbn [In] in W. destruct W as [<-|[<-|[<-|[]]]]; [now apply (ends_b (B "forwar"))|now apply (ends_b (B "backwar"))|now apply (ends_b (B "positio"))].
  - split; [now apply bracket_no_nl, name_no_nl|]. split; [eexists; eexists; split; [reflexivity|]; now split|]. split; [apply bracket_end|now split].
  - split; [now apply keys_b|]. split; [eexists; eexists; split; [reflexivity|]; now split|]. split; [now apply (ends_b (B "order_en"))|now split].
  - split; [now apply keys_b|]. split; [eexists; eexists; split; [reflexivity|]; now split|]. split; [now apply (ends_b (B "END LC_COLLAT"))|now split].
Qed.

Lemma remove_simple : forall f l rest, simple l -> remove_lines (S f) 35 92 (l :: rest) = put (l ++ [nl]) (remove_lines f 35 92 rest).
Proof.
  intros f l rest (_ & (h & t & E & L & Nh) & (a & z & E2 & Lz & Nz) & C1 & C2). rewrite remove_lines_cons.
  assert (D : fst (decode_rune l) = byte_val h) by (rewrite E, decode_low by exact L; reflexivity). rewrite D.
  replace (byte_val h =? 35)%N with false.
  2:{ symmetry. apply N.eqb_neq. intros X. apply Nh. apply byte_val_inj. exact X. }
  rewrite C1, C2. cbv zeta.
  assert (J : join_cont 92 l rest = Ok (l, rest)).
  { rewrite E2. assert (X : decode_last_rune (a ++ [z]) = (byte_val z, 1%nat)).
    { unfold decode_last_rune. rewrite rev_app_distr. cbn [rev app]. unfold low in Lz. apply N.ltb_lt in Lz. now rewrite Lz. }
    destruct rest; cbn [join_cont]; (destruct (a ++ [z]) as [|c r] eqn:Q; [now destruct a|]); rewrite X.
    - replace (byte_val z =? rune_error)%N with false; [|symmetry; apply N.eqb_neq; unfold low, rune_error in *; lia].
      replace (byte_val z =? 92)%N with false; [reflexivity|]. symmetry. apply N.eqb_neq. intros Y. apply Nz. apply byte_val_inj. exact Y.
    - replace (byte_val z =? rune_error)%N with false; [|symmetry; apply N.eqb_neq; unfold low, rune_error in *; lia].
      replace (byte_val z =? 92)%N with false; [reflexivity|]. symmetry. apply N.eqb_neq. intros Y. apply Nz. apply byte_val_inj. exact Y. }
  rewrite J. cbn [rbind]. unfold put. destruct (remove_lines f 35 92 rest) as [[o e]| |]; cbn [rbind]; [|reflexivity..].
  now rewrite <- app_assoc.
Qed.
Lemma remove_comment : forall f l rest, comment l -> remove_lines (S f) 35 92 (l :: rest) = remove_lines f 35 92 rest.
Proof. intros f l rest (s & -> & _). rewrite remove_lines_cons. rewrite decode_low by reflexivity. reflexivity. Qed.
Lemma remove_blank : forall f rest, remove_lines (S f) 35 92 ([] :: rest) = put [nl] (remove_lines f 35 92 rest).
Proof.
  intros f rest. rewrite remove_lines_cons. change (fst (decode_rune [])) with 65533%N. cbn [N.eqb Pos.eqb].
  replace (checkSpecialWord [] (B "comment_char")) with (@None N) by reflexivity.
  replace (checkSpecialWord [] (B "escape_char")) with (@None N) by reflexivity. cbv zeta.
  replace (join_cont 92 [] rest) with (Ok ([] : bytes, rest)) by (destruct rest; reflexivity). cbn [rbind]. unfold put.
  destruct (remove_lines f 35 92 rest) as [[o e]| |]; reflexivity.
Qed.

Lemma after_source : forall ls f, after ls f -> forall ds fuel, map write_line ds = ls -> Forall (line_ok 92) ds -> (List.length f < fuel)%nat ->
  exists k ll, map fst ll = ds /\ remove_lines fuel 35 92 (f ++ [[]]) = Ok (repeat nl k ++ source ll, 92%N).
Proof.
  intros ls f H. induction H as [|l ls f H IH|ls f H IH|c ls f Hc H IH]; intros ds fuel E O Le; (destruct fuel as [|fuel]; [lia|]);
    cbn [List.length app] in *.
  - apply map_eq_nil in E. subst ds. exists 1%nat, []. split; [reflexivity|]. rewrite remove_blank. destruct fuel; reflexivity.
  - destruct ds as [|d ds]; [discriminate E|]. cbn [map] in E. injection E as <- E. inversion O as [|? ? O1 O2]; subst.
    destruct (IH ds fuel eq_refl O2) as (k & ll & E1 & R); [lia|]. exists 0%nat, ((d, newlines k) :: ll). split; [cbn [map fst]; now rewrite E1|].
    rewrite remove_simple by (now apply (line_simple 92)). rewrite R. cbn [put rbind repeat app source flat_map fst snd]. fold (source ll).
    rewrite newlines_end. cbn [repeat]. rewrite <- !app_assoc. reflexivity.
  - destruct (IH ds fuel E O) as (k & ll & E1 & R); [lia|]. exists (S k), ll. split; [exact E1|]. rewrite remove_blank, R. reflexivity.
  - destruct (IH ds fuel E O) as (k & ll & E1 & R); [lia|]. exists k, ll. split; [exact E1|]. now rewrite remove_comment.
Qed.
Lemma after_no_nl : forall ls f, after ls f -> (forall l, In l ls -> ~ In nl l) -> forall l, In l f -> ~ In nl l.
Proof.
  intros ls f H. induction H as [|l ls f H IH|ls f H IH|c ls f (s & -> & Hc) H IH]; intros N x I.
  - destruct I.
  - destruct I as [<-|I]; [apply N; now left|]. apply IH; [|exact I]. intros y Hy. apply N. now right.
  - destruct I as [<-|I]; [now intros []|]. now apply IH.
  - destruct I as [<-|I]; [|now apply IH]. intros [X|X]; [discriminate X|now apply Hc].
Qed.

Lemma layout_source : forall doc text, definition_of doc text -> exists ll, map fst ll = flat_map part_dlines doc /\
  removeComments text = Ok (source ll, 92%N).
Proof.
  intros doc text (O & file & (cs & l & ls & f & E & C & -> & A) & ->). apply doc_lines_ok in O. rewrite <- doc_written in E.
  destruct (flat_map part_dlines doc) as [|d ds]; [discriminate E|]. cbn [map] in E. injection E as <- <-.
  inversion O as [|? ? O1 O2]; subst. unfold removeComments.
  assert (N : forall x, In x (cs ++ write_line d :: f) -> ~ In nl x).
  { intros x I. apply in_app_or in I. destruct I as [I|[<-|I]].
    - apply (proj1 (Forall_forall _ _) C) in I. destruct I as (s & -> & Hs). intros [X|X]; [discriminate X|now apply Hs].
    - exact (proj1 (line_simple 92 d O1)).
    - apply (after_no_nl _ _ A); [|exact I]. intros y Hy. apply in_map_iff in Hy. destruct Hy as (z & <- & Hz).
      exact (proj1 (line_simple 92 z (proj1 (Forall_forall _ _) O2 z Hz))). }
  change (file_text (cs ++ write_line d :: f)) with (unlines (cs ++ write_line d :: f)). rewrite split_unlines by exact N.
  cbv zeta. rewrite !app_length. cbn [List.length]. rewrite <- app_assoc. cbn [app]. clear N.
  destruct (after_source _ _ A ds (S (List.length f)) eq_refl O2) as (k & ll & E1 & R); [lia|].
  exists ((d, newlines k) :: ll). split; [cbn [map fst]; now rewrite E1|].
  induction C as [|c cs Hc C IH].
  - cbn [List.length app Nat.add]. replace (List.length f + 1)%nat with (S (List.length f)) by lia.
    rewrite remove_simple by (now apply (line_simple 92)). rewrite R. cbn [put rbind source flat_map fst snd]. fold (source ll).
    rewrite newlines_end. cbn [repeat]. rewrite <- !app_assoc. reflexivity.
  - cbn [List.length app Nat.add]. now rewrite remove_comment.
Qed.

(* ---- together ---- *)
Theorem document_source : forall doc text d ll r esc, doc <> [] -> Forall (part_ok esc) doc -> map fst ll = flat_map part_dlines doc ->
  stray r -> removeComments text = Ok (source ll ++ r, esc) ->
  exists d', (exists n, forall fuel, (n <= fuel)%nat -> parse_text fuel d text = Accepted d') /\
    int_curr_symbol d' = last (map shown (texts_of (B "int_curr_symbol") doc)) (int_curr_symbol d) /\
    int_frac_digits d' = int_frac_digits d /\
    mon_grouping d' = last (numbers_of (B "mon_grouping") doc) (mon_grouping d).
Proof.
  intros doc text d ll r esc Ne O El St R.
  destruct (doc_spells esc doc ll Ne O El) as (w & Dw & Sw). pose proof (doc_lines_ok esc doc O) as OL. rewrite <- El in OL.
  destruct (lines_good esc ll OL) as (G & GS & GG).
  assert (P : positive (all_toks ll)) by (eapply Forall_impl; [|exact G]; intros t Ht; apply Ht).
  destruct (spells_accepted d (all_toks ll) w P Sw Dw) as (d' & Y).
  { intros t I X. exact (proj1 (proj1 (proj2 (proj1 (Forall_forall _ _) G t I)) X)). }
  exists d'. split; [|split; [|split]].
  - exists (100 * S (List.length (all_toks ll)) + 3 * List.length (source ll) + 3 * List.length ll + 4)%nat. intros fuel Le.
    unfold parse_text. rewrite R. rewrite (lex_doc doc ll r fuel esc O El St) by lia. cbv zeta beta iota. cbn [tokens_of sent fresh].
    rewrite rev_involutive. replace fuel with (100 * S (List.length (all_toks ll)) + (fuel - 100 * S (List.length (all_toks ll))))%nat by lia.
    unfold yyParse in *. rewrite (LocYaccSound.run_more _ _ _ _ _ Y). reflexivity.
  - assert (K : keyword_texts (all_toks ll)).
    { split; (eapply Forall_impl; [|exact G]); intros t Ht; apply Ht. }
    destruct (curr_symbol _ _ _ _ _ P K Y) as [N1 N2]. rewrite <- texts_lines, <- El.
    destruct (last_with _ sym_line (map fst ll) sym_dec) as [N|(a & x & b & Es & Hx & N)].
    + rewrite flat_map_none by (intros x I; apply not_sym, N, I). cbn [map last]. apply N1. apply Forall_forall. now apply GS.
    + assert (Ox : line_ok esc x) by (apply (proj1 (Forall_forall _ _) OL); rewrite Es; apply in_or_app; right; now left).
      destruct (sym_line_text esc x Ox Hx) as (e & s & -> & Ke & Ve & Ps & Lt).
      rewrite Es, flat_map_app. cbn [flat_map]. rewrite Lt. rewrite (flat_map_none _ _ _ b) by (intros y I; apply not_sym, N, I).
      cbn [app]. rewrite map_app. cbn [map]. rewrite last_last.
      apply by_map in Es. destruct Es as (l1 & l2 & -> & Ea & Eb). destruct l2 as [|[y k] l2]; [discriminate Eb|].
      cbn [map fst] in Eb. injection Eb as -> Eb.
      assert (Ob : Forall (line_ok esc) (map fst l2)).
      { rewrite map_app in OL. apply Forall_app in OL. destruct OL as [_ OL]. now inversion OL. }
      rewrite toks_app in N2. change (all_toks ((DEntry Monetary e, k) :: l2)) with ((entry_toks Monetary e ++ [eol_tok k]) ++ all_toks l2) in N2.
      destruct (N2 (significant (all_toks l1)) (key_tok Monetary e) (text_toks s ++ eol_tok k :: significant (all_toks l2))) as (seg & post & Eseg & Q).
      * rewrite !significant_app. f_equal. unfold entry_toks. rewrite Ve. cbn [value_toks].
        change (significant (tk (kw_typ Monetary (e_key e)) (e_key e) :: tk WHITESPACE (e_gap e) :: text_toks s)) with
          (significant ([tk (kw_typ Monetary (e_key e)) (e_key e)] ++ [tk WHITESPACE (e_gap e)] ++ text_toks s)).
        rewrite !significant_app, (spelt_significant _ _ (spelt_text s)). unfold key_tok. rewrite Ke. rewrite <- !app_assoc. reflexivity.
      * apply (key_good esc Monetary e Ox). exact Ke.
      * destruct (lines_good esc l2 Ob) as (_ & GS2 & _). intros t I. apply in_app_or in I. destruct I as [I|[<-|I]].
        -- exact (proj1 (proj2 (proj1 (Forall_forall _ _) (text_quiet s) t I))).
        -- discriminate.
        -- apply in_significant in I. refine (proj1 (Forall_forall _ _) (GS2 _) t I). rewrite Eb. exact N.
      * exact (quoted_text s seg post _ _ (eq_sym Eseg) Q).
  - destruct (accepted_means _ _ _ _ _ P Y) as (_ & v & M). exact (proj1 (LocYaccValues.parse_values _ _ _ _ M)).
  - assert (K : forall t, In t (all_toks ll) -> is T_NUMBER t -> ~ In ";"%char (t_value t)).
    { intros t I X. exact (proj2 (proj1 (proj2 (proj1 (Forall_forall _ _) G t I)) X)). }
    destruct (grouping _ _ _ _ _ P K Y) as [N1 N2]. rewrite <- numbers_lines, <- El.
    destruct (last_with _ grp_line (map fst ll) grp_dec) as [N|(a & x & b & Es & Hx & N)].
    + rewrite flat_map_none by (intros x I; apply not_grp, N, I). cbn [last]. apply N1. apply Forall_forall. now apply GG.
    + assert (Ox : line_ok esc x) by (apply (proj1 (Forall_forall _ _) OL); rewrite Es; apply in_or_app; right; now left).
      destruct (grp_line_numbers esc x Ox Hx) as (e & s & -> & Ke & Ve & Ns & Fs & Lt).
      rewrite Es, flat_map_app. cbn [flat_map]. rewrite Lt. rewrite (flat_map_none _ _ _ b) by (intros y I; apply not_grp, N, I).
      cbn [app]. rewrite last_last.
      apply by_map in Es. destruct Es as (l1 & l2 & -> & Ea & Eb). destruct l2 as [|[y k] l2]; [discriminate Eb|].
      cbn [map fst] in Eb. injection Eb as -> Eb.
      assert (Ob : Forall (line_ok esc) (map fst l2)).
      { rewrite map_app in OL. apply Forall_app in OL. destruct OL as [_ OL]. now inversion OL. }
      rewrite toks_app in N2. change (all_toks ((DEntry Monetary e, k) :: l2)) with ((entry_toks Monetary e ++ [eol_tok k]) ++ all_toks l2) in N2.
      set (vt := joined semi (map (fun z => [tk NUMBER (itoa z)]) s)) in *.
      destruct (N2 (significant (all_toks l1)) (key_tok Monetary e) (vt ++ eol_tok k :: significant (all_toks l2))) as (seg & post & ns & Eseg & Q & At).
      * rewrite !significant_app. f_equal. unfold entry_toks. rewrite Ve. cbn [value_toks]. fold vt.
        change (significant (tk (kw_typ Monetary (e_key e)) (e_key e) :: tk WHITESPACE (e_gap e) :: vt)) with
          (significant ([tk (kw_typ Monetary (e_key e)) (e_key e)] ++ [tk WHITESPACE (e_gap e)] ++ vt)).
        rewrite !significant_app. assert (SV : significant vt = vt) by exact (spelt_significant _ _ (spelt_value (Numbers s))). rewrite SV.
        unfold key_tok. rewrite Ke. rewrite <- !app_assoc. reflexivity.
      * apply (key_good esc Monetary e Ox). exact Ke.
      * destruct (lines_good esc l2 Ob) as (_ & _ & GG2). intros t I. apply in_app_or in I. destruct I as [I|[<-|I]].
        -- assert (Fv : Forall quiet vt) by (apply (value_quiet esc some_numbers (Numbers s)); now split).
           exact (proj2 (proj2 (proj1 (Forall_forall _ _) Fv t I))).
        -- discriminate.
        -- apply in_significant in I. refine (proj1 (Forall_forall _ _) (GG2 _) t I). rewrite Eb. exact N.
      * apply (grouped_list s seg post _ k ns Ns (eq_sym Eseg)) in Q. subst ns.
        assert (X : map atoi (map itoa s) = map Some s).
        { clear -Fs. induction Fs as [|z l Hz Hl IH]; [reflexivity|]. cbn [map]. rewrite atoi_itoa by exact Hz. now rewrite IH. }
        rewrite X in At. clear -At. revert At. generalize (mon_grouping d'). induction s as [|z s IH]; intros [|y l] H; try discriminate H; [reflexivity|].
        cbn [map] in H. injection H as -> H. f_equal. now apply IH.
Qed.

Theorem document : forall doc text d, doc <> [] -> definition_of doc text ->
  exists d', (exists n, forall fuel, (n <= fuel)%nat -> parse_text fuel d text = Accepted d') /\
    int_curr_symbol d' = last (map shown (texts_of (B "int_curr_symbol") doc)) (int_curr_symbol d) /\
    int_frac_digits d' = int_frac_digits d /\
    mon_grouping d' = last (numbers_of (B "mon_grouping") doc) (mon_grouping d).
Proof.
  intros doc text d Ne Df. destruct (layout_source doc text Df) as (ll & El & R). destruct Df as (O & _).
  apply (document_source doc text d ll [] 92%N Ne O El I). now rewrite app_nil_r.
Qed.

(* ---- with continuation lines and escape_char directives ---- *)
Lemma after_plain : forall ls f, after ls f -> Forall (fun l => hd_error l <> Some "#"%char) f ->
  forall ds, map write_line ds = ls -> exists k ll, map fst ll = ds /\ file_text f = repeat nl k ++ source ll.
Proof.
  intros ls f H. induction H as [|l ls f H IH|ls f H IH|c ls f Hc H IH]; intros P ds E.
  - apply map_eq_nil in E. subst ds. exists 0%nat, []. now split.
  - inversion P as [|? ? P1 P2]; subst. destruct ds as [|d ds]; [discriminate E|]. cbn [map] in E. injection E as <- E.
    destruct (IH P2 ds E) as (k & ll & E1 & R). exists 0%nat, ((d, newlines k) :: ll). split; [cbn [map fst]; now rewrite E1|].
    unfold file_text in *. cbn [flat_map]. rewrite R. cbn [repeat app source flat_map fst snd]. fold (source ll).
    rewrite newlines_end. cbn [repeat]. rewrite <- !app_assoc. reflexivity.
  - inversion P as [|? ? P1 P2]; subst. destruct (IH P2 ds eq_refl) as (k & ll & E1 & R). exists (S k), ll. split; [exact E1|].
    unfold file_text in *. cbn [flat_map]. rewrite R. reflexivity.
  - inversion P as [|? ? P1 P2]; subst. destruct Hc as (s & -> & _). exfalso. now apply P1.
Qed.
Lemma plain_source : forall esc doc file, Forall (part_ok esc) doc -> laid_out (flat_map part_lines doc) file ->
  Forall (fun l => hd_error l <> Some "#"%char) file ->
  exists ll, map fst ll = flat_map part_dlines doc /\ file_text file = source ll.
Proof.
  intros esc doc file O (cs & l & ls & f & E & C & -> & A) P. rewrite <- doc_written in E.
  destruct (flat_map part_dlines doc) as [|d ds]; [discriminate E|]. cbn [map] in E. injection E as <- <-.
  destruct cs as [|c cs]; [|exfalso; inversion C as [|? ? Hc _]; subst; inversion P as [|? ? P1 _]; subst; destruct Hc as (s & -> & _); now apply P1].
  cbn [app] in *. inversion P as [|? ? P1 P2]; subst. destruct (after_plain _ _ A P2 ds eq_refl) as (k & ll & E1 & R).
  exists ((d, newlines k) :: ll). split; [cbn [map fst]; now rewrite E1|]. unfold file_text in *. cbn [flat_map]. rewrite R.
  cbn [source flat_map fst snd]. fold (source ll). rewrite newlines_end. cbn [repeat]. rewrite <- !app_assoc. reflexivity.
Qed.
Theorem document_items : forall doc items file d, doc <> [] -> Forall (part_ok (last_ec 92 items)) doc ->
  items_ok 35 92 items -> (forall a w b, ~ In (CommentDir a w b) items) ->
  map string_of_runes (flat_map item_output items) = file -> laid_out (flat_map part_lines doc) file ->
  Forall (fun l => hd_error l <> Some "#"%char) file ->
  exists d', (exists n, forall fuel, (n <= fuel)%nat -> parse_text fuel d (as_text (items_lines 35 92 items)) = Accepted d') /\
    int_curr_symbol d' = last (map shown (texts_of (B "int_curr_symbol") doc)) (int_curr_symbol d) /\
    int_frac_digits d' = int_frac_digits d /\
    mon_grouping d' = last (numbers_of (B "mon_grouping") doc) (mon_grouping d).
Proof.
  intros doc items file d Ne O Io Nc Ef L P. destruct (plain_source _ doc file O L P) as (ll & El & Es).
  apply (document_source doc _ d ll [] (last_ec 92 items) Ne O El I). rewrite app_nil_r.
  rewrite removeComments_items; [|intros ->; subst file; cbn [flat_map map] in L; destruct L as (cs & l & ls & f & _ & _ & X & _); now destruct cs|exact Io].
  rewrite <- Es, <- Ef. do 2 f_equal. unfold terminated, file_text.
  clear -Nc. induction items as [|i items IH]; [reflexivity|]. cbn [flat_map map]. rewrite flat_map_app, map_app, flat_map_app. f_equal.
  - destruct i; try reflexivity.
    + exfalso. eapply Nc. left. reflexivity.
  - apply IH. intros a w b Q. apply (Nc a w b). now right.
Qed.

(* text after the last category *)
Theorem document_rest : forall doc file r text d esc, doc <> [] -> Forall (part_ok esc) doc -> laid_out (flat_map part_lines doc) file ->
  Forall (fun l => hd_error l <> Some "#"%char) file -> stray r -> removeComments text = Ok (file_text file ++ r, esc) ->
  exists d', (exists n, forall fuel, (n <= fuel)%nat -> parse_text fuel d text = Accepted d') /\
    int_curr_symbol d' = last (map shown (texts_of (B "int_curr_symbol") doc)) (int_curr_symbol d) /\
    int_frac_digits d' = int_frac_digits d /\
    mon_grouping d' = last (numbers_of (B "mon_grouping") doc) (mon_grouping d).
Proof.
  intros doc file r text d esc Ne O L P St R. destruct (plain_source _ doc file O L P) as (ll & El & Es). rewrite Es in R.
  exact (document_source doc text d ll r esc Ne O El St R).
Qed.
