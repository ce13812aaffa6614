(* Well-formed locale definitions, from the text to the stored values. *)
From Verif Require Import GoBase GoFacts Utf8Facts RuneFacts LocGramSpec LocYaccModel LocYaccGram LocParseSpec LocYaccFinal
  LocaleModel LocLexModel LocLexProofs LocDocSpec LocDocLex.
Local Open Scope Z_scope.

(* ---- the lines of a definition ---- *)
Inductive dline :=
| DHead (c : lc) | DEntry (c : lc) (e : entry) | DEnd (c : lc)
| DCHead | DStart (dir : option (bytes * bytes)) | DSym (n : bytes) | DOEnd | DCEnd.
Definition write_line (d : dline) : bytes :=
  match d with
  | DHead c => lc_name c
  | DEntry _ e => write_entry e
  | DEnd c => B "END " ++ lc_name c
  | DCHead => B "LC_COLLATE"
  | DStart dir => B "order_start" ++ match dir with Some (g, w) => g ++ w | None => [] end
  | DSym n => bracketed n
  | DOEnd => B "order_end"
  | DCEnd => B "END LC_COLLATE"
  end.
Definition line_ok (esc : N) (d : dline) : Prop :=
  match d with
  | DEntry c e => entry_ok esc c e
  | DStart (Some (g, w)) => blanks g /\ In w [B "forward"; B "backward"; B "position"]
  | DSym n => symbol_name n
  | _ => True
  end.
Definition line_toks (d : dline) : list token :=
  match d with
  | DHead c => [tk (c_tok (cat c)) (lc_name c)]
  | DEntry c e => entry_toks c e
  | DEnd c => end_toks (c_tok (cat c)) (lc_name c)
  | DCHead => [tk LC_COLLATE_STR (B "LC_COLLATE")]
  | DStart dir => tk ORDER_START_STR (B "order_start") ::
      match dir with Some (g, w) => [tk WHITESPACE g; tk (dir_typ w) w] | None => [] end
  | DSym n => [tk CHARSYMBOL (bracketed n)]
  | DOEnd => [tk ORDER_END_STR (B "order_end")]
  | DCEnd => end_toks LC_COLLATE_STR (B "LC_COLLATE")
  end.
Definition part_dlines (p : part) : list dline :=
  match p with
  | Category c entries => DHead c :: map (DEntry c) entries ++ [DEnd c]
  | Collation dir order => DCHead :: DStart dir :: map DSym order ++ [DOEnd; DCEnd]
  end.
Lemma part_written : forall p, map write_line (part_dlines p) = part_lines p.
Proof.
  intros [c es|dir order]; cbn [part_dlines part_lines map write_line].
  - rewrite map_app, map_map. reflexivity.
  - rewrite map_app, map_map. reflexivity.
Qed.
Lemma doc_written : forall doc, map write_line (flat_map part_dlines doc) = flat_map part_lines doc.
Proof. induction doc as [|p doc IH]; [reflexivity|]. cbn [flat_map]. rewrite map_app, IH. f_equal. apply part_written. Qed.
Lemma part_lines_ok : forall esc p, part_ok esc p -> Forall (line_ok esc) (part_dlines p).
Proof.
  intros esc [c es|dir order]; cbn [part_dlines part_ok].
  - intros [_ F]. constructor; [exact I|]. apply Forall_app. split; [|constructor; [exact I|constructor]].
    apply Forall_map. exact F.
  - intros (D & _ & F). constructor; [exact I|]. constructor; [now destruct dir as [[g w]|]|]. apply Forall_app.
    split; [apply Forall_map; exact F|]. repeat constructor.
Qed.
Lemma doc_lines_ok : forall esc doc, Forall (part_ok esc) doc -> Forall (line_ok esc) (flat_map part_dlines doc).
Proof.
  intros esc. induction doc as [|p doc IH]; [constructor|]. intros F. inversion F as [|? ? F1 F2]; subst. cbn [flat_map].
  apply Forall_app. split; [now apply part_lines_ok|now apply IH].
Qed.

Lemma line_starts : forall esc d, line_ok esc d -> starts (write_line d).
Proof.
  intros esc d H. destruct d as [c|c e|c| |dir|n| |]; cbn [write_line line_ok] in *; try (now apply starts_b).
  - destruct c; now apply starts_b.
  - destruct H as (_ & sh & ks & I1 & I2 & _). destruct (key_facts _ _ _ _ I1 I2) as (_ & W & _ & Ne).
    unfold write_entry. pose proof (word_starts _ Ne W) as K. destruct (e_key e); [destruct K|exact K].
Qed.

(* ---- lexing them ---- *)
Definition before (d : dline) : lstate :=
  match d with
  | DHead _ | DCHead => SCategory
  | DEntry c _ | DEnd c => SGeneric (cat c)
  | DStart _ | DCEnd => SCollate
  | DSym _ | DOEnd => SOrder
  end.
Definition afterwards (d : dline) : lstate :=
  match d with
  | DHead c | DEntry c _ => SGeneric (cat c)
  | DEnd _ | DCEnd => SCategory
  | DCHead | DOEnd => SCollate
  | DStart _ | DSym _ => SOrder
  end.
Inductive linked : lstate -> list dline -> lstate -> Prop :=
| linked_nil : forall st, linked st [] st
| linked_cons : forall d ds st, linked (afterwards d) ds st -> linked (before d) (d :: ds) st.
Lemma linked_app : forall a st b st' st'', linked st a st' -> linked st' b st'' -> linked st (a ++ b) st''.
Proof. intros a st b st' st'' H. induction H as [|d ds st H IH]; intros K; [exact K|]. cbn [app]. constructor. auto. Qed.
Lemma linked_map : forall (A : Type) (f : A -> dline) l st, (forall x, before (f x) = st /\ afterwards (f x) = st) -> linked st (map f l) st.
Proof.
  intros A f l st H. induction l as [|x l IH]; [constructor|]. destruct (H x) as [H1 H2]. cbn [map].
  rewrite <- H1 at 1. constructor. now rewrite H2.
Qed.
Lemma part_linked : forall p, linked SCategory (part_dlines p) SCategory.
Proof.
  intros [c es|dir order]; cbn [part_dlines].
  - apply (linked_cons (DHead c)). eapply linked_app; [apply linked_map; now split|].
    apply (linked_cons (DEnd c)). constructor.
  - apply (linked_cons DCHead). apply (linked_cons (DStart dir)). eapply linked_app; [apply linked_map; now split|].
    apply (linked_cons DOEnd). apply (linked_cons DCEnd). constructor.
Qed.
Lemma doc_linked : forall doc, linked SCategory (flat_map part_dlines doc) SCategory.
Proof.
  induction doc as [|p doc IH]; [constructor|]. cbn [flat_map]. eapply linked_app; [apply part_linked|exact IH].
Qed.

(* every line with the number of empty lines after it *)
Definition source (ll : list (dline * (bool * list bool))) : bytes := flat_map (fun p => write_line (fst p) ++ lines_end (snd p)) ll.
Definition all_toks (ll : list (dline * (bool * list bool))) : list token := flat_map (fun p => line_toks (fst p) ++ [eol_tok (snd p)]) ll.

Lemma source_stop : forall esc ll r, Forall (line_ok esc) (map fst ll) -> stops newLine r -> stops newLine (source ll ++ r).
Proof.
  intros esc [|[d k] ll] r H S1; [exact S1|]. inversion H as [|? ? H1 _]; subst. cbn [source flat_map fst snd]. rewrite <- !app_assoc.
  apply starts_line. now apply (line_starts esc).
Qed.

Lemma lex_call : forall k fuel esc st s st' s', call fuel esc st s = Done (Some st') s' -> lex_run (S k) fuel esc st s = lex_run k fuel esc st' s'.
Proof. intros k fuel esc st s st' s' H. cbn [lex_run]. now rewrite H. Qed.

Lemma lex_line : forall d n r fuel esc, line_ok esc d -> stops newLine r -> (List.length (write_line d) < fuel)%nat ->
  exists m, (m <= 3)%nat /\ forall k l, lex_run (m + k) fuel esc (before d) (fresh ((write_line d ++ lines_end n) ++ r) l) =
    lex_run k fuel esc (afterwards d) (fresh r (rev (line_toks d ++ [eol_tok n]) ++ l)).
Proof.
  intros d n r fuel esc O S1 Le. rewrite <- app_assoc. destruct d as [c|c e|c| |dir|x| |]; cbn [before afterwards write_line line_toks line_ok] in *.
  - exists 1%nat. split; [lia|]. intros k l. apply lex_call, call_head, S1.
  - exists 1%nat. split; [lia|]. intros k l. apply lex_call. now apply call_entry.
  - exists 1%nat. split; [lia|]. intros k l. apply lex_call, call_end, S1.
  - exists 1%nat. split; [lia|]. intros k l. apply lex_call, call_collate_head, S1.
  - destruct dir as [[g w]|].
    + destruct O as [Bl I]. exists 3%nat. split; [lia|]. intros k l. cbn [Nat.add]. rewrite <- !app_assoc.
      erewrite lex_call; [|apply call_order_start; now apply blanks_stop].
      erewrite lex_call; [|now apply call_direction]. erewrite lex_call; [|now apply call_order_line]. reflexivity.
    + exists 2%nat. split; [lia|]. intros k l. cbn [Nat.add]. rewrite app_nil_r.
      erewrite lex_call; [|apply call_order_start; now apply lines_stop]. erewrite lex_call; [|now apply call_order_line]. reflexivity.
  - exists 1%nat. split; [lia|]. intros k l. apply lex_call. now apply call_symbol.
  - exists 1%nat. split; [lia|]. intros k l. apply lex_call, call_order_end, S1.
  - exists 1%nat. split; [lia|]. intros k l. apply lex_call, call_collate_end, S1.
Qed.

Lemma lex_lines : forall ds st st', linked st ds st' -> forall ll r fuel esc, map fst ll = ds -> Forall (line_ok esc) ds -> stops newLine r ->
  (List.length (source ll) < fuel)%nat ->
  exists m, (m <= 3 * List.length ll)%nat /\ forall k l, lex_run (m + k) fuel esc st (fresh (source ll ++ r) l) =
    lex_run k fuel esc st' (fresh r (rev (all_toks ll) ++ l)).
Proof.
  intros ds st st' H. induction H as [st|d ds st H IH]; intros ll r fuel esc E F Sr Le.
  - apply map_eq_nil in E. subst ll. exists 0%nat. split; [lia|]. reflexivity.
  - destruct ll as [|[d' n] ll]; [discriminate E|]. cbn [map fst] in E. injection E as -> E.
    inversion F as [|? ? F1 F2]; subst. cbn [source flat_map fst snd] in Le. fold (source ll) in Le. rewrite !app_length in Le.
    destruct (IH ll r fuel esc eq_refl F2 Sr) as (m & M & R); [lia|].
    destruct (lex_line d n (source ll ++ r) fuel esc F1 (source_stop esc ll r F2 Sr)) as (m' & M' & R'); [lia|].
    exists (m' + m)%nat. split; [cbn [List.length]; lia|]. intros k l. rewrite <- Nat.add_assoc.
    cbn [source flat_map fst snd]. fold (source ll). rewrite <- (app_assoc (write_line d ++ lines_end n)). rewrite R', R.
    cbn [all_toks flat_map fst snd]. fold (all_toks ll).
    rewrite (rev_app_distr (line_toks d ++ [eol_tok n])), <- app_assoc. reflexivity.
Qed.

(* nothing, or text that begins with neither a header character nor a newline *)
Definition stray (r : bytes) : Prop := stops (newLine ++ upperChars ++ B "_") r.
Lemma stray_stops : forall r, stray r -> stops newLine r /\ stops (upperChars ++ B "_") r.
Proof.
  intros [|c r] H; [now split|]. destruct H as [L N]. split; (split; [exact L|]).
  - intros X. apply N, in_or_app. now left.
  - intros X. apply N, in_or_app. now right.
Qed.
Lemma call_stray : forall fuel esc r l, stray r -> call fuel esc SCategory (fresh r l) = Done None (fresh r l).
Proof.
  intros fuel esc r l H. apply stray_stops in H. destruct H as [_ H]. cbn [call]. unfold sCategory, take, fresh.
  rewrite take_stop by exact H. reflexivity.
Qed.
Theorem lex_doc : forall doc ll r fuel esc, Forall (part_ok esc) doc -> map fst ll = flat_map part_dlines doc -> stray r ->
  (3 * List.length (source ll) + 3 * List.length ll + 3 < fuel)%nat ->
  lex fuel esc (source ll ++ r) = Done tt (fresh r (rev (all_toks ll))).
Proof.
  intros doc ll r fuel esc O E St Le. unfold lex.
  destruct (lex_lines _ _ _ (doc_linked doc) ll r fuel esc E (doc_lines_ok esc doc O) (proj1 (stray_stops r St))) as (m & M & R); [lia|].
  replace fuel with (S (m + S (fuel - m - 2)))%nat at 1 by lia.
  rewrite (lex_call _ _ _ _ _ SCategory (fresh (source ll ++ r) [])) by reflexivity. rewrite R. rewrite app_nil_r.
  cbn [lex_run]. rewrite call_stray by exact St. reflexivity.
Qed.

(* ---- their terminals ---- *)
Fixpoint zs_eqb (a b : list Z) : bool :=
  match a, b with [], [] => true | x :: a, y :: b => (x =? y) && zs_eqb a b | _, _ => false end.
Lemma zs_eqb_eq : forall a b, zs_eqb a b = true -> a = b.
Proof.
  induction a as [|x a IH]; intros [|y b] H; try discriminate H; [reflexivity|]. cbn [zs_eqb] in H. apply andb_true_iff in H.
  destruct H as [H1 H2]. apply Z.eqb_eq in H1. subst. f_equal. now apply IH.
Qed.
Lemma sym_code_inj : forall X Y, sym_code X = sym_code Y -> X = Y.
Proof.
  intros [t|A] [u|A'] H; cbn [sym_code] in H.
  - now rewrite (term_code_inj _ _ H).
  - pose proof (term_code_range t). pose proof (nt_code_range A'). lia.
  - pose proof (term_code_range u). pose proof (nt_code_range A). lia.
  - f_equal. apply nt_code_inj. lia.
Qed.
Lemma syms_inj : forall a b, map sym_code a = map sym_code b -> a = b.
Proof.
  induction a as [|x a IH]; intros [|y b] H; try discriminate H; [reflexivity|]. cbn [map] in H. injection H as H1 H2.
  apply sym_code_inj in H1. subst. f_equal. now apply IH.
Qed.
Definition production (A : nonterm) (rhs : list symbol) : bool :=
  existsb (fun p => (nt_code (fst p) =? nt_code A) && zs_eqb (map sym_code (snd p)) (map sym_code rhs)) grammar.
Lemma by_production : forall A rhs w, production A rhs = true -> derives_all rhs w -> derives A w.
Proof.
  intros A rhs w H D. apply existsb_exists in H. destruct H as ([A' r'] & I & E). cbn [fst snd] in E.
  apply andb_true_iff in E. destruct E as [E1 E2]. apply Z.eqb_eq, nt_code_inj in E1. apply zs_eqb_eq, syms_inj in E2. subst.
  now apply derives_prod with rhs.
Qed.

Definition production1 (As : list nonterm) (typ : Z) : bool :=
  existsb (fun p => existsb (fun A => nt_code (fst p) =? nt_code A) As &&
    match snd p with [Tm t] => token_number t =? typ | _ => false end) grammar.
Lemma by_production1 : forall As typ, production1 As typ = true -> exists A t, In A As /\ token_number t = typ /\ derives A [t].
Proof.
  intros As typ H. apply existsb_exists in H. destruct H as ([A' r'] & I & E). cbn [fst snd] in E.
  apply andb_true_iff in E. destruct E as [E1 E2]. apply existsb_exists in E1. destruct E1 as (A & IA & E1).
  apply Z.eqb_eq, nt_code_inj in E1. subst A'. destruct r' as [|[t|?] [|? ?]]; try discriminate E2. apply Z.eqb_eq in E2.
  exists A, t. split; [exact IA|]. split; [exact E2|]. apply derives_prod with [Tm t]; [exact I|].
  apply (derives_cons (Tm t) [t] [] []); constructor.
Qed.

Lemma all_1 : forall X w, derives X w -> derives_all [X] w.
Proof. intros X w H. rewrite <- (app_nil_r w). constructor; [exact H|constructor]. Qed.
Lemma all_2 : forall X w Y v, derives X w -> derives Y v -> derives_all [X; Y] (w ++ v).
Proof. intros X w Y v H K. constructor; [exact H|now apply all_1]. Qed.
Lemma all_3 : forall X w Y v Z u, derives X w -> derives Y v -> derives Z u -> derives_all [X; Y; Z] (w ++ v ++ u).
Proof. intros X w Y v Z u H K L. constructor; [exact H|now apply all_2]. Qed.
Lemma t1 : forall t : term, derives t [t]. Proof. constructor. Qed.

(* lists, built from the left *)
Lemma sep_more : forall (L : nonterm) (X : symbol) (sep : term) ws pre,
  production L [Nt L; Tm sep; X] = true -> derives L pre -> Forall (derives X) ws ->
  derives L (match ws with [] => pre | _ => pre ++ sep :: joined sep ws end).
Proof.
  intros L X sep ws. induction ws as [|w ws IH]; intros pre P D F; [exact D|]. inversion F as [|? ? F1 F2]; subst.
  assert (D' : derives L (pre ++ [sep] ++ w)) by (apply (by_production L [Nt L; Tm sep; X]); [exact P|apply all_3; auto; apply t1]).
  specialize (IH _ P D' F2). destruct ws as [|w' ws]; [exact IH|].
  change (joined sep (w :: w' :: ws)) with (w ++ sep :: joined sep (w' :: ws)).
  replace (pre ++ sep :: w ++ sep :: joined sep (w' :: ws)) with ((pre ++ [sep] ++ w) ++ sep :: joined sep (w' :: ws)); [exact IH|].
  rewrite <- !app_assoc. reflexivity.
Qed.
Lemma sep_list : forall (L : nonterm) (X : symbol) (sep : term) ws, production L [X] = true ->
  production L [Nt L; Tm sep; X] = true -> ws <> [] -> Forall (derives X) ws -> derives L (joined sep ws).
Proof.
  intros L X sep [|w ws] P1 P2 Ne F; [congruence|]. inversion F as [|? ? F1 F2]; subst.
  assert (D : derives L w) by (apply (by_production L [X]); [exact P1|now apply all_1]).
  pose proof (sep_more L X sep ws w P2 D F2) as H. now destruct ws as [|w' ws].
Qed.
Lemma seq_more : forall (L : nonterm) (X : symbol) ws pre, production L [Nt L; X] = true -> derives L pre -> Forall (derives X) ws ->
  derives L (pre ++ concat ws).
Proof.
  intros L X ws. induction ws as [|w ws IH]; intros pre P D F; [now rewrite app_nil_r|]. inversion F as [|? ? F1 F2]; subst.
  cbn [concat]. rewrite app_assoc. apply IH; auto. apply (by_production L [Nt L; X]); [exact P|now apply all_2].
Qed.
Lemma seq_list : forall (L : nonterm) (X : symbol) ws, production L [X] = true -> production L [Nt L; X] = true -> ws <> [] ->
  Forall (derives X) ws -> derives L (concat ws).
Proof.
  intros L X [|w ws] P1 P2 Ne F; [congruence|]. inversion F as [|? ? F1 F2]; subst. cbn [concat]. apply seq_more with X; auto.
  apply (by_production L [X]); [exact P1|now apply all_1].
Qed.

Definition glyph_term (g : glyph) : term :=
  match g with Single _ | Escaped _ => T_CHAR | Octal _ _ _ => T_OCTAL_CHAR | Decimal _ _ _ => T_DECIMAL_CHAR | Hex _ _ => T_HEX_CHAR end.
Definition text_terms (s : list glyph) : list term :=
  match s with [] => [T_TWO_DOUBLE_QUOTE_STR] | _ => T_dquote :: map glyph_term s ++ [T_dquote] end.
Definition pair_terms : list term := [T_lparen; T_CHARSYMBOL; T_comma; T_CHARSYMBOL; T_rparen].
Definition value_terms (v : value) : list term :=
  match v with
  | Text s => text_terms s
  | Texts l => joined T_semicolon (map text_terms l)
  | Number _ => [T_NUMBER]
  | Numbers l => joined T_semicolon (map (fun _ => [T_NUMBER]) l)
  | Chars l => joined T_semicolon (map (fun _ => [T_CHARSYMBOL]) l)
  | Pairs l => joined T_semicolon (map (fun _ => pair_terms) l)
  | Regexp _ => [T_dquote; T_EXTENDED_REG_EXP; T_dquote]
  end.
Definition spelt (w : list term) (l : list token) : Prop := Forall2 is w l.
Lemma spelt_joined : forall ws ls, Forall2 spelt ws ls -> spelt (joined T_semicolon ws) (joined semi ls).
Proof.
  intros ws ls H. induction H as [|w l ws ls H1 H2 IH]; [constructor|].
  destruct H2 as [|w' l' ws ls H2 H3]; [exact H1|].
  change (joined T_semicolon (w :: w' :: ws)) with (w ++ T_semicolon :: joined T_semicolon (w' :: ws)).
  change (joined semi (l :: l' :: ls)) with (l ++ semi :: joined semi (l' :: ls)).
  apply Forall2_app; [exact H1|]. constructor; [reflexivity|exact IH].
Qed.
Lemma Forall2_maps : forall (A C D : Type) (R : C -> D -> Prop) (f : A -> C) (g : A -> D) l,
  (forall x, R (f x) (g x)) -> Forall2 R (map f l) (map g l).
Proof. intros A C D R f g l H. induction l; cbn [map]; constructor; auto. Qed.
Lemma spelt_text : forall s, spelt (text_terms s) (text_toks s).
Proof.
  intros [|c s]; [now repeat constructor|]. unfold text_terms, text_toks. constructor; [reflexivity|].
  apply Forall2_app; [|now repeat constructor]. apply Forall2_maps. now intros [].
Qed.
Lemma spelt_value : forall v, spelt (value_terms v) (value_toks v).
Proof.
  intros []; cbn [value_terms value_toks].
  - apply spelt_text.
  - apply spelt_joined, Forall2_maps, spelt_text.
  - now repeat constructor.
  - apply spelt_joined, Forall2_maps. now repeat constructor.
  - apply spelt_joined, Forall2_maps. now repeat constructor.
  - apply spelt_joined, Forall2_maps. now repeat constructor.
  - now repeat constructor.
Qed.
(* no terminal is a blank *)
Lemma spelt_significant : forall w l, spelt w l -> significant l = l.
Proof.
  intros w l H. induction H as [|x t w l H1 H2 IH]; [reflexivity|]. cbn [significant filter]. fold (significant l).
  unfold is in H1. rewrite H1. replace (token_number x =? WHITESPACE) with false by (destruct x; reflexivity). cbn [negb]. now rewrite IH.
Qed.
Lemma significant_app : forall a b, significant (a ++ b) = significant a ++ significant b.
Proof. intros. apply filter_app. Qed.

Lemma derives_text : forall (S1 : nonterm) s, production S1 [Tm T_dquote; Nt N_char_list; Tm T_dquote] = true -> s <> [] -> derives S1 (text_terms s).
Proof.
  intros S1 s P Ne. destruct s as [|c s]; [congruence|]. unfold text_terms.
  apply (by_production S1 _ ([T_dquote] ++ map glyph_term (c :: s) ++ [T_dquote])) in P; [exact P|].
  apply all_3; try apply t1. replace (map glyph_term (c :: s)) with (concat (map (fun g => [glyph_term g]) (c :: s))).
  - apply seq_list with (Nt N_char_symbol); try reflexivity; [discriminate|]. apply Forall_map, Forall_forall. intros g _.
    apply (by_production N_char_symbol [Tm (glyph_term g)]); [now destruct g|]. apply all_1, t1.
  - clear. generalize (c :: s). induction l as [|g l IH]; [reflexivity|]. cbn [map concat app]. now rewrite IH.
Qed.
Lemma derives_text' : forall (S1 : nonterm) s, production S1 [Tm T_dquote; Nt N_char_list; Tm T_dquote] = true -> production S1 [Tm T_TWO_DOUBLE_QUOTE_STR] = true ->
  derives S1 (text_terms s).
Proof.
  intros S1 [|c s] P1 P2; [|now apply derives_text]. apply (by_production S1 [Tm T_TWO_DOUBLE_QUOTE_STR]); [exact P2|]. apply all_1, t1.
Qed.

(* ---- entries ---- *)
Definition kw_nts (c : lc) (sh : shape) : list nonterm :=
  match c, sh with
  | Ctype, some_symbols => [N_charclass_keyword]
  | Ctype, some_pairs => [N_charconv_keyword]
  | Monetary, a_text => [N_mon_keyword_string]
  | Monetary, some_numbers => [N_mon_keyword_grouping]
  | Monetary, a_number => [N_mon_keyword_char]
  | Numeric, a_text => [N_num_keyword_string]
  | Numeric, a_number => [N_num_keyword_grouping]
  | Time, full_texts => [N_time_keyword_name; N_time_keyword_opt]
  | Time, a_full_text => [N_time_keyword_fmt; N_time_keyword_opt]
  | _, _ => []
  end.
Definition is_messages (c : lc) : bool := match c with Messages => true | _ => false end.
Definition key_production (c : lc) (sh : shape) (k : bytes) : bool :=
  if is_messages c then (kw_typ c k =? 57429) || (kw_typ c k =? 57428) else production1 (kw_nts c sh) (kw_typ c k).
Lemma keys_produced : forallb (fun p => forallb (key_production (fst (fst p)) (snd (fst p))) (snd p)) keywords = true.
Proof. vm_compute. reflexivity. Qed.
Lemma key_produced : forall c sh ks k, In (c, sh, ks) keywords -> In k ks -> key_production c sh k = true.
Proof.
  intros c sh ks k I1 I2. pose proof (proj1 (forallb_forall _ _) keys_produced _ I1) as H. cbv beta in H. cbn [fst snd] in H.
  exact (proj1 (forallb_forall _ _) H k I2).
Qed.

Definition keyword_nt (c : lc) : nonterm :=
  match c with
  | Ctype => N_ctype_keyword | Monetary => N_monetary_keyword | Numeric => N_numeric_keyword | Time => N_time_keyword
  | Messages => N_messages_keyword
  end.

Lemma shapes : forall c sh ks, In (c, sh, ks) keywords ->
  In (c, sh) [(Ctype, some_symbols); (Ctype, some_pairs); (Monetary, a_text); (Monetary, some_numbers); (Monetary, a_number);
    (Numeric, a_text); (Numeric, a_number); (Time, full_texts); (Time, a_full_text); (Messages, a_regexp)].
Proof.
  intros c sh ks H. apply (in_map fst) in H. exact H.
Qed.

Lemma ne_map : forall (A C : Type) (f : A -> C) l, l <> [] -> map f l <> [].
Proof. intros A C f [|x l] H; [congruence|discriminate]. Qed.
Lemma all_same : forall (A C : Type) (P : C -> Prop) (c : C) (l : list A), P c -> Forall P (map (fun _ => c) l).
Proof. intros A C P c l H. apply Forall_map. apply Forall_forall. auto. Qed.

Lemma entry_derives : forall esc c sh ks k v, In (c, sh, ks) keywords -> In k ks -> fits esc sh v ->
  exists x, token_number x = kw_typ c k /\ derives (keyword_nt c) ([x] ++ value_terms v ++ [T_EOL]).
Proof.
  intros esc c sh ks k v I1 I2 F. pose proof (key_produced _ _ _ _ I1 I2) as P. apply shapes in I1. cbn [In] in I1.
  unfold key_production in P.
  repeat (destruct I1 as [I1|I1]; [injection I1 as <- <-; cbn [is_messages kw_nts] in P|]); [..|destruct I1];
    destruct v; try (exfalso; exact F); cbn [fits] in F; cbn [keyword_nt value_terms].
  1-9: apply by_production1 in P; destruct P as (A & x & IA & E & D); exists x; split; [exact E|]; cbn [In] in IA.
  - destruct IA as [<-|[]]. apply (by_production _ [Nt N_charclass_keyword; Nt N_charclass_list; Tm T_EOL]); [reflexivity|].
    apply all_3; [exact D| |apply t1]. apply sep_list with (Nt N_char_symbol); try reflexivity; [apply ne_map, F|].
    apply all_same. apply (by_production _ [Tm T_CHARSYMBOL]); [reflexivity|apply all_1, t1].
  - destruct IA as [<-|[]]. apply (by_production _ [Nt N_charconv_keyword; Nt N_charconv_list; Tm T_EOL]); [reflexivity|].
    apply all_3; [exact D| |apply t1]. apply sep_list with (Nt N_charconv_entry); try reflexivity; [apply ne_map, F|].
    apply all_same. apply (by_production _ [Tm T_lparen; Nt N_char_symbol; Tm T_comma; Nt N_char_symbol; Tm T_rparen]); [reflexivity|].
    assert (K : derives N_char_symbol [T_CHARSYMBOL]) by (apply (by_production _ [Tm T_CHARSYMBOL]); [reflexivity|apply all_1, t1]).
    exact (derives_cons _ _ _ _ (t1 T_lparen) (derives_cons _ _ _ _ K (all_3 _ _ _ _ _ _ (t1 T_comma) K (t1 T_rparen)))).
  - destruct IA as [<-|[]]. apply (by_production _ [Nt N_mon_keyword_string; Nt N_mon_string; Tm T_EOL]); [reflexivity|].
    apply all_3; [exact D| |apply t1]. now apply derives_text'.
  - destruct IA as [<-|[]]. apply (by_production _ [Nt N_mon_keyword_grouping; Nt N_mon_group_list; Tm T_EOL]); [reflexivity|].
    apply all_3; [exact D| |apply t1]. apply sep_list with (Tm T_NUMBER); try reflexivity; [apply ne_map, F|].
    apply all_same, t1.
  - destruct IA as [<-|[]]. apply (by_production _ [Nt N_mon_keyword_char; Tm T_NUMBER; Tm T_EOL]); [reflexivity|].
    apply all_3; [exact D|apply t1|apply t1].
  - destruct IA as [<-|[]]. apply (by_production _ [Nt N_num_keyword_string; Nt N_num_string; Tm T_EOL]); [reflexivity|].
    apply all_3; [exact D| |apply t1]. now apply derives_text'.
  - destruct IA as [<-|[]]. apply (by_production _ [Nt N_num_keyword_grouping; Nt N_num_group_list; Tm T_EOL]); [reflexivity|].
    apply all_3; [exact D| |apply t1]. apply (by_production _ [Tm T_NUMBER]); [reflexivity|apply all_1, t1].
  - assert (L : derives N_time_list (joined T_semicolon (map text_terms l))).
    { apply sep_list with (Nt N_time_string); try reflexivity; [apply ne_map, F|]. apply Forall_map.
      eapply Forall_impl; [|exact (proj2 F)]. intros s [_ Ns]. now apply derives_text. }
    destruct IA as [<-|[<-|[]]].
    + apply (by_production _ [Nt N_time_keyword_name; Nt N_time_list; Tm T_EOL]); [reflexivity|]. apply all_3; [exact D|exact L|apply t1].
    + apply (by_production _ [Nt N_time_keyword_opt; Nt N_time_list; Tm T_EOL]); [reflexivity|]. apply all_3; [exact D|exact L|apply t1].
  - assert (L : derives N_time_string (text_terms s)) by (apply derives_text; [reflexivity|apply F]).
    destruct IA as [<-|[<-|[]]].
    + apply (by_production _ [Nt N_time_keyword_fmt; Nt N_time_string; Tm T_EOL]); [reflexivity|]. apply all_3; [exact D|exact L|apply t1].
    + apply (by_production _ [Nt N_time_keyword_opt; Nt N_time_list; Tm T_EOL]); [reflexivity|]. apply all_3; [exact D| |apply t1].
      apply (by_production _ [Nt N_time_string]); [reflexivity|]. now apply all_1.
  - assert (Q : forall x : term, production N_messages_keyword [Tm x; Tm T_dquote; Tm T_EXTENDED_REG_EXP; Tm T_dquote; Tm T_EOL] = true ->
      derives N_messages_keyword ([x] ++ [T_dquote; T_EXTENDED_REG_EXP; T_dquote] ++ [T_EOL])).
    { intros x H. apply (by_production _ _ _ H).
      exact (derives_cons _ _ _ _ (t1 x) (derives_cons _ _ _ _ (t1 T_dquote) (all_3 _ _ _ _ _ _ (t1 T_EXTENDED_REG_EXP) (t1 T_dquote) (t1 T_EOL)))). }
    apply orb_true_iff in P. destruct P as [P|P]; apply Z.eqb_eq in P.
    + exists T_YESEXPR_STR. split; [now rewrite P|]. now apply Q.
    + exists T_NOEXPR_STR. split; [now rewrite P|]. now apply Q.
Qed.

(* ---- categories ---- *)
Lemma toks_app : forall a b, all_toks (a ++ b) = all_toks a ++ all_toks b.
Proof. intros. apply flat_map_app. Qed.
Lemma source_app : forall a b, source (a ++ b) = source a ++ source b.
Proof. intros. apply flat_map_app. Qed.

Lemma eol_is : forall k, is T_EOL (eol_tok k). Proof. reflexivity. Qed.

Lemma entry_spelt : forall esc c e k, entry_ok esc c e ->
  exists w, derives (keyword_nt c) w /\ spelt w (significant (entry_toks c e ++ [eol_tok k])).
Proof.
  intros esc c e k (_ & sh & ks & I1 & I2 & F). destruct (entry_derives esc c sh ks _ _ I1 I2 F) as (x & E & D).
  eexists. split; [exact D|]. unfold entry_toks. cbn [app significant filter].
  pose proof (spelt_value (e_value e)) as SV. unfold tk at 1 2. cbn [t_type]. rewrite <- E.
  replace (token_number x =? WHITESPACE) with false by (destruct x; reflexivity).
  replace (t_type (tk WHITESPACE (e_gap e)) =? WHITESPACE) with true by reflexivity. cbn [negb].
  constructor; [reflexivity|]. fold (significant (value_toks (e_value e) ++ [eol_tok k])).
  rewrite significant_app, (spelt_significant _ _ SV). apply Forall2_app; [exact SV|]. now repeat constructor.
Qed.

Lemma entries_spelt : forall esc c es ll, Forall (entry_ok esc c) es -> map fst ll = map (DEntry c) es ->
  exists ws, List.length ws = List.length es /\ Forall (derives (keyword_nt c)) ws /\ spelt (concat ws) (significant (all_toks ll)).
Proof.
  intros esc c es. induction es as [|e es IH]; intros ll F E.
  - apply map_eq_nil in E. subst ll. exists []. now repeat constructor.
  - destruct ll as [|[d k] ll]; [discriminate E|]. cbn [map fst] in E. injection E as -> E. inversion F as [|? ? F1 F2]; subst.
    destruct (IH ll F2 E) as (ws & L & D & S1). destruct (entry_spelt esc c e k F1) as (w & Dw & Sw).
    exists (w :: ws). split; [cbn [List.length]; lia|]. split; [now constructor|]. cbn [concat all_toks flat_map fst snd line_toks].
    fold (all_toks ll). rewrite significant_app. now apply Forall2_app.
Qed.

Lemma symbols_spelt : forall order ll, map fst ll = map DSym order ->
  exists ws, List.length ws = List.length order /\ Forall (derives N_collation_entry) ws /\ spelt (concat ws) (significant (all_toks ll)).
Proof.
  intros order. induction order as [|n order IH]; intros ll E.
  - apply map_eq_nil in E. subst ll. exists []. now repeat constructor.
  - destruct ll as [|[d k] ll]; [discriminate E|]. cbn [map fst] in E. injection E as -> E.
    destruct (IH ll E) as (ws & L & D & S1). exists ([T_CHARSYMBOL; T_EOL] :: ws). split; [cbn [List.length]; lia|]. split.
    + constructor; [|exact D]. apply (by_production _ [Nt N_collation_element; Tm T_EOL] ([T_CHARSYMBOL] ++ [T_EOL])); [reflexivity|].
      apply all_2; [|apply t1]. apply (by_production _ [Nt N_char_symbol]); [reflexivity|]. apply all_1.
      apply (by_production _ [Tm T_CHARSYMBOL]); [reflexivity|]. apply all_1, t1.
    + cbn [concat all_toks flat_map fst snd line_toks]. fold (all_toks ll). rewrite significant_app. apply Forall2_app; [|exact S1].
      now repeat constructor.
Qed.

Definition hdr_nt (c : lc) : nonterm :=
  match c with Ctype => N_ctype_hdr | Monetary => N_monetary_hdr | Numeric => N_numeric_hdr | Time => N_time_hdr | Messages => N_messages_hdr end.
Definition tlr_nt (c : lc) : nonterm :=
  match c with Ctype => N_ctype_tlr | Monetary => N_monetary_tlr | Numeric => N_numeric_tlr | Time => N_time_tlr | Messages => N_messages_tlr end.
Definition kws_nt (c : lc) : nonterm :=
  match c with Ctype => N_ctype_keywords | Monetary => N_monetary_keywords | Numeric => N_numeric_keywords | Time => N_time_keywords | Messages => N_messages_keywords end.
Definition lc_nt (c : lc) : nonterm :=
  match c with Ctype => N_lc_ctype | Monetary => N_lc_monetary | Numeric => N_lc_numeric | Time => N_lc_time | Messages => N_lc_messages end.
Definition lc_term (c : lc) : term :=
  match c with Ctype => T_LC_CTYPE_STR | Monetary => T_LC_MONETARY_STR | Numeric => T_LC_NUMERIC_STR | Time => T_LC_TIME_STR | Messages => T_LC_MESSAGES_STR end.

Lemma by_map : forall (A C : Type) (f : A -> C) l a b, map f l = a ++ b -> exists l1 l2, l = l1 ++ l2 /\ map f l1 = a /\ map f l2 = b.
Proof.
  intros A C f l a b H. destruct (map_cut _ _ f l a b H) as (l1 & l2 & E & E1 & E2). exists l1, l2. now split.
Qed.

Lemma part_spelt : forall esc p ll, part_ok esc p -> map fst ll = part_dlines p ->
  exists w, derives N_locale_category w /\ spelt w (significant (all_toks ll)).
Proof.
  intros esc [c es|dir order] ll O E; cbn [part_ok part_dlines] in O, E.
  - destruct O as [Ne F]. destruct ll as [|[d k] ll]; [discriminate E|]. cbn [map fst] in E. injection E as -> E.
    apply by_map in E. destruct E as (l1 & l2 & -> & E1 & E2). destruct l2 as [|[d k2] [|? ?]]; try discriminate E2.
    cbn [map fst] in E2. injection E2 as ->. destruct (entries_spelt esc c es l1 F E1) as (ws & L & D & S1).
    exists ([lc_term c; T_EOL] ++ concat ws ++ [T_END_STR; lc_term c; T_EOL]). split.
    + apply (by_production _ [Nt (lc_nt c)]); [destruct c; reflexivity|]. apply all_1.
      apply (by_production _ [Nt (hdr_nt c); Nt (kws_nt c); Nt (tlr_nt c)]); [destruct c; reflexivity|]. apply all_3.
      * apply (by_production _ [Tm (lc_term c); Tm T_EOL] ([lc_term c] ++ [T_EOL])); [destruct c; reflexivity|]. apply all_2; apply t1.
      * apply seq_list with (Nt (keyword_nt c)); [destruct c; reflexivity|destruct c; reflexivity| |exact D].
        destruct ws; [destruct es; [congruence|discriminate L]|discriminate].
      * apply (by_production _ [Tm T_END_STR; Tm (lc_term c); Tm T_EOL] ([T_END_STR] ++ [lc_term c] ++ [T_EOL])); [destruct c; reflexivity|].
        apply all_3; apply t1.
    + change (all_toks ((DHead c, k) :: l1 ++ [(DEnd c, k2)])) with ([tk (c_tok (cat c)) (lc_name c); eol_tok k] ++ all_toks (l1 ++ [(DEnd c, k2)])).
      rewrite toks_app, !significant_app. apply Forall2_app; [destruct c; now repeat constructor|].
      apply Forall2_app; [exact S1|]. destruct c; now repeat constructor.
  - destruct O as (Od & Ne & F). destruct ll as [|[d k] [|[d1 k1] ll]]; try discriminate E. cbn [map fst] in E. injection E as -> -> E.
    apply by_map in E. destruct E as (l1 & l2 & -> & E1 & E2). destruct l2 as [|[d2 k2] [|[d3 k3] [|? ?]]]; try discriminate E2.
    cbn [map fst] in E2. injection E2 as -> ->. destruct (symbols_spelt order l1 E1) as (ws & L & D & S1).
    assert (W : exists w, derives N_order_start w /\ spelt w (significant (line_toks (DStart dir) ++ [eol_tok k1]))).
    { destruct dir as [[g w]|].
      - destruct Od as [_ I]. assert (X : exists x : term, production N_opt_word [Tm x] = true /\ token_number x = dir_typ w).
        { cbn [In] in I. destruct I as [<-|[<-|[<-|[]]]]; [exists T_FORWARD_STR|exists T_BACKWARD_STR|exists T_POSITION_STR]; now split. }
        destruct X as (x & Px & Ex). exists ([T_ORDER_START_STR] ++ [x] ++ [T_EOL]). split.
        + apply (by_production _ [Tm T_ORDER_START_STR; Nt N_order_opts; Tm T_EOL]); [reflexivity|]. apply all_3; try apply t1.
          apply (by_production _ [Nt N_order_opt]); [reflexivity|]. apply all_1.
          apply (by_production _ [Nt N_opt_word]); [reflexivity|]. apply all_1. apply (by_production _ [Tm x] _ Px). apply all_1, t1.
        + cbn [line_toks app significant filter].
          replace (t_type (tk ORDER_START_STR (B "order_start")) =? WHITESPACE) with false by reflexivity.
          replace (t_type (tk WHITESPACE g) =? WHITESPACE) with true by reflexivity.
          replace (t_type (tk (dir_typ w) w) =? WHITESPACE) with false by (unfold tk, dir_typ; destruct (beqb w (B "forward")); [reflexivity|]; destruct (beqb w (B "backward")); reflexivity).
          replace (t_type (eol_tok k1) =? WHITESPACE) with false by reflexivity. cbn [negb].
          constructor; [reflexivity|]. constructor; [exact (eq_sym Ex)|]. now repeat constructor.
      - exists ([T_ORDER_START_STR] ++ [T_EOL]). split; [|now repeat constructor].
        apply (by_production _ [Tm T_ORDER_START_STR; Tm T_EOL]); [reflexivity|]. apply all_2; apply t1. }
    destruct W as (w & Dw & Sw).
    exists ([T_LC_COLLATE_STR; T_EOL] ++ (w ++ concat ws ++ [T_ORDER_END_STR; T_EOL]) ++ [T_END_STR; T_LC_COLLATE_STR; T_EOL]). split.
    + apply (by_production _ [Nt N_lc_collate]); [reflexivity|]. apply all_1.
      apply (by_production _ [Nt N_collate_hdr; Nt N_collate_keywords; Nt N_collate_tlr]); [reflexivity|]. apply all_3.
      * apply (by_production _ [Tm T_LC_COLLATE_STR; Tm T_EOL] ([T_LC_COLLATE_STR] ++ [T_EOL])); [reflexivity|]. apply all_2; apply t1.
      * apply (by_production _ [Nt N_order_statements]); [reflexivity|]. apply all_1.
        apply (by_production _ [Nt N_order_start; Nt N_collation_order; Nt N_order_end]); [reflexivity|]. apply all_3.
        -- exact Dw.
        -- apply seq_list with (Nt N_collation_entry); [reflexivity|reflexivity| |exact D].
           destruct ws; [destruct order; [congruence|discriminate L]|discriminate].
        -- apply (by_production _ [Tm T_ORDER_END_STR; Tm T_EOL] ([T_ORDER_END_STR] ++ [T_EOL])); [reflexivity|]. apply all_2; apply t1.
      * apply (by_production _ [Tm T_END_STR; Tm T_LC_COLLATE_STR; Tm T_EOL] ([T_END_STR] ++ [T_LC_COLLATE_STR] ++ [T_EOL])); [reflexivity|].
        apply all_3; apply t1.
    + change (all_toks ((DCHead, k) :: (DStart dir, k1) :: l1 ++ [(DOEnd, k2); (DCEnd, k3)])) with
        ([tk LC_COLLATE_STR (B "LC_COLLATE"); eol_tok k] ++ (line_toks (DStart dir) ++ [eol_tok k1]) ++ all_toks (l1 ++ [(DOEnd, k2); (DCEnd, k3)])).
      rewrite toks_app.
      change (all_toks [(DOEnd, k2); (DCEnd, k3)]) with ([tk ORDER_END_STR (B "order_end"); eol_tok k2] ++ (end_toks LC_COLLATE_STR (B "LC_COLLATE") ++ [eol_tok k3])).
      rewrite significant_app in Sw. rewrite !significant_app.
      rewrite <- !app_assoc. rewrite (app_assoc (significant (line_toks (DStart dir)))). apply Forall2_app; [now repeat constructor|]. apply Forall2_app; [exact Sw|].
      apply Forall2_app; [exact S1|]. now repeat constructor.
Qed.

Lemma parts_spelt : forall esc doc ll, Forall (part_ok esc) doc -> map fst ll = flat_map part_dlines doc ->
  exists ws, List.length ws = List.length doc /\ Forall (derives N_locale_category) ws /\ spelt (concat ws) (significant (all_toks ll)).
Proof.
  intros esc doc. induction doc as [|p doc IH]; intros ll F E.
  - apply map_eq_nil in E. subst ll. exists []. now repeat constructor.
  - cbn [flat_map] in E. apply by_map in E. destruct E as (l1 & l2 & -> & E1 & E2). inversion F as [|? ? F1 F2]; subst.
    destruct (IH l2 F2 E2) as (ws & L & D & S1). destruct (part_spelt esc p l1 F1 E1) as (w & Dw & Sw).
    exists (w :: ws). split; [cbn [List.length]; lia|]. split; [now constructor|]. cbn [concat].
    rewrite toks_app, significant_app. now apply Forall2_app.
Qed.

Lemma doc_spells : forall esc doc ll, doc <> [] -> Forall (part_ok esc) doc -> map fst ll = flat_map part_dlines doc ->
  exists w, locale_definition w /\ spells (all_toks ll) w.
Proof.
  intros esc doc ll Ne F E. destruct (parts_spelt esc doc ll F E) as (ws & L & D & S1). exists (concat ws). split; [|exact S1].
  apply (by_production _ [Nt N_locale_categories]); [reflexivity|]. apply all_1.
  apply seq_list with (Nt N_locale_category); [reflexivity|reflexivity| |exact D].
  destruct ws; [destruct doc; [congruence|discriminate L]|discriminate].
Qed.
