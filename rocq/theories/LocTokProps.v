(* Property theorems C117 and C118 (pkg/locale: what the lexer sends for a well-formed definition, and how lines may end).
   [says w t]: the token t has the type and the text of the word w; the words of a definition are in LocTokSpec.v. *)
From Verif Require Import GoBase GoFacts Utf8Facts RuneFacts LocaleSpec LocGramSpec LocYaccModel LocParseSpec LocYaccFinal LocaleModel LocaleProofs LocLexModel
  LocLexProofs LocDocSpec LocDocLex LocDocProofs LocDocFinal LocTokSpec LocDocProps.
Local Open Scope Z_scope.

Lemma says_joined : forall ws ls, Forall2 (Forall2 says) ws ls -> Forall2 says (with_semicolons ws) (joined semi ls).
Proof.
  intros ws ls H. induction H as [|w l ws ls H1 H2 IH]; [constructor|].
  destruct H2 as [|w' l' ws ls H2 H3]; [exact H1|].
  change (with_semicolons (w :: w' :: ws)) with (w ++ Word T_semicolon (B ";") :: with_semicolons (w' :: ws)).
  change (joined semi (l :: l' :: ls)) with (l ++ semi :: joined semi (l' :: ls)).
  apply Forall2_app; [exact H1|]. constructor; [now split|exact IH].
Qed.
Lemma says_text : forall s, Forall2 says (text_words s) (text_toks s).
Proof.
  intros [|c s]; [now repeat constructor|]. unfold text_words, text_toks. constructor; [now split|].
  apply Forall2_app; [|now repeat constructor]. apply Forall2_maps. now intros [].
Qed.
Lemma says_value : forall v, Forall2 says (value_words v) (value_toks v).
Proof.
  intros []; cbn [value_words value_toks].
  - apply says_text.
  - apply says_joined, Forall2_maps, says_text.
  - now repeat constructor.
  - apply says_joined, Forall2_maps. now repeat constructor.
  - apply says_joined, Forall2_maps. now repeat constructor.
  - apply says_joined, Forall2_maps. intros p. unfold pair_words, pair_toks, symbol_words. cbn [app]. now repeat constructor.
  - now repeat constructor.
Qed.
Lemma says_eol : forall k, says LineEnd (eol_tok k).
Proof.
  intros [b k]. split; [reflexivity|]. split; [discriminate|]. unfold eol_tok, lines_end. cbn [t_value tk fst snd].
  assert (E : forall b, eol_char b = nl \/ eol_char b = cr) by (intros []; [now right|now left]).
  constructor; [apply E|]. apply Forall_map, Forall_forall. intros x _. apply E.
Qed.

Definition word_is (c : lc) (k : bytes) : bool :=
  match term_in keyword_terms k with
  | [Word t v] => (token_number t =? kw_typ c k) && beqb v k
  | _ => false
  end.
Lemma words_are : forallb (fun p => forallb (word_is (fst (fst p))) (snd p)) keywords = true.
Proof. vm_compute. reflexivity. Qed.
Lemma says_key : forall c sh ks k, In (c, sh, ks) keywords -> In k ks ->
  exists w, term_in keyword_terms k = [w] /\ says w (tk (kw_typ c k) k).
Proof.
  intros c sh ks k I1 I2. pose proof (proj1 (forallb_forall _ _) words_are _ I1) as H. cbn [fst snd] in H.
  apply (proj1 (forallb_forall _ _) H) in I2. unfold word_is in I2.
  destruct (term_in keyword_terms k) as [|[b|t v|] [|]]; try discriminate I2. apply andb_true_iff in I2. destruct I2 as [A1 A2].
  apply Z.eqb_eq in A1. apply beqb_eq in A2. subst v. eexists. split; [reflexivity|]. split; [|reflexivity]. unfold is. now rewrite A1.
Qed.
Lemma says_entry : forall esc c e k, entry_ok esc c e -> Forall2 says (entry_words e) (entry_toks c e ++ [eol_tok k]).
Proof.
  intros esc c e k (_ & sh & ks & I1 & I2 & _). destruct (says_key c sh ks _ I1 I2) as (w & E & H).
  unfold entry_words, entry_toks. rewrite E. cbn [app]. constructor; [exact H|]. constructor; [now split|].
  apply Forall2_app; [apply says_value|]. constructor; [apply says_eol|constructor].
Qed.
Lemma says_lines : forall A (f : A -> list word) (g : A -> dline) l ll, map fst ll = map g l ->
  (forall x k, In x l -> Forall2 says (f x) (line_toks (g x) ++ [eol_tok k])) -> Forall2 says (flat_map f l) (all_toks ll).
Proof.
  intros A f g l. induction l as [|x l IH]; intros ll E H; [apply map_eq_nil in E; subst ll; constructor|].
  destruct ll as [|[d k] ll]; [discriminate E|]. cbn [map fst] in E. injection E as -> E. cbn [flat_map all_toks fst snd].
  fold (all_toks ll). apply Forall2_app; [apply H; now left|]. apply IH; [exact E|]. intros y k' I. apply H. now right.
Qed.

Ltac cut_line ll E d k := destruct ll as [|[d k] ll]; [discriminate E|]; cbn [map fst] in E; injection E as -> E.
Lemma says_part : forall esc p ll, part_ok esc p -> map fst ll = part_dlines p -> Forall2 says (part_words p) (all_toks ll).
Proof.
  intros esc [c es|dir order] ll O E; cbn [part_dlines part_ok] in *.
  - destruct O as [_ O]. cut_line ll E d k. apply by_map in E. destruct E as (l1 & l2 & -> & E1 & E2).
    cut_line l2 E2 d2 k2. apply map_eq_nil in E2. subst l2. cbn [all_toks flat_map fst snd line_toks]. fold (all_toks (l1 ++ [(DEnd c, k2)])).
    rewrite toks_app. unfold part_words.
    replace (term_in name_terms (lc_name c) ++ LineEnd :: flat_map entry_words es ++ end_words (lc_name c))
      with ((term_in name_terms (lc_name c) ++ [LineEnd]) ++ flat_map entry_words es ++ end_words (lc_name c)) by (now rewrite <- app_assoc).
    apply Forall2_app; [apply Forall2_app; [destruct c; now repeat constructor|constructor; [apply says_eol|constructor]]|].
    apply Forall2_app.
    + apply (says_lines _ _ (DEntry c)); [exact E1|]. intros e n I. apply (says_entry esc). exact (proj1 (Forall_forall _ _) O e I).
    + unfold all_toks, end_words, end_toks. cbn [flat_map fst snd line_toks app]. rewrite app_nil_r. unfold end_toks. cbn [app].
      constructor; [now split|]. constructor; [now split|].
      apply (Forall2_app (l1 := term_in name_terms (lc_name c)) (l1' := [tk (c_tok (cat c)) (lc_name c)]));
        [destruct c; now repeat constructor|]. constructor; [apply says_eol|constructor].
  - destruct O as (Od & _ & _). cut_line ll E d k. cut_line ll E d2 k2. apply by_map in E. destruct E as (l1 & l2 & -> & E1 & E2).
    cut_line l2 E2 d3 k3. cut_line l2 E2 d4 k4. apply map_eq_nil in E2. subst l2.
    cbn [all_toks flat_map fst snd line_toks]. fold (all_toks (l1 ++ [(DOEnd, k3); (DCEnd, k4)])). rewrite toks_app.
    unfold part_words. cbn [app]. change (term_in name_terms (B "LC_COLLATE")) with [Word T_LC_COLLATE_STR (B "LC_COLLATE")]. cbn [app].
    constructor; [now split|]. constructor; [apply says_eol|]. constructor; [now split|].
    rewrite <- app_assoc. apply Forall2_app.
    { destruct dir as [[g w]|]; [|constructor]. destruct Od as [_ I]. constructor; [now split|].
      destruct I as [<-|[<-|[<-|[]]]]; now repeat constructor. }
    cbn [app]. constructor; [apply says_eol|]. apply Forall2_app.
    + apply (says_lines _ _ DSym); [exact E1|]. intros n i _. cbn [line_toks symbol_words app]. constructor; [now split|].
      constructor; [apply says_eol|constructor].
    + unfold all_toks, end_words, end_toks. cbn [flat_map fst snd line_toks app]. unfold end_toks. cbn [app].
      constructor; [now split|]. constructor; [apply says_eol|]. constructor; [now split|]. constructor; [now split|].
      change (term_in name_terms (B "LC_COLLATE")) with [Word T_LC_COLLATE_STR (B "LC_COLLATE")]. cbn [app].
      constructor; [now split|]. constructor; [apply says_eol|constructor].
Qed.
Lemma says_parts : forall esc doc ll, Forall (part_ok esc) doc -> map fst ll = flat_map part_dlines doc -> Forall2 says (flat_map part_words doc) (all_toks ll).
Proof.
  intros esc. induction doc as [|p doc IH]; intros ll O E; [apply map_eq_nil in E; subst ll; constructor|].
  inversion O as [|? ? O1 O2]; subst. cbn [flat_map] in E. apply by_map in E. destruct E as (l1 & l2 & -> & E1 & E2).
  cbn [flat_map]. rewrite toks_app. apply Forall2_app; [now apply (says_part esc)|now apply IH].
Qed.

(* ---- line ends ---- *)
Definition raw (l r : bytes) : Prop := r = l \/ r = l ++ [cr].
Lemma raw_lines : forall file text, ended file text -> (forall l, In l file -> ~ In nl l) ->
  exists rs, Forall2 raw file rs /\ split_on nl text = rs ++ [[]].
Proof.
  intros file text H. induction H as [|l f t H IH|l f t H IH]; intros N.
  - exists []. split; [constructor|reflexivity].
  - destruct IH as (rs & F & E); [intros x I; apply N; now right|]. exists (l :: rs). split; [constructor; [now left|exact F]|].
    rewrite split_on_app by (apply N; now left). now rewrite E.
  - destruct IH as (rs & F & E); [intros x I; apply N; now right|]. exists ((l ++ [cr]) :: rs). split; [constructor; [now right|exact F]|].
    replace (l ++ cr :: nl :: t) with ((l ++ [cr]) ++ nl :: t) by (now rewrite <- app_assoc).
    rewrite split_on_app; [now rewrite E|]. intros I. apply in_app_or in I. destruct I as [I|[I|[]]]; [|discriminate I].
    revert I. apply N. now left.
Qed.
Lemma line_check : forall esc d t, line_ok esc d ->
  checkSpecialWord (write_line d ++ t) (B "comment_char") = None /\ checkSpecialWord (write_line d ++ t) (B "escape_char") = None.
Proof.
  intros esc d t O. destruct d as [c|c e|c| |dir|n| |]; cbn [write_line line_ok] in *; try (split; reflexivity).
  - destruct c; split; reflexivity.
  - destruct O as (_ & sh & ks & I1 & I2 & _). destruct (key_tab _ _ _ _ I1 I2) as (T & _). unfold write_entry.
    rewrite <- !app_assoc. now apply check_two.
Qed.
Lemma simple_cr : forall esc d, line_ok esc d -> simple (write_line d ++ [cr]).
Proof.
  intros esc d O. destruct (line_simple esc d O) as (N & (h & t & E & L & Nh) & _). split; [|split; [|split]].
  - intros I. apply in_app_or in I. destruct I as [I|[I|[]]]; [now apply N|discriminate I].
  - exists h, (t ++ [cr]). split; [now rewrite E|now split].
  - exists (write_line d), cr. split; [reflexivity|]. now split.
  - now apply (line_check esc).
Qed.
Lemma simple_raw : forall esc d r, line_ok esc d -> raw (write_line d) r -> simple r.
Proof. intros esc d r O [->| ->]; [now apply (line_simple esc)|now apply (simple_cr esc)]. Qed.
Lemma blank_cr : simple [cr].
Proof.
  split; [intros [I|[]]; discriminate I|]. split; [exists cr, []; now split|]. split; [exists [], cr; now split|]. split; reflexivity.
Qed.
Lemma comment_raw : forall c r, comment c -> raw c r -> comment r.
Proof.
  intros c r (s & -> & N) [->| ->]; [now exists s|]. exists (s ++ [cr]). split; [reflexivity|].
  intros I. apply in_app_or in I. destruct I as [I|[I|[]]]; [now apply N|discriminate I].
Qed.
(* the end of a line as it is left in the source *)
Definition line_end (l r : bytes) : list bool := if (List.length r =? List.length l)%nat then [false] else [true; false].
Lemma raw_end : forall l r, raw l r -> r ++ [nl] = l ++ map eol_char (line_end l r).
Proof.
  intros l r [->| ->]; unfold line_end.
  - rewrite Nat.eqb_refl. reflexivity.
  - rewrite app_length, <- app_assoc. cbn [List.length]. replace (List.length l + 1 =? List.length l)%nat with false by (symmetry; apply Nat.eqb_neq; lia).
    reflexivity.
Qed.
Definition line_ends (l r : bytes) (k : list bool) : bool * list bool :=
  if (List.length r =? List.length l)%nat then (false, k) else (true, false :: k).
Lemma raw_ends : forall l r k, raw l r -> r ++ [nl] ++ map eol_char k = l ++ lines_end (line_ends l r k).
Proof.
  intros l r k H. rewrite app_assoc, (raw_end l r H), <- app_assoc. f_equal. unfold line_end, line_ends.
  destruct (List.length r =? List.length l)%nat; reflexivity.
Qed.

Lemma after_raw : forall ls f, after ls f -> forall rs ds fuel, Forall2 raw f rs -> map write_line ds = ls -> Forall (line_ok 92) ds ->
  (List.length rs < fuel)%nat ->
  exists k ll, map fst ll = ds /\ remove_lines fuel 35 92 (rs ++ [[]]) = Ok (map eol_char k ++ source ll, 92%N).
Proof.
  intros ls f H. induction H as [|l ls f H IH|ls f H IH|c ls f Hc H IH]; intros rs ds fuel F E O Le; (destruct fuel as [|fuel]; [lia|]);
    inversion F as [|x r f' rs' Hr F']; subst; cbn [List.length app] in *.
  - apply map_eq_nil in E. subst ds. exists [false], []. split; [reflexivity|]. rewrite remove_blank. destruct fuel; reflexivity.
  - destruct ds as [|d ds]; [discriminate E|]. cbn [map] in E. injection E as <- E. inversion O as [|? ? O1 O2]; subst.
    destruct (IH rs' ds fuel F' eq_refl O2) as (k & ll & E1 & R); [lia|]. exists [], ((d, line_ends (write_line d) r k) :: ll).
    split; [cbn [map fst]; now rewrite E1|]. rewrite remove_simple by (now apply (simple_raw 92 d)). rewrite R.
    cbn [put rbind map app source flat_map fst snd]. fold (source ll). rewrite <- (raw_ends _ _ _ Hr). rewrite <- !app_assoc. reflexivity.
  - destruct (IH rs' ds fuel F' eq_refl O) as (k & ll & E1 & R); [lia|]. exists (line_end [] r ++ k), ll. split; [exact E1|].
    rewrite map_app, <- app_assoc. pose proof (raw_end _ _ Hr) as Q. cbn [app] in Q. rewrite <- Q.
    destruct Hr as [->| ->]; cbn [app].
    + now rewrite remove_blank, R.
    + rewrite remove_simple by apply blank_cr. now rewrite R.
  - destruct (IH rs' ds fuel F' eq_refl O) as (k & ll & E1 & R); [lia|]. exists k, ll. split; [exact E1|].
    rewrite remove_comment by (now apply (comment_raw c)). exact R.
Qed.
Lemma written_source : forall doc text, written_as doc text -> exists ll, map fst ll = flat_map part_dlines doc /\
  removeComments text = Ok (source ll, 92%N).
Proof.
  intros doc text (O & file & (cs & l & ls & f & E & C & -> & A) & T). apply doc_lines_ok in O. rewrite <- doc_written in E.
  destruct (flat_map part_dlines doc) as [|d ds]; [discriminate E|]. cbn [map] in E. injection E as <- <-.
  inversion O as [|? ? O1 O2]; subst. unfold removeComments.
  assert (N : forall x, In x (cs ++ write_line d :: f) -> ~ In nl x).
  { intros x I. apply in_app_or in I. destruct I as [I|[<-|I]].
    - apply (proj1 (Forall_forall _ _) C) in I. destruct I as (s & -> & Hs). intros [X|X]; [discriminate X|now apply Hs].
    - exact (proj1 (line_simple 92 d O1)).
    - apply (after_no_nl _ _ A); [|exact I]. intros y Hy. apply in_map_iff in Hy. destruct Hy as (z & <- & Hz).
      exact (proj1 (line_simple 92 z (proj1 (Forall_forall _ _) O2 z Hz))). }
  destruct (raw_lines _ _ T N) as (rs & F & ->). cbv zeta. rewrite app_length. cbn [List.length]. clear N T.
  apply Forall2_app_inv_l in F. destruct F as (r1 & r2 & F1 & F2 & ->). inversion F2 as [|x r f' r3 Hr F3]; subst.
  rewrite app_length. cbn [List.length].
  destruct (after_raw _ _ A r3 ds (S (List.length r3)) F3 eq_refl O2) as (k & ll & E1 & R); [lia|].
  exists ((d, line_ends (write_line d) r k) :: ll). split; [cbn [map fst]; now rewrite E1|].
  replace (List.length r1 + S (List.length r3) + 1)%nat with (List.length r1 + S (S (List.length r3)))%nat by lia.
  rewrite <- app_assoc. cbn [app]. revert C. induction F1 as [|c rc cs r1 Hc F1 IH]; intros C.
  - cbn [List.length app Nat.add]. rewrite remove_simple by (now apply (simple_raw 92 d)). rewrite R.
    cbn [put rbind source flat_map fst snd]. fold (source ll). rewrite <- (raw_ends _ _ _ Hr). rewrite <- !app_assoc. reflexivity.
  - inversion C as [|? ? C1 C2]; subst. cbn [List.length app Nat.add]. rewrite remove_comment by (now apply (comment_raw c)).
    exact (IH C2).
Qed.

(* C117: for a well-formed definition the lexer ends and the tokens it has sent are the words of the definition, in order,
   each with its own terminal and its own text. *)
Theorem C117_words_sent : forall doc text, written_as doc text ->
  exists src esc n, removeComments text = Ok (src, esc) /\ forall fuel, (n <= fuel)%nat ->
    (exists s, lex fuel esc src = Done tt s) /\ Forall2 says (flat_map part_words doc) (tokens_of (lex fuel esc src)).
Proof.
  intros doc text Df. destruct (written_source doc text Df) as (ll & El & R). destruct Df as (O & _).
  exists (source ll), 92%N, (3 * List.length (source ll) + 3 * List.length ll + 4)%nat. split; [exact R|]. intros fuel Le.
  assert (L : lex fuel 92 (source ll) = Done tt (fresh [] (rev (all_toks ll)))).
  { rewrite <- (app_nil_r (source ll)). apply (lex_doc doc ll [] fuel 92%N O El I). rewrite ?app_nil_r. lia. }
  split; [eexists; exact L|]. rewrite L. cbn [tokens_of sent fresh]. rewrite rev_involutive. now apply (says_parts 92).
Qed.
Print Assumptions C117_words_sent.
(* the sample definition of LocDocProps.v, with comments, empty lines and both kinds of line ends; its words begin like this *)
Definition mixed : bytes := flat_map (fun l => l ++ [cr; nl]) (firstn 7 dressed) ++ lines (skipn 7 dressed).
Lemma ended_mixed : forall a b, ended (a ++ b) (flat_map (fun l => l ++ [cr; nl]) a ++ lines b).
Proof.
  intros a b. induction a as [|l a IH].
  - cbn [app flat_map]. induction b as [|l b IH]; [constructor|]. unfold lines, file_text in *. cbn [flat_map]. rewrite <- app_assoc.
    cbn [app]. now constructor.
  - cbn [app flat_map]. rewrite <- !app_assoc. cbn [app]. now constructor.
Qed.
Lemma written_mixed : written_as sample mixed.
Proof. split; [exact sample_ok|]. exists dressed. split; [exact dressed_laid_out|exact (ended_mixed (firstn 7 dressed) (skipn 7 dressed))]. Qed.
Example C117_nonvacuous : written_as sample mixed /\
  firstn 12 (flat_map part_words sample) =
    [Word T_LC_MONETARY_STR (B "LC_MONETARY"); LineEnd; Word T_INT_CURR_SYMBOL_STR (B "int_curr_symbol"); Blank [" "%char; tab];
     Word T_dquote (B """"); Word T_CHAR (B "U"); Word T_CHAR (B "S"); Word T_CHAR (B "D"); Word T_CHAR (B " "); Word T_dquote (B """"); LineEnd;
     Word T_MON_GROUPING_STR (B "mon_grouping")].
Proof. split; [exact written_mixed|vm_compute; reflexivity]. Qed.

(* C118: lines may end in a carriage return and a newline; acceptance and the stored values are the same as with newlines. *)
Theorem C118_carriage_returns : forall doc text text' d, doc <> [] -> definition_of doc text -> written_as doc text' ->
  exists d' n, forall fuel, (n <= fuel)%nat -> parse_text fuel d text = Accepted d' /\ parse_text fuel d text' = Accepted d'.
Proof.
  intros doc text text' d Ne Df Wr. destruct (document doc text d Ne Df) as (a & (n & H) & S1 & F1 & G1).
  destruct (written_source doc text' Wr) as (ll & El & R). destruct Wr as (O & _). rewrite <- (app_nil_r (source ll)) in R.
  destruct (document_source doc text' d ll [] 92%N Ne O El I R) as (b & (m & K) & S2 & F2 & G2).
  exists a, (n + m)%nat. intros fuel Le. split; [apply H; lia|]. rewrite K by lia. f_equal.
  destruct a, b; cbn in *. congruence.
Qed.
Print Assumptions C118_carriage_returns.
Example C118_nonvacuous : sample <> [] /\ definition_of sample (lines dressed) /\ written_as sample mixed /\ lines dressed <> mixed /\
  (exists d', parse_text 5000 nothing mixed = Accepted d' /\ int_curr_symbol d' = B "E # R" /\ mon_grouping d' = [3; -1]).
Proof.
  split; [discriminate|]. split; [exact sample_dressed|]. split; [exact written_mixed|]. split; [vm_compute; discriminate|].
  eexists. split; [vm_compute; reflexivity|]. now split.
Qed.

(* C95 for files: an int_frac_digits line in a file has no effect either. *)
Theorem C95_files_refuted : forall doc text d, doc <> [] -> definition_of doc text ->
  exists d' n, (forall fuel, (n <= fuel)%nat -> parse_text fuel d text = Accepted d') /\ int_frac_digits d' = int_frac_digits d.
Proof. intros doc text d Ne Df. destruct (document doc text d Ne Df) as (d' & (n & H) & _ & F & _). now exists d', n. Qed.
Print Assumptions C95_files_refuted.
(* the sample has the line int_frac_digits 2 *)
Example C95_files_nonvacuous : definition_of sample (lines bare) /\ In (B "int_frac_digits" ++ [" "%char; tab] ++ B "2") bare /\
  (exists d', parse_text 5000 nothing (lines bare) = Accepted d' /\ int_frac_digits d' = 0).
Proof. split; [exact sample_bare|]. split; [do 3 right; left; reflexivity|]. eexists. split; [vm_compute; reflexivity|reflexivity]. Qed.
