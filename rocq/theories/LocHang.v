(* Texts on which the lexer of locale definitions never ends. *)
From Verif Require Import GoBase GoFacts RuneFacts Utf8Facts LocGramSpec LocYaccModel LocYaccProofs LocYaccGram LocYaccSound LocParseSpec LocYaccFinal
  LocaleModel LocaleProofs LocLexModel LocLexProofs LocDocSpec LocDocLex LocDocProofs LocDocFinal LocHangSpec LocLexEnds LocLexMore LocLexBad.
Local Open Scope Z_scope.

(* ---- the parser on the first part of a sentence ---- *)
Section Prefix.
Variable r : list token.
Definition longer (c : config) : config :=
  {| state := state c; yyval := yyval c; below := below c; above := above c; look := look c; lval := lval c;
     input := input c ++ r; defs := defs c |}.
Definition longer_result (x : result) : result := match x with Continue c => Continue (longer c) | Stop o d => Stop o d end.

Lemma next_token_app : forall l t u, next_token l = Some (t, u) -> next_token (l ++ r) = Some (t, u ++ r).
Proof.
  induction l as [|a l IH]; intros t u H; [discriminate H|]. cbn [next_token app] in *. destruct (t_type a =? WHITESPACE); [now apply IH|].
  now injection H as <- <-.
Qed.
Lemma read_longer : forall c, read false c = None \/
  exists t c', read false c = Some (t, c') /\ read true (longer c) = Some (t, longer c').
Proof.
  intros c. unfold read. cbn [look longer input]. destruct (look c) as [t|]; [right; exists t, c; now split|].
  destruct (next_token (input c)) as [[t u]|] eqn:N; [|now left]. rewrite (next_token_app _ _ _ N). right. do 2 eexists. split; [reflexivity|]. reflexivity.
Qed.
Lemma reduce_longer : forall n c, reduce n (longer c) = longer_result (reduce n c).
Proof.
  intros n c. unfold reduce. cbn [longer below above defs look lval input]. destruct (at_ yyR2 n) as [k|]; [|reflexivity].
  destruct (at_ yyR1 n) as [A|]; [|reflexivity]. destruct (k <? 0); [reflexivity|]. destruct (skipn (Z.to_nat k) (below c)) as [|top t]; [reflexivity|].
  destruct (goto_ (yys top) A); [|reflexivity]. destruct (action _ _ _ _) as [[v' d]|]; reflexivity.
Qed.
Lemma default_longer : forall c, default_action false c = Stop Waits (defs c) \/ default_action true (longer c) = longer_result (default_action false c).
Proof.
  intros c. unfold default_action. cbn [longer state defs]. destruct (at_ yyDef (state c)) as [n|]; [|now right].
  destruct (n =? -2).
  - destruct (read_longer c) as [E|(t & c' & E1 & E2)]; [left; now rewrite E|]. rewrite E1, E2. right. cbn [longer state defs].
    destruct (exca_find _ _) as [l|]; [|reflexivity]. destruct (exca_pick t l) as [m|]; [|reflexivity]. destruct (m <? 0); [reflexivity|].
    destruct (m =? 0); [reflexivity|]. apply reduce_longer.
  - right. destruct (n =? 0); [reflexivity|]. apply reduce_longer.
Qed.
Lemma step_longer : forall c, step false c = Stop Waits (defs c) \/ step true (longer c) = longer_result (step false c).
Proof.
  intros c. unfold step. cbv zeta. cbn [longer state yyval below above look lval input defs].
  set (c0 := {| state := state c; yyval := yyval c; below := _ :: below c; above := tl (above c); look := look c; lval := lval c; input := input c; defs := defs c |}).
  change {| state := state c; yyval := yyval c; below := _ :: below c; above := tl (above c); look := look c; lval := lval c; input := input c ++ r; defs := defs c |} with (longer c0).
  change (state c) with (state c0). change (defs c) with (defs c0). clearbody c0. clear c.
  destruct (at_ yyPact (state c0)) as [p|]; [|now right]. destruct (p <=? yyFlag); [apply default_longer|].
  destruct (read_longer c0) as [E|(t & c' & E1 & E2)]; [left; now rewrite E|]. rewrite E1, E2.
  assert (D : defs c' = defs c0) by exact (read_defs _ _ _ _ E1). rewrite <- D.
  destruct ((p + t <? 0) || (yyLast <=? p + t)); [apply default_longer|].
  destruct (at_ yyAct (p + t)) as [s|]; [|now right]. destruct (at_ yyChk s) as [k|]; [|now right].
  destruct (k =? t); [now right|apply default_longer].
Qed.
Lemma run_longer : forall f c o d, run f false c = Some (o, d) -> o = Waits \/ run f true (longer c) = Some (o, d).
Proof.
  induction f as [|f IH]; intros c o d H; [discriminate H|]. cbn [run] in *. destruct (step_longer c) as [E|E]; rewrite E in *.
  - injection H as <- _. now left.
  - destruct (step false c) as [c'|o' d']; cbn [longer_result]; [now apply IH|right; exact H].
Qed.
End Prefix.

(* while tokens can still come the parser does not return *)
Definition not_over (c : config) : Prop := look c <> Some 1 /\ Forall (fun t => 0 < t_type t) (input c).
Lemma next_token_positive : forall l t u, next_token l = Some (t, u) -> Forall (fun t => 0 < t_type t) l -> 0 < t_type t /\ Forall (fun t => 0 < t_type t) u.
Proof.
  induction l as [|a l IH]; intros t u H F; [discriminate H|]. inversion F as [|? ? F1 F2]; subst. cbn [next_token] in H.
  destruct (t_type a =? WHITESPACE); [now apply (IH t u)|]. injection H as <- <-. now split.
Qed.
Lemma read_not_over : forall c t c', not_over c -> read false c = Some (t, c') -> t <> 1 /\ not_over c'.
Proof.
  intros c t c' [N F] H. unfold read in H. destruct (look c) as [x|] eqn:L.
  - injection H as <- <-. split; [congruence|]. split; [congruence|exact F].
  - destruct (next_token (input c)) as [[tok u]|] eqn:Q; [|discriminate H]. injection H as <- <-.
    destruct (next_token_positive _ _ _ Q F) as [P1 P2]. pose proof (translate_range _ P1) as T. split; [lia|]. split; [|exact P2].
    cbn [look]. destruct (t_type tok <? 0); [discriminate|]. intros X. injection X as X. lia.
Qed.
Definition goes_on (x : result) : Prop := match x with Continue c => not_over c | Stop o _ => forall n, o <> Returns n end.
Lemma reduce_goes : forall n c, not_over c -> goes_on (reduce n c).
Proof.
  intros n c H. unfold reduce. destruct (at_ yyR2 n) as [k|]; [|discriminate]. destruct (at_ yyR1 n) as [A|]; [|discriminate].
  destruct (k <? 0); [discriminate|]. destruct (skipn _ _) as [|top t]; [discriminate|]. destruct (goto_ _ A); [|discriminate].
  destruct (action _ _ _ _) as [[v' d]|]; [exact H|discriminate].
Qed.
Lemma pick_end : forall t l n st, exca_find st yyExca = Some l -> exca_pick t l = Some n -> n < 0 -> t = 1.
Proof.
  intros t l n st F P L. unfold yyExca in F. cbn [exca_find] in F. destruct ((-1 =? -1) && (1 =? st)).
  - injection F as <-. cbn [exca_pick] in P. destruct ((1 <? 0) || (1 =? t)) eqn:Q.
    + cbn [Z.ltb Z.compare orb] in Q. apply Z.eqb_eq in Q. congruence.
    + cbn [Z.ltb Z.compare orb] in P. injection P as <-. lia.
  - cbn [Z.eqb Pos.eqb andb] in F. discriminate F.
Qed.
Lemma default_goes : forall c, not_over c -> goes_on (default_action false c).
Proof.
  intros c H. unfold default_action. destruct (at_ yyDef (state c)) as [n|]; [|discriminate]. destruct (n =? -2).
  - destruct (read false c) as [[t c']|] eqn:R; [|discriminate]. destruct (read_not_over _ _ _ H R) as [Nt H'].
    destruct (exca_find _ _) as [l|] eqn:F; [|discriminate]. destruct (exca_pick t l) as [m|] eqn:P; [|discriminate].
    destruct (m <? 0) eqn:M; [apply Z.ltb_lt in M; exfalso; exact (Nt (pick_end _ _ _ _ F P M))|]. destruct (m =? 0); [discriminate|]. now apply reduce_goes.
  - destruct (n =? 0); [discriminate|]. now apply reduce_goes.
Qed.
Lemma step_goes : forall c, not_over c -> goes_on (step false c).
Proof.
  intros c H. unfold step. cbv zeta. set (c0 := {| state := _ |}). assert (H0 : not_over c0) by exact H. clearbody c0. clear c H.
  destruct (at_ yyPact (state c0)) as [p|]; [|discriminate]. destruct (p <=? yyFlag); [now apply default_goes|].
  destruct (read false c0) as [[t c']|] eqn:R; [|discriminate]. destruct (read_not_over _ _ _ H0 R) as [Nt H'].
  destruct (_ || _); [now apply default_goes|]. destruct (at_ yyAct (p + t)) as [s|]; [|discriminate]. destruct (at_ yyChk s) as [k|]; [|discriminate].
  destruct (k =? t); [|now apply default_goes]. split; [discriminate|]. exact (proj2 H').
Qed.
Lemma run_goes : forall f c n d, not_over c -> run f false c <> Some (Returns n, d).
Proof.
  induction f as [|f IH]; intros c n d H X; [discriminate X|]. cbn [run] in X. pose proof (step_goes c H) as G.
  destruct (step false c) as [c'|o d']; [now apply (IH c' n d)|]. injection X as -> _. now apply (G n).
Qed.

(* so on the first part of a sentence it waits *)
Lemma prefix_waits : forall d l r w fuel, positive (l ++ r) -> spells (l ++ r) w -> locale_definition w ->
  (forall t, In t (l ++ r) -> is T_NUMBER t -> atoi (t_value t) <> None) ->
  yyParse fuel false d l = None \/ exists d', yyParse fuel false d l = Some (Waits, d').
Proof.
  intros d l r w fuel P Sp L N. destruct (spells_accepted d (l ++ r) w P Sp L N) as (d1 & E).
  destruct (yyParse fuel false d l) as [[o d']|] eqn:Q; [right|now left]. exists d'. unfold yyParse in *.
  assert (Nv : not_over (start d l)).
  { split; [discriminate|]. cbn [start input]. unfold positive in P. apply Forall_app in P. exact (proj1 P). }
  destruct (run_longer r _ _ _ _ Q) as [->|X]; [reflexivity|]. exfalso.
  change (longer r (start d l)) with (start d (l ++ r)) in X. pose proof (run_det _ _ _ _ _ _ X E) as Y. injection Y as -> ->.
  exact (run_goes _ _ _ _ Nv Q).
Qed.

Lemma still : forall fuel d text src esc s r w, removeComments text = Ok (src, esc) -> lex fuel esc src = Unfinished s ->
  positive (rev (sent s) ++ r) -> spells (rev (sent s) ++ r) w -> locale_definition w ->
  (forall t, In t (rev (sent s) ++ r) -> is T_NUMBER t -> atoi (t_value t) <> None) -> parse_text fuel d text = StillRunning.
Proof.
  intros fuel d text src esc s r w R L P Sp D N. unfold parse_text. rewrite R. cbv zeta. rewrite L. cbn [tokens_of].
  destruct (prefix_waits d _ r w fuel P Sp D N) as [E|(d' & E)]; now rewrite E.
Qed.

(* ---- an escape cut short by the end of the text ---- *)
Lemma loop_over : forall esc rs fuel r l, Forall plain_rune rs -> (List.length rs <= fuel)%nat ->
  string_loop fuel esc false (fresh (string_of_runes rs ++ r) l) =
  string_loop (fuel - List.length rs) esc false (fresh r (rev (map (fun x => tk CHAR (encode_rune x)) rs) ++ l)).
Proof.
  intros esc rs. induction rs as [|x rs IH]; intros fuel r l F Le; [cbn [List.length map rev app]; rewrite Nat.sub_0_r; reflexivity|].
  destruct fuel as [|fuel]; [cbn in Le; lia|]. cbn [string_loop]. inversion F as [|? ? (V & N1 & N2 & N3) F']; subst.
  change (string_of_runes (x :: rs)) with (encode_rune x ++ string_of_runes rs). rewrite <- app_assoc. unfold fresh at 1.
  rewrite next_rune by exact V. rewrite !at_rune by (try (intros <-; apply N1; reflexivity); try (intros <-; apply N2; reflexivity); intros <-; apply N3; reflexivity).
  unfold emit, current. cbn [cur rest sent]. rewrite app_nil_r, rev_involutive.
  change {| cur := []; rest := ?a; rew := []; sent := ?b |} with (fresh a b). rewrite IH; [|exact F'|cbn [List.length] in Le; lia].
  cbn [map rev List.length Nat.sub]. rewrite <- app_assoc. reflexivity.
Qed.
Lemma loop_end : forall fuel esc l, string_loop fuel esc false (fresh [] l) = Unfinished (fresh [] (repeat (tk CHAR []) fuel ++ l)).
Proof.
  induction fuel as [|f IH]; intros esc l; [reflexivity|]. cbn [string_loop]. unfold fresh at 1. rewrite next_end. cbn [at_char has].
  unfold emit, current. cbn [cur rest sent rev]. change {| cur := []; rest := ?a; rew := []; sent := ?b |} with (fresh a b). rewrite IH.
  f_equal. f_equal. cbn [repeat app]. change (tk CHAR [] :: repeat (tk CHAR []) f ++ l) with ((tk CHAR [] :: repeat (tk CHAR []) f) ++ l).
  rewrite (repeat_cons f (tk CHAR [])). now rewrite <- app_assoc.
Qed.

(* two reads take what is left *)
Lemma two_reads : forall e u w l, (List.length (runes_of e) <= 1)%nat ->
  exists v x, snd (next (snd (next {| cur := u; rest := e ++ [nl]; rew := w; sent := l |}))) = {| cur := v; rest := []; rew := x; sent := l |}.
Proof.
  intros e u w l Le. destruct e as [|b e].
  - cbn [app]. rewrite next_low by reflexivity. cbn [snd]. rewrite next_end. do 2 eexists. reflexivity.
  - destruct (next_in (b :: e)) as (r & p & y & E & _ & R & _ & _ & N); [discriminate|]. rewrite N. cbn [snd].
    assert (Y : y = []).
    { destruct y as [|c y]; [reflexivity|]. exfalso. rewrite R in Le. cbn [List.length] in Le.
      destruct (decode_rune (c :: y)) as [q k] eqn:D. rewrite (runes_of_step (c :: y) q k) in Le by (try discriminate; exact D). cbn [List.length] in Le. lia. }
    subst y. cbn [app]. rewrite next_low by reflexivity. do 2 eexists. reflexivity.
Qed.
Definition esc_terms : list term := [T_OCTAL_CHAR; T_DECIMAL_CHAR; T_HEX_CHAR].
Lemma has_in : forall c chars, In c chars -> has chars (Some (byte_val c)) = true.
Proof. intros c chars I. cbn [has]. apply existsb_exists. exists c. split; [exact I|apply N.eqb_refl]. Qed.
Lemma loop_cut : forall f esc c e l, In c (B "0123456789dx") -> byte_val c <> esc -> (List.length (runes_of e) <= 1)%nat ->
  exists x v, In x esc_terms /\ string_loop (S (S f)) esc false (fresh ("\"%char :: c :: e ++ [nl]) l) =
    string_loop f esc false (fresh [] (tk (token_number x) v :: l)).
Proof.
  intros f esc c e l I Ne Le. assert (Lc : low c) by (refine (proj1 (Forall_forall low _) _ c I); now apply lows).
  set (g := S f). cbn [string_loop]. unfold fresh at 1. rewrite next_low by reflexivity.
  change (at_char """" (Some (byte_val "\"))) with false. change (at_char nl (Some (byte_val "\"))) with false. rewrite at_yes. cbv iota.
  unfold g. cbn [string_loop]. rewrite next_low by exact Lc. rewrite rewind_low by exact Lc. unfold grabEscapeInString. rewrite next_low by exact Lc.
  assert (N1 : has (B ",;<>") (Some (byte_val c)) = false).
  { apply not_newline; [|exact Lc|now apply lows].
    assert (A : forallb (fun c => negb (existsb (Ascii.eqb c) (B ",;<>"))) (B "0123456789dx") = true) by reflexivity.
    pose proof (proj1 (forallb_forall _ _) A c I) as K. cbv beta in K. now apply negb_true_iff. }
  apply N.eqb_neq in Ne. rewrite N1, Ne. cbn [orb].
  match goal with |- context [next {| cur := ?u; rest := e ++ [nl]; rew := ?w; sent := ?l' |}] => destruct (two_reads e u w l' Le) as (v & x & E) end.
  rewrite E. change (B "0123456789dx") with (digits ++ B "dx") in I. apply in_app_or in I. destruct I as [I|I].
  - rewrite (has_in _ _ I). cbn [bind]. exists T_OCTAL_CHAR, (rev v). split; [now left|]. reflexivity.
  - cbn [In B] in I. destruct I as [<-|[<-|[]]].
    + change (has digits (Some (byte_val "d"))) with false. change (at_char "d" (Some (byte_val "d"))) with true. cbv iota. rewrite next_end.
      change (has digits None) with false. cbv iota. cbn [bind]. exists T_DECIMAL_CHAR, (rev v). split; [right; now left|]. reflexivity.
    + change (has digits (Some (byte_val "x"))) with false. change (at_char "d" (Some (byte_val "x"))) with false.
      change (at_char "x" (Some (byte_val "x"))) with true. cbv iota. cbn [bind]. exists T_HEX_CHAR, (rev v). split; [right; right; now left|]. reflexivity.
Qed.

Lemma string_cut : forall fuel esc x c e l, plain_text x -> In c (B "0123456789dx") -> byte_val c <> esc -> (List.length (runes_of e) <= 1)%nat ->
  (List.length x + 2 <= fuel)%nat ->
  exists ct t v n, Forall (fun a => t_type a = CHAR) ct /\ In t esc_terms /\
    grabString fuel esc (fresh (""""%char :: x ++ "\"%char :: c :: e ++ [nl]) l) =
    Unfinished (fresh [] (repeat (tk CHAR []) n ++ tk (token_number t) v :: rev ct ++ tk DQUOTE [""""%char] :: l)).
Proof.
  intros fuel esc x c e l (rs & -> & F) I Ne Le Lf. unfold grabString, peek, fresh.
  rewrite next_low by reflexivity. rewrite rewind_low by reflexivity. rewrite at_yes. cbn [negb]. cbv zeta. rewrite next_low by reflexivity. cbn [snd].
  assert (Len : (List.length rs <= List.length (string_of_runes rs))%nat).
  { assert (V : Forall valid_rune rs) by (eapply Forall_impl; [|exact F]; intros a Ha; exact (proj1 Ha)).
    rewrite <- (runes_of_string rs V) at 1. apply runes_of_length. }
  assert (T : exists ct t v n, Forall (fun a => t_type a = CHAR) ct /\ In t esc_terms /\
    string_loop fuel esc false (fresh (string_of_runes rs ++ "\"%char :: c :: e ++ [nl]) (tk DQUOTE [""""%char] :: l)) =
    Unfinished (fresh [] (repeat (tk CHAR []) n ++ tk (token_number t) v :: rev ct ++ tk DQUOTE [""""%char] :: l))).
  { rewrite loop_over by (try exact F; lia). destruct (fuel - List.length rs)%nat as [|[|f]] eqn:Q; [lia|lia|].
    destruct (loop_cut f esc c e (rev (map (fun x => tk CHAR (encode_rune x)) rs) ++ tk DQUOTE [""""%char] :: l) I Ne Le) as (t & v & It & E).
    rewrite E, loop_end. exists (map (fun x => tk CHAR (encode_rune x)) rs), t, v, f. split; [|now split].
    apply Forall_map. apply Forall_forall. reflexivity. }
  destruct T as (ct & t & v & n & T1 & T2 & T3). exists ct, t, v, n. split; [exact T1|]. split; [exact T2|].
  etransitivity; [|exact T3]. clear T3. destruct rs as [|r rs].
  - change (string_of_runes [] ++ ?z) with z. rewrite next_low by reflexivity. rewrite rewind_low by reflexivity.
    change (at_char """" (Some (byte_val "\"))) with false. cbv iota. reflexivity.
  - inversion F as [|? ? (V & N1 & N2 & N3) F']; subst. change (string_of_runes (r :: rs)) with (encode_rune r ++ string_of_runes rs). rewrite <- app_assoc.
    rewrite next_rune by exact V. rewrite rewind_rune. rewrite at_rune by (intros <-; apply N1; reflexivity). reflexivity.
Qed.

(* the tokens sent before and after *)
Definition texty (sh : shape) : Prop := In sh [a_text; a_full_text; full_texts].
Lemma char_list_derives : forall ws, ws <> [] -> Forall (fun x => In x (T_CHAR :: esc_terms)) ws -> derives N_char_list ws.
Proof.
  intros ws Ne F. replace ws with (concat (map (fun x => [x]) ws)) by (clear; induction ws; cbn; congruence).
  apply seq_list with (Nt N_char_symbol); try reflexivity; [destruct ws; [congruence|discriminate]|]. apply Forall_map. eapply Forall_impl; [|exact F].
  intros x I. cbn [In esc_terms] in I. apply (by_production _ [Tm x]); [|apply all_1, t1].
  destruct I as [<-|[<-|[<-|[<-|[]]]]]; reflexivity.
Qed.
Lemma quoted_derives : forall (S1 : nonterm) ws, production S1 [Tm T_dquote; Nt N_char_list; Tm T_dquote] = true -> ws <> [] ->
  Forall (fun x => In x (T_CHAR :: esc_terms)) ws -> derives S1 ([T_dquote] ++ ws ++ [T_dquote]).
Proof. intros S1 ws P Ne F. apply (by_production _ _ _ P). apply all_3; try apply t1. now apply char_list_derives. Qed.
Lemma entry_text_derives : forall c sh ks k ws, In (c, sh, ks) keywords -> In k ks -> texty sh -> ws <> [] -> Forall (fun x => In x (T_CHAR :: esc_terms)) ws ->
  exists x, token_number x = kw_typ c k /\ derives (keyword_nt c) ([x] ++ ([T_dquote] ++ ws ++ [T_dquote]) ++ [T_EOL]).
Proof.
  intros c sh ks k ws I1 I2 Tx Ne F. pose proof (key_produced _ _ _ _ I1 I2) as P. apply shapes in I1. cbn [In] in I1. unfold key_production in P.
  assert (T : derives N_time_list ([T_dquote] ++ ws ++ [T_dquote])).
  { apply (by_production _ [Nt N_time_string]); [reflexivity|]. apply all_1. now apply quoted_derives. }
  repeat (destruct I1 as [I1|I1]; [injection I1 as <- <-; cbn [is_messages kw_nts] in P|]); [..|destruct I1];
    try (exfalso; unfold texty in Tx; cbn [In] in Tx; intuition discriminate);
    apply by_production1 in P; destruct P as (A & x & IA & E & D); exists x; (split; [exact E|]); cbn [In] in IA; cbn [keyword_nt].
  - destruct IA as [<-|[]]. apply (by_production _ [Nt N_mon_keyword_string; Nt N_mon_string; Tm T_EOL]); [reflexivity|].
    apply all_3; [exact D| |apply t1]. now apply quoted_derives.
  - destruct IA as [<-|[]]. apply (by_production _ [Nt N_num_keyword_string; Nt N_num_string; Tm T_EOL]); [reflexivity|].
    apply all_3; [exact D| |apply t1]. now apply quoted_derives.
  - destruct IA as [<-|[<-|[]]].
    + apply (by_production _ [Nt N_time_keyword_name; Nt N_time_list; Tm T_EOL]); [reflexivity|]. apply all_3; [exact D|exact T|apply t1].
    + apply (by_production _ [Nt N_time_keyword_opt; Nt N_time_list; Tm T_EOL]); [reflexivity|]. apply all_3; [exact D|exact T|apply t1].
  - destruct IA as [<-|[<-|[]]].
    + apply (by_production _ [Nt N_time_keyword_fmt; Nt N_time_string; Tm T_EOL]); [reflexivity|]. apply all_3; [exact D| |apply t1]. now apply quoted_derives.
    + apply (by_production _ [Nt N_time_keyword_opt; Nt N_time_list; Tm T_EOL]); [reflexivity|]. apply all_3; [exact D|exact T|apply t1].
Qed.
Lemma one_entry : forall c w, derives (keyword_nt c) w -> locale_definition ([lc_term c; T_EOL] ++ w ++ [T_END_STR; lc_term c; T_EOL]).
Proof.
  intros c w D. unfold locale_definition.
  apply (by_production _ [Nt N_locale_categories]); [reflexivity|]. apply all_1. apply (by_production _ [Nt N_locale_category]); [reflexivity|]. apply all_1.
  apply (by_production _ [Nt (lc_nt c)]); [destruct c; reflexivity|]. apply all_1.
  apply (by_production _ [Nt (hdr_nt c); Nt (kws_nt c); Nt (tlr_nt c)]); [destruct c; reflexivity|]. apply all_3.
  - apply (by_production _ [Tm (lc_term c); Tm T_EOL] ([lc_term c] ++ [T_EOL])); [destruct c; reflexivity|]. apply all_2; apply t1.
  - apply (by_production _ [Nt (keyword_nt c)]); [destruct c; reflexivity|]. now apply all_1.
  - apply (by_production _ [Tm T_END_STR; Tm (lc_term c); Tm T_EOL] ([T_END_STR] ++ [lc_term c] ++ [T_EOL])); [destruct c; reflexivity|].
    apply all_3; apply t1.
Qed.

Lemma call_cut : forall fuel esc c sh ks k g x d e l, In (c, sh, ks) keywords -> In k ks -> texty sh -> blanks g -> plain_text x ->
  In d (B "0123456789dx") -> byte_val d <> esc -> (List.length (runes_of e) <= 1)%nat -> (List.length x + 2 <= fuel)%nat ->
  exists ct t v n, Forall (fun a => t_type a = CHAR) ct /\ In t esc_terms /\
    call fuel esc (SGeneric (cat c)) (fresh (k ++ g ++ """"%char :: x ++ "\"%char :: d :: e ++ [nl]) l) =
    Unfinished (fresh [] (repeat (tk CHAR []) n ++ tk (token_number t) v :: rev ct ++ tk DQUOTE [""""%char] :: tk WHITESPACE g :: tk (kw_typ c k) k :: l)).
Proof.
  intros fuel esc c sh ks k g x d e l I1 I2 Tx Bg Px Id Nd Le Lf.
  destruct (key_facts _ _ _ _ I1 I2) as (L & W & NE & Ne). cbn [call]. unfold sGeneric.
  rewrite white_none by (apply starts_white, word_starts; assumption). cbn [bind]. cbv zeta. fold word_chars.
  destruct (take_emit word_chars (kw_typ c k) k (g ++ """"%char :: x ++ "\"%char :: d :: e ++ [nl]) l low_word W) as [E C]; [now apply blanks_stop|].
  rewrite C. apply beqb_neq in NE. rewrite NE, L, E. unfold must at 1. rewrite white_some; [|exact Bg|now apply stops_b]. cbn [bind].
  destruct (string_cut fuel esc x d e (tk WHITESPACE g :: tk (kw_typ c k) k :: l) Px Id Nd Le Lf) as (ct & t & v & n & F & It & Es).
  exists ct, t, v, n. split; [exact F|]. split; [exact It|]. unfold texty in Tx. cbn [In] in Tx. destruct Tx as [<-|[<-|[<-|[]]]]; cbn [g_of grab]; unfold must at 1.
  - rewrite Es. reflexivity.
  - rewrite Es. reflexivity.
  - destruct fuel as [|f]; [lia|]. cbn [grabList]. rewrite Es. reflexivity.
Qed.

Lemma is_pos : forall x, 0 < token_number x. Proof. destruct x; reflexivity. Qed.
Lemma not_number : forall x t, is x t -> is T_NUMBER t -> x = T_NUMBER.
Proof.
  intros x t H1 H2. unfold is in *. apply term_code_inj. assert (A : translate (token_number x) = translate (token_number T_NUMBER)) by congruence. exact A.
Qed.
Lemma spells_out' : forall l w a, spells l w -> In a l -> t_type a <> WHITESPACE -> exists y, In y w /\ is y a.
Proof.
  intros l w a H I N. assert (J : In a (significant l)) by (apply filter_In; split; [exact I|]; apply negb_true_iff; now apply Z.eqb_neq).
  unfold spells in H. clear I. induction H as [|y b w l' E _ IH]; [destruct J|]. destruct J as [->|J]; [exists y; split; [now left|exact E]|].
  destruct (IH J) as (z & Iz & Ez). exists z. split; [now right|exact Ez].
Qed.
Lemma key_not_number : forall c sh ks k, In (c, sh, ks) keywords -> In k ks -> kw_typ c k <> token_number T_NUMBER.
Proof.
  assert (A : forallb (fun p => forallb (fun k => negb (kw_typ (fst (fst p)) k =? token_number T_NUMBER)) (snd p)) keywords = true) by (vm_compute; reflexivity).
  intros c sh ks k I1 I2. pose proof (proj1 (forallb_forall _ _) A _ I1) as K. cbv beta in K. cbn [fst snd] in K.
  pose proof (proj1 (forallb_forall _ _) K k I2) as M. cbv beta in M. apply negb_true_iff in M. now apply Z.eqb_neq.
Qed.
Lemma cut_hangs : forall c sh ks k g x d e text esc def, In (c, sh, ks) keywords -> In k ks -> texty sh -> blanks g -> plain_text x ->
  In d (B "0123456789dx") -> byte_val d <> esc -> (List.length (runes_of e) <= 1)%nat ->
  removeComments text = Ok (lc_name c ++ nl :: k ++ g ++ """"%char :: x ++ "\"%char :: d :: e ++ [nl], esc) ->
  forall fuel, (List.length x + 3 <= fuel)%nat -> parse_text fuel def text = StillRunning.
Proof.
  intros c sh ks k g x d e text esc def I1 I2 Tx Bg Px Id Nd Le R fuel Lf.
  destruct (key_facts _ _ _ _ I1 I2) as (L & W & NE & Ne).
  set (tail := k ++ g ++ """"%char :: x ++ "\"%char :: d :: e ++ [nl]) in *.
  set (l0 := [tk EOL [nl]; tk (c_tok (cat c)) (lc_name c)]).
  destruct (call_cut fuel esc c sh ks k g x d e l0 I1 I2 Tx Bg Px Id Nd Le ltac:(lia)) as (ct & t & v & n & F & It & Ec).
  set (s := fresh [] (repeat (tk CHAR []) n ++ tk (token_number t) v :: rev ct ++ tk DQUOTE [""""%char] :: tk WHITESPACE g :: tk (kw_typ c k) k :: l0)) in *.
  assert (Lx : lex fuel esc (lc_name c ++ nl :: tail) = Unfinished s).
  { unfold lex. fold (initial (lc_name c ++ nl :: tail)). destruct fuel as [|[|[|f]]]; try lia.
    assert (St : stops newLine tail).
    { apply starts_line. pose proof (word_starts k Ne W) as St. unfold tail. destruct k; [destruct St|exact St]. }
    rewrite lex_head by exact St. set (f' := S (S (S f))) in *. cbn [lex_run]. fold l0. fold tail in Ec. now rewrite Ec. }
  set (ws := repeat T_CHAR (List.length ct) ++ t :: repeat T_CHAR n).
  assert (Fw : Forall (fun y => In y (T_CHAR :: esc_terms)) ws).
  { unfold ws. apply Forall_app. split; [|constructor; [now right|]]; apply Forall_forall; intros y I; apply repeat_spec in I; subst y; now left. }
  destruct (entry_text_derives c sh ks k ws I1 I2 Tx) as (kt & Ek & D); [unfold ws; intros X; apply app_eq_nil in X; destruct X as [_ X]; discriminate X|exact Fw|].
  set (more := [tk DQUOTE [""""%char]; tk EOL [nl]; tk END_STR (B "END"); tk (c_tok (cat c)) (lc_name c); tk EOL [nl]]).
  assert (Sp : spells (rev (sent s) ++ more) ([lc_term c; T_EOL] ++ ([kt] ++ ([T_dquote] ++ ws ++ [T_dquote]) ++ [T_EOL]) ++ [T_END_STR; lc_term c; T_EOL])).
  { unfold spells, s, fresh, l0. cbn [sent]. rewrite rev_app_distr. cbn [rev]. rewrite rev_app_distr. cbn [rev app]. rewrite rev_involutive.
    rewrite <- !app_assoc. cbn [app]. try rewrite <- !app_assoc. cbn [app].
    cbn [significant filter].
    replace (t_type (tk (c_tok (cat c)) (lc_name c)) =? WHITESPACE) with false by (destruct c; reflexivity).
    replace (t_type (tk EOL [nl]) =? WHITESPACE) with false by reflexivity.
    replace (t_type (tk (kw_typ c k) k) =? WHITESPACE) with false by (unfold tk; cbn [t_type]; rewrite <- Ek; destruct kt; reflexivity).
    replace (t_type (tk WHITESPACE g) =? WHITESPACE) with true by reflexivity.
    replace (t_type (tk DQUOTE [""""%char]) =? WHITESPACE) with false by reflexivity.
    cbn [negb]. fold (significant (ct ++ tk (token_number t) v :: rev (repeat (tk CHAR []) n) ++ more)).
    constructor; [destruct c; reflexivity|]. constructor; [reflexivity|].
    constructor; [exact (eq_sym Ek)|]. constructor; [reflexivity|].
    assert (Q : spelt (ws ++ [T_dquote; T_EOL; T_END_STR; lc_term c; T_EOL]) (ct ++ tk (token_number t) v :: rev (repeat (tk CHAR []) n) ++ more)).
    { unfold ws. rewrite <- app_assoc. apply Forall2_app.
      - clear -F. induction F as [|a ct H _ IH]; [constructor|]. cbn [List.length repeat]. constructor; [exact H|exact IH].
      - cbn [app]. constructor; [reflexivity|]. apply Forall2_app.
        + assert (X : forall m l, Forall (fun a => a = tk CHAR []) l -> List.length l = m -> Forall2 is (repeat T_CHAR m) l).
          { intros m l G <-. induction G as [|a l H _ IH]; [constructor|]. cbn [List.length repeat]. subst a. constructor; [reflexivity|exact IH]. }
          apply X; [apply Forall_rev, Forall_forall; intros a I; now apply repeat_spec in I|rewrite rev_length, repeat_length; reflexivity].
        + destruct c; now repeat constructor. }
    rewrite (spelt_significant _ _ Q). exact Q. }
  refine (still fuel def text _ esc s more _ R Lx _ Sp (one_entry c _ D) _).
  - apply Forall_forall. intros a Ia. destruct (Z.eqb_spec (t_type a) WHITESPACE) as [Q|Q]; [rewrite Q; reflexivity|].
    destruct (spells_out' _ _ _ Sp Ia Q) as (y & _ & Ey). unfold is in Ey. rewrite Ey. apply is_pos.
  - intros a Ia Na. exfalso. assert (Q : t_type a <> WHITESPACE) by (unfold is in Na; rewrite Na; discriminate).
    destruct (spells_out' _ _ _ Sp Ia Q) as (y & Iy & Ey). pose proof (not_number _ _ Ey Na) as ->.
    apply in_app_or in Iy. destruct Iy as [Iy|Iy]; [destruct c; cbn [lc_term In] in Iy; intuition discriminate|].
    apply in_app_or in Iy. destruct Iy as [Iy|Iy]; [|destruct c; cbn [lc_term In] in Iy; intuition discriminate].
    apply in_app_or in Iy. destruct Iy as [[Iy|[]]|Iy]; [subst kt; apply (key_not_number _ _ _ _ I1 I2); now symmetry|].
    apply in_app_or in Iy. destruct Iy as [Iy|[Iy|[]]]; [|discriminate Iy].
    apply in_app_or in Iy. destruct Iy as [[Iy|[]]|Iy]; [discriminate Iy|].
    apply in_app_or in Iy. destruct Iy as [Iy|[Iy|[]]]; [|discriminate Iy].
    apply (proj1 (Forall_forall _ _) Fw) in Iy. cbn [In esc_terms] in Iy. intuition discriminate.
Qed.

(* ---- LC_COLLATE with a first word other than END and order_start ---- *)
Lemma letters_word : forall v, Forall (fun c => In c letters) v -> Forall (fun c => In c word_chars) v.
Proof.
  intros v H. eapply Forall_impl; [|exact H]. intros c I.
  assert (A : within word_chars letters = true) by (vm_compute; reflexivity). apply in_b. exact (proj1 (forallb_forall _ _) A c I).
Qed.
Lemma hang_word : forall k fuel esc l v g r, Forall (fun c => In c letters) v -> v <> B "END" -> v <> B "order_start" ->
  Forall (fun c => In c whiteSpace) g -> stops whiteSpace r -> stops word_chars r ->
  exists s, lex_run k fuel esc SCollate (fresh (v ++ g ++ r) l) = Unfinished s /\
    exists m, rev (sent s) = rev l ++ m /\ Forall (fun t => t_type t = WHITESPACE) m.
Proof.
  intros k fuel esc l v g r Lv N1 N2 Lg S1 S2. apply letters_word in Lv.
  destruct k as [|k]; [eexists; split; [reflexivity|]; exists []; rewrite app_nil_r; now split|].
  assert (Stuck : forall l' m, rev l' = rev l ++ m -> Forall (fun t => t_type t = WHITESPACE) m ->
    exists s, lex_run k fuel esc SCollate (fresh r l') = Unfinished s /\ exists m, rev (sent s) = rev l ++ m /\ Forall (fun t => t_type t = WHITESPACE) m).
  { intros l' m E F. rewrite hang_stuck by assumption. eexists. split; [reflexivity|]. exists m. now split. }
  destruct v as [|c0 v0].
  - cbn [app]. destruct g as [|g0 g1].
    + cbn [app]. rewrite hang_stuck by assumption. eexists. split; [reflexivity|]. exists []. rewrite app_nil_r. now split.
    + assert (E : call fuel esc SCollate (fresh ((g0 :: g1) ++ r) l) = Done (Some SCollate) (fresh r (tk WHITESPACE (g0 :: g1) :: l))).
      { cbn [call]. unfold sCollate. rewrite white_some; [|split; [discriminate|]; eapply Forall_impl; [|exact Lg]; intros c [<-|[<-|[]]]; auto|exact S1].
        cbn [bind]. fold word_chars. rewrite take_none by exact S2. reflexivity. }
      rewrite (lex_call _ _ _ _ _ _ _ E). apply (Stuck _ [tk WHITESPACE (g0 :: g1)]); [reflexivity|now constructor].
  - set (v := c0 :: v0) in *. assert (Sg : stops word_chars (g ++ r)).
    { destruct g as [|g0 g1]; [exact S2|]. inversion Lg as [|? ? G1 _]; subst. destruct G1 as [<-|[<-|[]]]; now apply stops_b. }
    assert (Sv : stops whiteSpace (v ++ g ++ r)).
    { unfold v. cbn [app]. inversion Lv as [|? ? V1 _]; subst.
      assert (A : forallb (fun c => lowb c && negb (existsb (Ascii.eqb c) whiteSpace)) word_chars = true) by (vm_compute; reflexivity).
      apply stops_b. exact (proj1 (forallb_forall _ _) A c0 V1). }
    assert (E : exists w, call fuel esc SCollate (fresh (v ++ g ++ r) l) = Done (Some SCollate) {| cur := rev v; rest := g ++ r; rew := w; sent := l |}).
    { cbn [call]. unfold sCollate. rewrite white_none by exact Sv. cbn [bind]. fold word_chars. unfold fresh.
      rewrite (take_all word_chars v (g ++ r)) by (first [exact low_word|assumption]). rewrite app_nil_r. unfold current. cbn [cur]. rewrite rev_involutive.
      apply beqb_neq in N1, N2. rewrite N1, N2.
      assert (N3 : forall w, ~ Forall (fun c => In c word_chars) w -> beqb v w = false) by (intros w Nw; apply beqb_neq; intros X; apply Nw; now rewrite <- X).
      assert (D : forall w, existsb (fun c => negb (existsb (Ascii.eqb c) word_chars)) w = true -> ~ Forall (fun c => In c word_chars) w).
      { intros w H X. apply existsb_exists in H. destruct H as (c & I & Q). apply (proj1 (Forall_forall _ _) X) in I. apply in_b in I. rewrite I in Q. discriminate Q. }
      rewrite (N3 (B "collating-element")) by (apply D; reflexivity). rewrite (N3 (B "collating-symbol")) by (apply D; reflexivity).
      cbv iota. eexists. reflexivity. }
    destruct E as (w & E). rewrite (lex_call _ _ _ _ _ _ _ E).
    destruct k as [|k]; [eexists; split; [reflexivity|]; exists []; rewrite app_nil_r; now split|].
    assert (E2 : call fuel esc SCollate {| cur := rev v; rest := g ++ r; rew := w; sent := l |} = Done (Some SCollate) (fresh r (tk WHITESPACE (v ++ g) :: l))).
    { cbn [call]. unfold sCollate. unfold grabWhitespace. cbv zeta. rewrite (take_all whiteSpace g r) by (first [exact low_white|assumption]).
      unfold current. cbn [cur]. rewrite rev_app_distr, !rev_involutive.
      replace (beqb (v ++ g) []) with false by reflexivity. cbn [bind]. unfold emit, current. cbn [rest cur sent]. rewrite rev_app_distr, !rev_involutive.
      change {| cur := []; rest := r; rew := []; sent := ?b |} with (fresh r b). fold word_chars. rewrite take_none by exact S2. reflexivity. }
    rewrite (lex_call _ _ _ _ _ _ _ E2). rewrite hang_stuck by assumption. eexists. split; [reflexivity|]. exists [tk WHITESPACE (v ++ g)]. split; [reflexivity|now constructor].
Qed.
Lemma collate_word_hangs : forall v g r text esc d, Forall (fun c => In c letters) v -> v <> B "END" -> v <> B "order_start" ->
  Forall (fun c => In c whiteSpace) g -> stops newLine (v ++ g ++ r) -> stops whiteSpace r -> stops word_chars r ->
  removeComments text = Ok (B "LC_COLLATE" ++ nl :: v ++ g ++ r, esc) ->
  forall fuel, parse_text fuel d text = StillRunning.
Proof.
  intros v g r text esc d Lv N1 N2 Lg S0 S1 S2 R fuel. unfold parse_text. rewrite R. cbv zeta iota beta.
  set (src := B "LC_COLLATE" ++ nl :: v ++ g ++ r).
  set (l0 := [tk LC_COLLATE_STR (B "LC_COLLATE"); tk EOL [nl]]).
  assert (X : exists s, lex fuel esc src = Unfinished s /\ (sent s = [] \/ exists m, rev (sent s) = l0 ++ m /\ Forall (fun t => t_type t = WHITESPACE) m)).
  { unfold lex. fold (initial src). destruct fuel as [|[|k]]; [eexists; split; [reflexivity|now left]..|].
    rewrite (lex_call _ _ _ _ _ SCategory (fresh src [])) by reflexivity.
    rewrite (lex_call _ _ _ _ _ SCollate (fresh (v ++ g ++ r) [tk EOL [nl]; tk LC_COLLATE_STR (B "LC_COLLATE")]))
      by (apply (call_collate_head (S (S k)) esc (newlines 0) (v ++ g ++ r) []); exact S0).
    destruct (hang_word k (S (S k)) esc [tk EOL [nl]; tk LC_COLLATE_STR (B "LC_COLLATE")] v g r Lv N1 N2 Lg S1 S2) as (s & E & m & Em & Fm).
    exists s. split; [exact E|]. right. exists m. now split. }
  destruct X as (s & E & I). rewrite E. cbn [tokens_of].
  assert (Q : exists l1, In l1 [[]; l0] /\ significant (rev (sent s)) = significant l1).
  { destruct I as [I|(m & Em & Fm)]; [exists []; rewrite I; split; [now left|reflexivity]|]. exists l0. split; [right; now left|].
    rewrite Em, significant_app. assert (Z0 : significant m = []).
    { clear -Fm. induction Fm as [|t m H _ IH]; [reflexivity|]. cbn [significant filter]. rewrite H. cbn [Z.eqb]. rewrite Z.eqb_refl. exact IH. }
    now rewrite Z0, app_nil_r. }
  destruct Q as (l1 & I1 & Q). rewrite (whitespace_ignored fuel false d _ _ Q).
  destruct (waits fuel 50 d l1) as [Y|Y]; [|now rewrite Y..]. destruct I1 as [<-|[<-|[]]]; vm_compute; reflexivity.
Qed.
