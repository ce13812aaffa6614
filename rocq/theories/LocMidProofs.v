(* Locale definitions that begin well and go wrong further on. *)
From Verif Require Import GoBase GoFacts RuneFacts Utf8Facts LocGramSpec LocYaccModel LocYaccProofs LocYaccGram LocYaccSound LocParseSpec LocYaccFinal
  LocaleModel LocaleProofs LocLexModel LocLexProofs LocDocSpec LocDocLex LocDocProofs LocDocFinal LocHangSpec LocLexEnds LocLexMore LocLexBad LocHang LocMidSpec.
Local Open Scope Z_scope.

Lemma plain_lines : forall ds file, laid_out (map write_line ds) file -> no_comments file ->
  exists ll, map fst ll = ds /\ file_text file = source ll.
Proof.
  intros ds file (cs & l & ls & f & E & C & -> & A) P. destruct ds as [|d ds]; [discriminate E|]. cbn [map] in E. injection E as <- <-.
  destruct cs as [|c cs]; [|exfalso; inversion C as [|? ? Hc _]; subst; inversion P as [|? ? P1 _]; subst; destruct Hc as (s & -> & _); now apply P1].
  cbn [app] in *. inversion P as [|? ? P1 P2]; subst. destruct (after_plain _ _ A P2 ds eq_refl) as (k & ll & E1 & R).
  exists ((d, newlines k) :: ll). split; [cbn [map fst]; now rewrite E1|]. unfold file_text in *. cbn [flat_map]. rewrite R.
  cbn [source flat_map fst snd]. fold (source ll). rewrite newlines_end. cbn [repeat]. rewrite <- !app_assoc. reflexivity.
Qed.
Lemma lines_lex : forall ds st esc ll r, linked SCategory ds st -> map fst ll = ds -> Forall (line_ok esc) ds -> stops newLine r ->
  exists n, forall fuel, (n <= fuel)%nat -> exists k, (fuel <= n + k)%nat /\
    lex fuel esc (source ll ++ r) = lex_run k fuel esc st (fresh r (rev (all_toks ll))).
Proof.
  intros ds st esc ll r Lk E O Sr. exists (List.length (source ll) + 3 * List.length ll + 1)%nat. intros fuel Le.
  destruct (lex_lines _ _ _ Lk ll r fuel esc E O Sr) as (m & M & R); [lia|].
  exists (fuel - m - 1)%nat. split; [lia|]. unfold lex. replace fuel with (S (m + (fuel - m - 1)))%nat at 1 by lia.
  rewrite (lex_call _ _ _ _ _ SCategory (fresh (source ll ++ r) [])) by reflexivity. rewrite R. now rewrite app_nil_r.
Qed.

Definition head_dlines (doc : list part) (c : lc) (es : list entry) : list dline := flat_map part_dlines doc ++ DHead c :: map (DEntry c) es.
Lemma begun_lines : forall esc doc c es text, begun esc doc c es text ->
  exists ll, map fst ll = head_dlines doc c es /\ text = source ll /\ Forall (line_ok esc) (head_dlines doc c es) /\
    linked SCategory (head_dlines doc c es) (SGeneric (cat c)).
Proof.
  intros esc doc c es text (O & Oe & file & L & P & ->).
  assert (W : map write_line (head_dlines doc c es) = flat_map part_lines doc ++ lc_name c :: map write_entry es).
  { unfold head_dlines. rewrite map_app, doc_written. cbn [map write_line]. rewrite map_map. reflexivity. }
  rewrite <- W in L. destruct (plain_lines _ _ L P) as (ll & E & Es). exists ll. split; [exact E|]. split; [exact Es|]. split.
  - apply Forall_app. split; [now apply doc_lines_ok|]. constructor; [exact I|]. apply Forall_map. exact Oe.
  - eapply linked_app; [apply doc_linked|]. apply (linked_cons (DHead c)). apply linked_map. now split.
Qed.
Lemma begun_collation_lines : forall esc doc text, begun_collation esc doc text ->
  exists ll, map fst ll = flat_map part_dlines doc ++ [DCHead] /\ text = source ll /\ Forall (line_ok esc) (flat_map part_dlines doc ++ [DCHead]) /\
    linked SCategory (flat_map part_dlines doc ++ [DCHead]) SCollate.
Proof.
  intros esc doc text (O & file & L & P & ->).
  assert (W : map write_line (flat_map part_dlines doc ++ [DCHead]) = flat_map part_lines doc ++ [B "LC_COLLATE"]) by (rewrite map_app, doc_written; reflexivity).
  rewrite <- W in L. destruct (plain_lines _ _ L P) as (ll & E & Es). exists ll. split; [exact E|]. split; [exact Es|]. split.
  - apply Forall_app. split; [now apply doc_lines_ok|]. constructor; [exact I|constructor].
  - eapply linked_app; [apply doc_linked|]. apply (linked_cons DCHead). constructor.
Qed.

(* ---- crashes ---- *)
Lemma mid_crash : forall esc doc c es pre r text d m, begun esc doc c es pre -> stops newLine r ->
  (forall fuel l, (m <= fuel)%nat -> exists s, call fuel esc (SGeneric (cat c)) (fresh r l) = Panicked s) ->
  removeComments text = Ok (pre ++ r, esc) -> exists n, forall fuel, (n <= fuel)%nat -> parse_text fuel d text = Crashed.
Proof.
  intros esc doc c es pre r text d m Bg Sr Cr R. destruct (begun_lines _ _ _ _ _ Bg) as (ll & E & -> & O & Lk).
  destruct (lines_lex _ _ _ _ _ Lk E O Sr) as (n & H). exists (n + m + 1)%nat. intros fuel Le.
  destruct (H fuel ltac:(lia)) as (k & Lek & Lx). destruct k as [|k]; [lia|]. destruct (Cr fuel (rev (all_toks ll)) ltac:(lia)) as (s & Ec).
  apply (crashed _ _ _ _ _ s R). rewrite Lx. cbn [lex_run]. now rewrite Ec.
Qed.
Lemma mid_trailing : forall esc doc c es e b r pre text d, begun esc doc c es pre -> entry_ok esc c e -> In b whiteSpace ->
  removeComments text = Ok (pre ++ write_entry e ++ b :: r, esc) -> exists n, forall fuel, (n <= fuel)%nat -> parse_text fuel d text = Crashed.
Proof.
  intros esc doc c es e b r pre text d Bg O Hb R. pose proof (write_entry_starts esc c e O) as St.
  apply (mid_crash esc doc c es pre (write_entry e ++ b :: r) text d (S (List.length (write_entry e))) Bg); [now apply starts_line| |exact R].
  intros fuel l Le. apply call_trailing; [exact O|exact Hb|lia].
Qed.
Lemma mid_copy : forall esc doc c es b r pre text d, begun esc doc c es pre -> ender b ->
  removeComments text = Ok (pre ++ B "copy" ++ b :: r, esc) -> exists n, forall fuel, (n <= fuel)%nat -> parse_text fuel d text = Crashed.
Proof.
  intros esc doc c es b r pre text d Bg Hb R.
  apply (mid_crash esc doc c es pre (B "copy" ++ b :: r) text d 0 Bg); [now apply stops_b| |exact R]. intros fuel l _.
  cbn [call]. unfold sGeneric. rewrite white_none by (now apply stops_b). cbn [bind]. cbv zeta. fold word_chars.
  destruct (take_emit word_chars 0 (B "copy") (b :: r) l low_word) as [_ C];
    [now apply withins|apply stops_sep; [reflexivity..|]; right; exists b, r; auto|].
  rewrite C. change (beqb (B "copy") (B "END")) with false. cbv iota.
  assert (L : look_up (B "copy") (c_defs (cat c)) = None) by (destruct c; reflexivity). rewrite L. eexists. reflexivity.
Qed.

(* ---- charclass ---- *)
Lemma accepted_more : forall f f' d text d', (f <= f')%nat -> parse_text f d text = Accepted d' -> parse_text f' d text = Accepted d'.
Proof.
  intros f f' d text d' Le H. destruct (accepted_inv _ _ _ _ H) as (src & esc & s & R & L & Y).
  unfold parse_text. rewrite R. cbv zeta. pose proof (lex_upto f f' esc src Le) as U. rewrite L in U. cbn [upto] in U. rewrite U. cbn [tokens_of].
  unfold yyParse in *. apply (run_more _ (f' - f)) in Y. replace (f + (f' - f))%nat with f' in Y by lia. now rewrite Y.
Qed.
Lemma mid_charclass : forall esc doc es b r pre text d d' fuel, begun esc doc Ctype es pre -> ender b ->
  removeComments text = Ok (pre ++ B "charclass" ++ b :: r, esc) -> parse_text fuel d text <> Accepted d'.
Proof.
  intros esc doc es b r pre text d d' fuel Bg Hb R A. destruct (begun_lines _ _ _ _ _ Bg) as (ll & E & -> & O & Lk).
  destruct (lines_lex _ _ _ ll (B "charclass" ++ b :: r) Lk E O) as (n & H); [now apply stops_b|].
  set (f := (fuel + n + 1)%nat). apply (accepted_more fuel f) in A; [|unfold f; lia].
  destruct (H f ltac:(unfold f; lia)) as (k & Lek & Lx). destruct k as [|k]; [unfold f in Lek; lia|].
  set (t := tk 57363 (B "charclass")). set (l := rev (all_toks ll)) in *.
  assert (Hd : ends (holds t) (lex f esc (source ll ++ B "charclass" ++ b :: r))).
  { rewrite Lx. cbn [lex_run]. pose proof (holds_next t) as H1. pose proof (holds_rewind t) as H2. pose proof (holds_emit t) as H3.
    assert (G : goes (holds t) (call f esc (SGeneric (cat Ctype)) (fresh (B "charclass" ++ b :: r) l))).
    { cbn [call]. unfold sGeneric. rewrite white_none by (now apply stops_b). cbn [bind]. cbv zeta. fold word_chars.
      destruct (take_emit word_chars 57363 (B "charclass") (b :: r) l low_word) as [Et C];
        [now apply withins|apply stops_sep; [reflexivity..|]; right; exists b, r; auto|].
      rewrite C. change (beqb (B "charclass") (B "END")) with false. cbv iota.
      change (look_up (B "charclass") (c_defs (cat Ctype))) with (Some (57363, GStringList)). cbv iota. rewrite Et.
      assert (P : holds t (fresh (b :: r) (tk 57363 (B "charclass") :: l))) by (now left).
      apply bind_goes_eq; [apply must_ends, (ws_ends _ (fun _ => True)); auto using all_true|]. intros u s1 C1 P1. apply white_cur in C1.
      apply bind_goes; [apply must_ends, (grab_ends _ (fun _ => True)); auto using all_true; intros; apply int_ends; auto|]. intros u2 s2 P2.
      apply bind_goes; [apply must_ends, (nl_ends _ (fun _ => True)); auto using all_true|]. intros u3 s3 P3. split; [exact P3|]. now left. }
    destruct G as [G1 G2]. destruct (call _ _ _ _) as [o s|s|s]; cbn [bind ends] in *; [|exact G1..].
    destruct o as [st|]; [|exact G1]. apply (run_ends (holds t) (fun _ => True)); auto using all_true, cats_true.
    intros; apply int_ends; auto. }
  destruct (accepted_inv _ _ _ _ A) as (src' & esc' & s & R' & L & _). revert R A Hd. generalize (source ll ++ B "charclass" ++ b :: r). intros src R A Hd.
  rewrite R in R'. injection R' as <- <-. rewrite L in Hd. refine (no_charclass_accepted _ _ _ _ _ _ t A R _ eq_refl). rewrite L. cbn [tokens_of]. now apply in_rev in Hd.
Qed.

(* ---- texts with something wrong in them ---- *)
Lemma loop_some : forall esc gs fuel r l, text_ok esc gs -> no_digit r -> (List.length (written gs) <= fuel)%nat ->
  exists k, (fuel <= k + List.length (written gs))%nat /\
    string_loop fuel esc false (fresh (written gs ++ r) l) = string_loop k esc false (fresh r (rev (map glyph_tok gs) ++ l)).
Proof.
  intros esc gs. induction gs as [|g gs IH]; intros fuel r l F Nd Le.
  - exists fuel. split; [lia|]. reflexivity.
  - pose proof (text_tail _ _ _ F) as [Og F'].
    change (written (g :: gs)) with (write_glyph g ++ written gs) in *. rewrite app_length in *. pose proof (rounds_length g).
    rewrite <- app_assoc. destruct (IH (fuel - rounds g)%nat r (glyph_tok g :: l) F' Nd ltac:(lia)) as (k & Lk & E). exists k. split; [lia|].
    replace fuel with (rounds g + (fuel - rounds g))%nat by lia. rewrite loop_glyph; [|exact Og|].
    + rewrite E. cbn [map rev]. now rewrite <- app_assoc.
    + intros Sg. destruct gs as [|h gs]; [exact Nd|]. destruct (text_tail _ _ _ F') as [Oh _].
      change (written (h :: gs)) with (write_glyph h ++ written gs). rewrite <- app_assoc. apply (glyph_front esc); [exact Oh|].
      intros x ->. destruct F as [_ A]. destruct g as [| | |a b [c|]|]; try destruct Sg. exact (proj1 A).
Qed.
Lemma back_front : forall t, no_digit ("\"%char :: t).
Proof. intros t. exists 92%N, t. split; [reflexivity|]. split; [vm_compute; intuition discriminate|lia]. Qed.

Lemma grab_some : forall esc gs r l fuel, text_ok esc gs -> (List.length (written gs) <= fuel)%nat ->
  exists k, (fuel <= k + List.length (written gs))%nat /\
    grabString fuel esc (fresh (""""%char :: written gs ++ "\"%char :: r) l) =
    string_loop k esc false (fresh ("\"%char :: r) (rev (map glyph_tok gs) ++ tk DQUOTE [""""%char] :: l)).
Proof.
  intros esc gs r l fuel F Le. destruct (loop_some esc gs fuel ("\"%char :: r) (tk DQUOTE [""""%char] :: l) F (back_front r) Le) as (k & Lk & E).
  exists k. split; [exact Lk|]. etransitivity; [|exact E]. unfold grabString, peek, fresh.
  rewrite next_low by reflexivity. rewrite rewind_low by reflexivity. rewrite at_yes. cbn [negb]. cbv zeta. rewrite next_low by reflexivity. cbn [snd].
  assert (X : exists x, valid_rune x /\ byte_val """" <> x /\ exists u, written gs ++ "\"%char :: r = encode_rune x ++ u).
  { destruct gs as [|g gs]; [exists 92%N; split; [vm_compute; intuition discriminate|]; split; [discriminate|]; exists r; reflexivity|].
    apply (first_no_quote esc). exact (proj1 (text_tail _ _ _ F)). }
  destruct X as (x & V & N1 & u & Eu). rewrite Eu. rewrite next_rune by exact V. rewrite rewind_rune. rewrite at_rune by exact N1. rewrite <- Eu.
  unfold emit, current. cbn [cur rest sent rev app]. reflexivity.
Qed.
Lemma call_text : forall esc c k g gs r l fuel, text_keyword c k -> blanks g -> text_ok esc gs ->
  (List.length (written gs) < fuel)%nat ->
  (forall n l, (fuel <= n + 1 + List.length (written gs))%nat -> exists s, string_loop n esc false (fresh ("\"%char :: r) l) = Panicked s) ->
  exists s, call fuel esc (SGeneric (cat c)) (fresh (k ++ g ++ """"%char :: written gs ++ "\"%char :: r) l) = Panicked s.
Proof.
  intros esc c k g gs r l fuel (sh & ks & I1 & I2 & Tx) Bg F Le Cr.
  destruct (key_facts _ _ _ _ I1 I2) as (L & W & NE & Ne). cbn [call]. unfold sGeneric.
  rewrite white_none by (apply starts_white, word_starts; assumption). cbn [bind]. cbv zeta. fold word_chars.
  destruct (take_emit word_chars (kw_typ c k) k (g ++ """"%char :: written gs ++ "\"%char :: r) l low_word W) as [E C]; [now apply blanks_stop|].
  rewrite C. apply beqb_neq in NE. rewrite NE, L, E. unfold must at 1. rewrite white_some; [|exact Bg|now apply stops_b]. cbn [bind].
  set (l' := tk WHITESPACE g :: tk (kw_typ c k) k :: l). destruct fuel as [|f]; [lia|].
  assert (Q : forall n, (n = f \/ n = S f) -> exists s, grabString n esc (fresh (""""%char :: written gs ++ "\"%char :: r) l') = Panicked s).
  { intros n Hn. destruct (grab_some esc gs r l' n F ltac:(lia)) as (m & Lm & Eg). rewrite Eg. apply Cr. lia. }
  unfold must at 1. cbn [In] in Tx. destruct Tx as [<-|[<-|[<-|[]]]]; cbn [g_of grab].
  - destruct (Q (S f) (or_intror eq_refl)) as (s & Es). exists s. now rewrite Es.
  - destruct (Q (S f) (or_intror eq_refl)) as (s & Es). exists s. now rewrite Es.
  - cbn [grabList]. first [destruct (Q (S f) (or_intror eq_refl)) as (s & Es); exists s; rewrite Es; reflexivity|destruct (Q f (or_introl eq_refl)) as (s & Es); exists s; rewrite Es; reflexivity].
Qed.

Lemma mid_text_crash : forall esc doc c es k g gs r pre text d m, begun esc doc c es pre -> text_keyword c k -> blanks g -> text_ok esc gs ->
  (forall n l, (m <= n)%nat -> exists s, string_loop n esc false (fresh ("\"%char :: r) l) = Panicked s) ->
  removeComments text = Ok (pre ++ k ++ g ++ """"%char :: written gs ++ "\"%char :: r, esc) ->
  exists n, forall fuel, (n <= fuel)%nat -> parse_text fuel d text = Crashed.
Proof.
  intros esc doc c es k g gs r pre text d m Bg Tk Bl F Cr R.
  apply (mid_crash esc doc c es pre (k ++ g ++ """"%char :: written gs ++ "\"%char :: r) text d (m + 2 + List.length (written gs)) Bg); [| |exact R].
  - destruct Tk as (sh & ks & I1 & I2 & _). destruct (key_facts _ _ _ _ I1 I2) as (L & W & NE & Ne). apply starts_line.
    pose proof (word_starts k Ne W) as St. destruct k; [destruct St|exact St].
  - intros fuel l Le. apply call_text; [exact Tk|exact Bl|exact F|lia|]. intros n l' Ln. apply Cr. lia.
Qed.

(* an escape of two octal digits before the closing quote takes the quote *)
Lemma loop_line_end : forall esc rs fuel r l, Forall plain_rune rs -> (List.length rs < fuel)%nat ->
  exists s, string_loop fuel esc false (fresh (string_of_runes rs ++ nl :: r) l) = Panicked s.
Proof.
  intros esc rs fuel r l F Le. rewrite loop_over by (try exact F; lia). destruct (fuel - List.length rs)%nat as [|f] eqn:Q; [lia|].
  cbn [string_loop]. unfold fresh. rewrite next_low by reflexivity. change (at_char """" (Some (byte_val nl))) with false. cbv iota. rewrite at_yes. eexists. reflexivity.
Qed.
Lemma loop_octal_two : forall esc a b rs r l n, octal_digit a -> octal_digit b -> byte_val a <> esc -> Forall plain_rune rs ->
  (List.length rs + 3 <= n)%nat ->
  exists s, string_loop n esc false (fresh ("\"%char :: a :: b :: """"%char :: string_of_runes rs ++ nl :: r) l) = Panicked s.
Proof.
  intros esc a b rs r l n Oa Ob Ne F Le. apply octal_digits in Oa, Ob. destruct Oa as (Da & La & Na), Ob as (Db & Lb & _).
  destruct n as [|[|n]]; try lia. set (g1 := S n). cbn [string_loop]. unfold fresh at 1. rewrite next_low by reflexivity.
  change (at_char """" (Some (byte_val "\"))) with false. change (at_char nl (Some (byte_val "\"))) with false. rewrite at_yes. cbv iota.
  unfold g1. cbn [string_loop]. rewrite next_low by exact La. rewrite rewind_low by exact La.
  unfold grabEscapeInString. rewrite next_low by exact La. apply has_not in Na. apply N.eqb_neq in Ne. rewrite Na, Ne. apply LocDocLex.has_in in Da. rewrite Da. cbn [orb].
  rewrite next_low by exact Lb. cbn [snd]. rewrite next_low by reflexivity. cbn [snd bind]. unfold emit. cbn [rest sent].
  change {| cur := []; rest := ?x; rew := []; sent := ?y |} with (fresh x y). apply loop_line_end; [exact F|lia].
Qed.
(* a backslash before another character *)
Lemma loop_unknown : forall esc x r l n, valid_rune x -> x <> esc -> Forall (fun c => byte_val c <> x) (B ",;<>0123456789dx") -> (2 <= n)%nat ->
  exists s, string_loop n esc false (fresh ("\"%char :: encode_rune x ++ r) l) = Panicked s.
Proof.
  intros esc x r l n V Ne F Le. destruct n as [|[|n]]; try lia. set (g1 := S n). cbn [string_loop]. unfold fresh at 1. rewrite next_low by reflexivity.
  change (at_char """" (Some (byte_val "\"))) with false. change (at_char nl (Some (byte_val "\"))) with false. rewrite at_yes. cbv iota.
  unfold g1. cbn [string_loop]. rewrite next_rune by exact V. rewrite rewind_rune. unfold grabEscapeInString. rewrite next_rune by exact V.
  assert (H : forall cs, (forall c, In c cs -> In c (B ",;<>0123456789dx")) -> has cs (Some x) = false).
  { intros cs Hc. cbn [has]. apply not_true_iff_false. intros X. apply existsb_exists in X. destruct X as (c & Ic & Ec). apply N.eqb_eq in Ec.
    exact (proj1 (Forall_forall _ _) F c (Hc c Ic) Ec). }
  apply N.eqb_neq in Ne.
  rewrite (H (B ",;<>")) by (intros c I; change (B ",;<>0123456789dx") with (B ",;<>" ++ B "0123456789dx"); apply in_or_app; now left).
  rewrite Ne. cbn [orb].
  rewrite (H digits) by (intros c I; change (B ",;<>0123456789dx") with (B ",;<>" ++ digits ++ B "dx"); apply in_or_app; right; apply in_or_app; now left).
  rewrite !at_rune; [eexists; reflexivity|..]; apply (proj1 (Forall_forall _ _) F); apply in_b; reflexivity.
Qed.

(* ---- never ending ---- *)
Lemma same_types : forall w l l', Forall2 is w l -> map t_type l = map t_type l' -> Forall2 is w l'.
Proof.
  intros w l l' H. revert l'. induction H as [|x a w l H _ IH]; intros [|b l'] E; try discriminate E; [constructor|].
  cbn [map] in E. injection E as E1 E2. constructor; [unfold is in *; congruence|now apply IH].
Qed.
Lemma mid_still : forall fuel d text src esc s esc' doc ll ll2 m more, removeComments text = Ok (src, esc) -> lex fuel esc src = Unfinished s ->
  rev (sent s) = all_toks ll ++ m -> doc <> [] -> Forall (part_ok esc') doc -> Forall (line_ok esc') (map fst ll) ->
  map fst (ll ++ ll2) = flat_map part_dlines doc ->
  map t_type (significant (m ++ more)) = map t_type (significant (all_toks ll2)) ->
  Forall (fun t => ~ is T_NUMBER t) (m ++ more) -> parse_text fuel d text = StillRunning.
Proof.
  intros fuel d text src esc s esc' doc ll ll2 m more R L Es Ne O Ol E Ty Nn.
  destruct (doc_spells esc' doc (ll ++ ll2) Ne O E) as (w & D & Sp).
  assert (Sp' : spells (rev (sent s) ++ more) w).
  { unfold spells in *. rewrite Es, <- app_assoc, significant_app. rewrite toks_app, significant_app in Sp.
    apply (same_types _ _ _ Sp). rewrite !map_app. f_equal. now symmetry. }
  refine (still fuel d text src esc s more w R L _ Sp' D _).
  - apply Forall_forall. intros a Ia. destruct (Z.eqb_spec (t_type a) WHITESPACE) as [Q|Q]; [rewrite Q; reflexivity|].
    destruct (spells_out' _ _ _ Sp' Ia Q) as (y & _ & Ey). unfold is in Ey. rewrite Ey. apply is_pos.
  - intros a Ia Na. rewrite Es, <- app_assoc in Ia. apply in_app_or in Ia. destruct Ia as [Ia|Ia].
    + destruct (lines_good esc' ll Ol) as (G & _). apply (proj1 (Forall_forall _ _) G) in Ia. destruct Ia as (_ & Gn & _). now apply Gn.
    + exfalso. exact (proj1 (Forall_forall _ _) Nn a Ia Na).
Qed.

(* the lines that finish a category *)
Definition finish (c : lc) (e : entry) : list (dline * (bool * list bool)) := [(DEntry c e, newlines 0); (DEnd c, newlines 0)].
Lemma finished : forall ll doc c es e, map fst ll = head_dlines doc c es ->
  map fst (ll ++ finish c e) = flat_map part_dlines (doc ++ [Category c (es ++ [e])]).
Proof.
  intros ll doc c es e E. rewrite map_app, E, flat_map_app. unfold head_dlines. rewrite <- app_assoc. f_equal. cbn [flat_map part_dlines finish map fst app].
  rewrite app_nil_r, map_app. cbn [map]. rewrite <- app_assoc. reflexivity.
Qed.
Lemma finished_ok : forall esc doc c es e text, begun esc doc c es text -> entry_ok esc c e -> Forall (part_ok esc) (doc ++ [Category c (es ++ [e])]).
Proof.
  intros esc doc c es e text (O & Oe & _) Oc. apply Forall_app. split; [exact O|]. constructor; [|constructor]. cbn [part_ok]. split.
  - intros X. apply app_eq_nil in X. destruct X as [_ X]. discriminate X.
  - apply Forall_app. split; [exact Oe|]. now constructor.
Qed.

(* a message without its closing quote *)
Lemma to_quote_never : forall n x k c w l, (List.length x <= n)%nat -> ~ In """"%char x ->
  exists s, to_quote k {| cur := c; rest := x; rew := w; sent := l |} = Unfinished s /\ sent s = l.
Proof.
  induction n as [|n IH]; intros x k c w l L Q.
  - destruct x; [|cbn [List.length] in L; lia]. destruct (hang_quote k c w l) as (w' & E). rewrite E. eexists. split; reflexivity.
  - destruct k as [|k]; [eexists; split; reflexivity|]. destruct x as [|b x].
    + destruct (hang_quote (S k) c w l) as (w' & E). rewrite E. eexists. split; reflexivity.
    + destruct (decode_rune (b :: x)) as [r i] eqn:D. assert (W : (1 <= i <= List.length (b :: x))%nat) by (now apply (decode_width _ r)).
      cbn [to_quote]. unfold next. cbn [rest cur rew sent]. rewrite D. cbv iota.
      assert (N : byte_val """" <> r).
      { intros <-. destruct (decode_ascii b x _ _ D) as [B1 _]; [reflexivity|]. apply byte_val_inj in B1. apply Q. now left. }
      rewrite at_rune by exact N. apply IH; [rewrite skipn_length; lia|].
      intros I. apply Q. rewrite <- (firstn_skipn i (b :: x)). apply in_or_app. now right.
Qed.
Lemma mid_unclosed : forall esc doc es k g x pre text d, begun esc doc Messages es pre -> In k [B "yesexpr"; B "noexpr"] -> blanks g ->
  ~ In """"%char x -> removeComments text = Ok (pre ++ k ++ g ++ """"%char :: x, esc) ->
  exists n, forall fuel, (n <= fuel)%nat -> parse_text fuel d text = StillRunning.
Proof.
  intros esc doc es k g x pre text d Bg Ik Bl Nx R. destruct (begun_lines _ _ _ _ _ Bg) as (ll & E & -> & O & Lk).
  assert (I1 : In (Messages, a_regexp, [B "yesexpr"; B "noexpr"]) keywords) by (unfold keywords; do 9 right; now left).
  destruct (key_facts _ _ _ _ I1 Ik) as (L & W & NE & Ne).
  destruct (lines_lex _ _ _ ll (k ++ g ++ """"%char :: x) Lk E O) as (n & H).
  { apply starts_line. pose proof (word_starts k Ne W) as St. destruct k; [destruct St|exact St]. }
  exists (n + 1)%nat. intros fuel Le. destruct (H fuel ltac:(lia)) as (j & Lj & Lex). destruct j as [|j]; [lia|].
  set (l := rev (all_toks ll)) in *.
  assert (C : exists s, call fuel esc (SGeneric (cat Messages)) (fresh (k ++ g ++ """"%char :: x) l) = Unfinished s /\
    sent s = tk DQUOTE [""""%char] :: tk WHITESPACE g :: tk (kw_typ Messages k) k :: l).
  { cbn [call]. unfold sGeneric. rewrite white_none by (apply starts_white, word_starts; assumption). cbn [bind]. cbv zeta. fold word_chars.
    destruct (take_emit word_chars (kw_typ Messages k) k (g ++ """"%char :: x) l low_word W) as [Et C]; [now apply blanks_stop|].
    rewrite C. apply beqb_neq in NE. rewrite NE, L, Et. unfold must at 1. rewrite white_some; [|exact Bl|now apply stops_b]. cbn [bind g_of grab].
    unfold grabMsg, fresh. rewrite next_low by reflexivity. rewrite at_yes. cbn [negb]. unfold must at 1. unfold emit at 1. cbn [rest sent current cur rev app].
    destruct (to_quote_never _ x fuel [] [] (tk DQUOTE [""""%char] :: tk WHITESPACE g :: tk (kw_typ Messages k) k :: l) (Nat.le_refl _) Nx) as (s & E1 & E2).
    unfold current. cbn [cur rev app]. unfold tk in E1 at 1. rewrite E1. exists s. split; [reflexivity|exact E2]. }
  destruct C as (s & Ec & Es). set (e := {| e_key := k; e_gap := g; e_value := Regexp [] |}).
  assert (Oe : entry_ok esc Messages e).
  { split; [exact Bl|]. exists a_regexp, [B "yesexpr"; B "noexpr"]. split; [exact I1|]. split; [exact Ik|]. cbn. tauto. }
  refine (mid_still fuel d text _ esc s esc (doc ++ [Category Messages (es ++ [e])]) ll (finish Messages e)
    [tk (kw_typ Messages k) k; tk WHITESPACE g; tk DQUOTE [""""%char]]
    [tk EXTENDED_REG_EXP []; tk DQUOTE [""""%char]; tk EOL [nl]; tk END_STR (B "END"); tk (c_tok (cat Messages)) (lc_name Messages); tk EOL [nl]] R _ _ _ _ _ _ _ _).
  - rewrite Lex. cbn [lex_run]. now rewrite Ec.
  - rewrite Es. unfold l. cbn [rev]. rewrite rev_involutive, <- !app_assoc. reflexivity.
  - intros X. apply app_eq_nil in X. destruct X as [_ X]. discriminate X.
  - now apply (finished_ok esc doc Messages es e (source ll)).
  - rewrite E. exact O.
  - now apply finished.
  - cbn [In] in Ik. destruct Ik as [<-|[<-|[]]]; reflexivity.
  - cbn [In] in Ik. destruct Ik as [<-|[<-|[]]]; repeat (constructor; [discriminate|]); constructor.
Qed.

(* the text ends in an escape *)
Definition esc_glyph (esc : N) (t : term) : glyph :=
  match t with
  | T_DECIMAL_CHAR => Decimal "1" "0" None
  | T_HEX_CHAR => Hex "1" "0"
  | _ => Octal (if (esc =? 49)%N then "2"%char else "1"%char) "0" "0"
  end.
Lemma loop_cut' : forall f esc c e l, In c (B "0123456789dx") -> byte_val c <> esc -> (List.length (runes_of e) <= 1)%nat ->
  exists x v, glyph_ok esc (esc_glyph esc x) /\ glyph_typ (esc_glyph esc x) = token_number x /\ x <> T_NUMBER /\
    string_loop (S (S f)) esc false (fresh ("\"%char :: c :: e ++ [nl]) l) = string_loop f esc false (fresh [] (tk (token_number x) v :: l)).
Proof.
  intros f esc c e l I Ne Le. assert (Lc : low c) by (refine (proj1 (Forall_forall low _) _ c I); now apply lows).
  set (g := S f). cbn [string_loop]. unfold fresh at 1. rewrite next_low by reflexivity.
  change (at_char """" (Some (byte_val "\"))) with false. change (at_char nl (Some (byte_val "\"))) with false. rewrite at_yes. cbv iota.
  unfold g. cbn [string_loop]. rewrite next_low by exact Lc. rewrite rewind_low by exact Lc. unfold grabEscapeInString. rewrite next_low by exact Lc.
  assert (N1 : has (B ",;<>") (Some (byte_val c)) = false).
  { apply not_newline; [|exact Lc|now apply lows].
    assert (A : forallb (fun c => negb (existsb (Ascii.eqb c) (B ",;<>"))) (B "0123456789dx") = true) by reflexivity.
    pose proof (proj1 (forallb_forall _ _) A c I) as K. cbv beta in K. now apply negb_true_iff. }
  pose proof Ne as Ne'. apply N.eqb_neq in Ne. rewrite N1, Ne. cbn [orb].
  match goal with |- context [next {| cur := ?u; rest := e ++ [nl]; rew := ?w; sent := ?l' |}] => destruct (two_reads e u w l' Le) as (v & x & E) end.
  rewrite E. change (B "0123456789dx") with (digits ++ B "dx") in I. apply in_app_or in I. destruct I as [I|I].
  - rewrite (LocHang.has_in _ _ I). cbn [bind]. exists T_OCTAL_CHAR, (rev v). split; [|split; [reflexivity|split; [discriminate|reflexivity]]].
    cbn [esc_glyph glyph_ok]. unfold octal_digit. split; [destruct (esc =? 49)%N; apply in_b; reflexivity|]. split; [apply in_b; reflexivity|].
    split; [apply in_b; reflexivity|]. destruct (N.eqb_spec esc 49) as [->|Q]; [discriminate|]. intros X. apply Q. now rewrite <- X.
  - cbn [In B] in I. destruct I as [<-|[<-|[]]].
    + change (has digits (Some (byte_val "d"))) with false. change (at_char "d" (Some (byte_val "d"))) with true. cbv iota. rewrite next_end.
      change (has digits None) with false. cbv iota. cbn [bind]. exists T_DECIMAL_CHAR, (rev v). split; [|split; [reflexivity|split; [discriminate|reflexivity]]].
      cbn [esc_glyph glyph_ok]. unfold decimal_digit. split; [apply in_b; reflexivity|]. split; [apply in_b; reflexivity|]. split; [discriminate|].
      intros X. apply Ne'. now rewrite X.
    + change (has digits (Some (byte_val "x"))) with false. change (at_char "d" (Some (byte_val "x"))) with false.
      change (at_char "x" (Some (byte_val "x"))) with true. cbv iota. cbn [bind]. exists T_HEX_CHAR, (rev v). split; [|split; [reflexivity|split; [discriminate|reflexivity]]].
      cbn [esc_glyph glyph_ok]. unfold hex_digit. split; [apply in_b; reflexivity|]. split; [apply in_b; reflexivity|].
      intros X. apply Ne'. now rewrite X.
Qed.
Lemma apart_app : forall a b, apart a -> apart b -> (forall r, hd_error b = Some (Single r) -> ~ (48 <= r <= 57)%N) -> apart (a ++ b).
Proof.
  induction a as [|g a IH]; intros b Ha Hb Nb; [exact Hb|]. destruct Ha as [C Ha]. cbn [app apart]. split; [|now apply IH].
  destruct a as [|h a]; [|exact C]. cbn [app]. destruct b as [|h b]; [destruct g as [| | |? ? []|]; exact I|].
  destruct g as [| | |? ? []|]; try exact I. destruct h; try exact I. cbn [clear_of]. now apply Nb.
Qed.
Lemma text_app : forall esc a b, text_ok esc a -> text_ok esc b -> (forall r, hd_error b = Some (Single r) -> ~ (48 <= r <= 57)%N) -> text_ok esc (a ++ b).
Proof. intros esc a b [F1 A1] [F2 A2] N. split; [now apply Forall_app|now apply apart_app]. Qed.
Lemma many_as : forall esc n, text_ok esc (repeat (Single 65) n).
Proof.
  intros esc n. split; [apply Forall_forall; intros g I; apply repeat_spec in I; subst g; vm_compute; intuition discriminate|].
  induction n as [|n IH]; [exact I|]. cbn [repeat apart]. split; [destruct n; exact I|exact IH].
Qed.
Definition text_value (sh : shape) (gs : list glyph) : value := match sh with full_texts => Texts [gs] | _ => Text gs end.
Lemma text_value_fits : forall esc sh gs, In sh [a_text; a_full_text; full_texts] -> text_ok esc gs -> gs <> [] -> fits esc sh (text_value sh gs).
Proof.
  intros esc sh gs I F Ne. cbn [In] in I. destruct I as [<-|[<-|[<-|[]]]]; cbn [text_value fits]; [exact F|now split|]. split; [discriminate|]. constructor; [now split|constructor].
Qed.
Lemma text_value_toks : forall sh gs, In sh [a_text; a_full_text; full_texts] -> gs <> [] ->
  value_toks (text_value sh gs) = tk DQUOTE [""""%char] :: map glyph_tok gs ++ [tk DQUOTE [""""%char]].
Proof.
  intros sh [|g gs] I Ne; [congruence|]. cbn [In] in I. destruct I as [<-|[<-|[<-|[]]]]; reflexivity.
Qed.
Lemma call_cut' : forall fuel esc c sh ks k g gs d e l, In (c, sh, ks) keywords -> In k ks -> In sh [a_text; a_full_text; full_texts] -> blanks g -> text_ok esc gs ->
  In d (B "0123456789dx") -> byte_val d <> esc -> (List.length (runes_of e) <= 1)%nat -> (List.length (written gs) + 3 <= fuel)%nat ->
  exists t v n, glyph_ok esc (esc_glyph esc t) /\ glyph_typ (esc_glyph esc t) = token_number t /\ t <> T_NUMBER /\
    call fuel esc (SGeneric (cat c)) (fresh (k ++ g ++ """"%char :: written gs ++ "\"%char :: d :: e ++ [nl]) l) =
    Unfinished (fresh [] (repeat (tk CHAR []) n ++ tk (token_number t) v :: rev (map glyph_tok gs) ++ tk DQUOTE [""""%char] :: tk WHITESPACE g :: tk (kw_typ c k) k :: l)).
Proof.
  intros fuel esc c sh ks k g gs d e l I1 I2 Tx Bg F Id Nd Le Lf.
  destruct (key_facts _ _ _ _ I1 I2) as (L & W & NE & Ne). cbn [call]. unfold sGeneric.
  rewrite white_none by (apply starts_white, word_starts; assumption). cbn [bind]. cbv zeta. fold word_chars.
  destruct (take_emit word_chars (kw_typ c k) k (g ++ """"%char :: written gs ++ "\"%char :: d :: e ++ [nl]) l low_word W) as [E C]; [now apply blanks_stop|].
  rewrite C. apply beqb_neq in NE. rewrite NE, L, E. unfold must at 1. rewrite white_some; [|exact Bg|now apply stops_b]. cbn [bind].
  set (l' := tk WHITESPACE g :: tk (kw_typ c k) k :: l).
  assert (Q : exists t v n, glyph_ok esc (esc_glyph esc t) /\ glyph_typ (esc_glyph esc t) = token_number t /\ t <> T_NUMBER /\
    grabString fuel esc (fresh (""""%char :: written gs ++ "\"%char :: d :: e ++ [nl]) l') =
    Unfinished (fresh [] (repeat (tk CHAR []) n ++ tk (token_number t) v :: rev (map glyph_tok gs) ++ tk DQUOTE [""""%char] :: l'))).
  { destruct (grab_some esc gs (d :: e ++ [nl]) l' fuel F ltac:(lia)) as (m & Lm & Eg). destruct m as [|[|m]]; try lia.
    destruct (loop_cut' m esc d e (rev (map glyph_tok gs) ++ tk DQUOTE [""""%char] :: l') Id Nd Le) as (t & v & G1 & G2 & G3 & El).
    exists t, v, m. split; [exact G1|]. split; [exact G2|]. split; [exact G3|]. now rewrite Eg, El, loop_end. }
  destruct Q as (t & v & n & G1 & G2 & G3 & Es). exists t, v, n. split; [exact G1|]. split; [exact G2|]. split; [exact G3|].
  unfold must at 1. cbn [In] in Tx. destruct Tx as [<-|[<-|[<-|[]]]]; cbn [g_of grab].
  - rewrite Es. reflexivity.
  - rewrite Es. reflexivity.
  - destruct fuel as [|f]; [lia|]. cbn [grabList]. rewrite Es. reflexivity.
Qed.
Lemma mid_cut : forall esc doc c es k g gs x e pre text d, begun esc doc c es pre -> text_keyword c k -> blanks g -> text_ok esc gs ->
  In x (B "0123456789dx") -> byte_val x <> esc -> (List.length (runes_of e) <= 1)%nat ->
  removeComments text = Ok (pre ++ k ++ g ++ """"%char :: written gs ++ "\"%char :: x :: e ++ [nl], esc) ->
  exists n, forall fuel, (n <= fuel)%nat -> parse_text fuel d text = StillRunning.
Proof.
  intros esc doc c es k g gs x e pre text d Bg (sh & ks & I1 & I2 & Tx) Bl F Ix Nx Le R. destruct (begun_lines _ _ _ _ _ Bg) as (ll & E & -> & O & Lk).
  destruct (key_facts _ _ _ _ I1 I2) as (L & W & NE & Ne).
  destruct (lines_lex _ _ _ ll (k ++ g ++ """"%char :: written gs ++ "\"%char :: x :: e ++ [nl]) Lk E O) as (n & H).
  { apply starts_line. pose proof (word_starts k Ne W) as St. destruct k; [destruct St|exact St]. }
  exists (n + 3 + List.length (written gs))%nat. intros fuel Lf. destruct (H fuel ltac:(lia)) as (j & Lj & Lex). destruct j as [|j]; [lia|].
  destruct (call_cut' fuel esc c sh ks k g gs x e (rev (all_toks ll)) I1 I2 Tx Bl F Ix Nx Le ltac:(lia)) as (t & v & m & G1 & G2 & G3 & Ec).
  set (gs' := gs ++ esc_glyph esc t :: repeat (Single 65) m).
  assert (F' : text_ok esc gs').
  { unfold gs'. apply text_app; [exact F| |].
    - change (text_ok esc ([esc_glyph esc t] ++ repeat (Single 65) m)). apply text_app; [|apply many_as|].
      + split; [now constructor|]. cbn [apart]. split; [|exact I]. destruct (esc_glyph esc t) as [| | |? ? []|]; exact I.
      + intros r Hr. destruct m; [discriminate Hr|]. cbn [repeat hd_error] in Hr. injection Hr as <-. lia.
    - intros r Hr. cbn [hd_error] in Hr. injection Hr as Hr. destruct t; discriminate Hr. }
  assert (Ne' : gs' <> []) by (unfold gs'; intros X; apply app_eq_nil in X; destruct X as [_ X]; discriminate X).
  set (en := {| e_key := k; e_gap := g; e_value := text_value sh gs' |}).
  assert (Oe : entry_ok esc c en).
  { split; [exact Bl|]. exists sh, ks. split; [exact I1|]. split; [exact I2|]. now apply text_value_fits. }
  refine (mid_still fuel d text _ esc _ esc (doc ++ [Category c (es ++ [en])]) ll (finish c en)
    ([tk (kw_typ c k) k; tk WHITESPACE g; tk DQUOTE [""""%char]] ++ map glyph_tok gs ++ tk (token_number t) v :: repeat (tk CHAR []) m)
    [tk DQUOTE [""""%char]; tk EOL [nl]; tk END_STR (B "END"); tk WHITESPACE (B " "); tk (c_tok (cat c)) (lc_name c); tk EOL [nl]] R _ _ _ _ _ _ _ _).
  - rewrite Lex. cbn [lex_run]. rewrite Ec. reflexivity.
  - cbn [sent fresh]. rewrite rev_app_distr. cbn [rev]. rewrite rev_app_distr. cbn [rev]. rewrite !rev_involutive.
    replace (rev (repeat (tk CHAR []) m)) with (repeat (tk CHAR []) m); [rewrite <- !app_assoc; reflexivity|].
    clear. induction m as [|m IH]; [reflexivity|]. cbn [repeat rev]. rewrite <- IH. change (tk CHAR [] :: repeat (tk CHAR []) m) with (repeat (tk CHAR []) (S m)).
    now rewrite <- repeat_cons.
  - intros X. apply app_eq_nil in X. destruct X as [_ X]. discriminate X.
  - now apply (finished_ok esc doc c es en (source ll)).
  - rewrite E. exact O.
  - now apply finished.
  - assert (Wc : forall a b, map t_type a = map t_type b -> map t_type (significant a) = map t_type (significant b)).
    { clear. induction a as [|x a IH]; intros [|y b] E; try discriminate E; [reflexivity|]. cbn [map] in E. injection E as E1 E2.
      cbn [significant filter]. rewrite E1. destruct (negb (t_type y =? WHITESPACE)); [cbn [map]; rewrite E1; f_equal; now apply IH|now apply IH]. }
    apply Wc. unfold finish. cbn [all_toks flat_map fst snd line_toks]. unfold entry_toks, en. cbn [e_key e_gap e_value].
    rewrite text_value_toks by assumption. unfold gs'. rewrite !map_app. cbn [map]. rewrite !map_app, !map_map. cbn [map].
    change (t_type (glyph_tok (esc_glyph esc t))) with (glyph_typ (esc_glyph esc t)). rewrite G2.
    assert (Rp : map t_type (map glyph_tok (repeat (Single 65) m)) = map t_type (repeat (tk CHAR []) m)).
    { clear. induction m as [|m IH]; [reflexivity|]. cbn [repeat map]. now rewrite IH. }
    rewrite Rp. repeat (rewrite <- !app_assoc; cbn [app]). reflexivity.
  - apply Forall_app. split.
    + apply Forall_app. split; [constructor; [|repeat (constructor; [discriminate|]); constructor]|].
      * intros X. apply (key_not_number _ _ _ _ I1 I2). exact X.
      * apply Forall_app. split; [apply Forall_map, Forall_forall; intros [] _; discriminate|]. constructor.
        -- intros X. unfold is in X. cbn [t_type tk] in X. apply G3. apply term_code_inj.
           assert (A : translate (token_number t) = translate (token_number T_NUMBER)) by congruence. exact A.
        -- apply Forall_forall. intros a Ia. apply repeat_spec in Ia. subst a. discriminate.
    + repeat (constructor; [try discriminate; destruct c; discriminate|]). constructor.
Qed.

(* LC_COLLATE that begins with anything but END and order_start *)
Lemma mid_collate : forall esc doc v g r pre text d, begun_collation esc doc pre ->
  Forall (fun c => In c letters) v -> v <> B "END" -> v <> B "order_start" -> Forall (fun c => In c whiteSpace) g ->
  stops newLine (v ++ g ++ r) -> stops whiteSpace r -> stops word_chars r ->
  removeComments text = Ok (pre ++ v ++ g ++ r, esc) -> exists n, forall fuel, (n <= fuel)%nat -> parse_text fuel d text = StillRunning.
Proof.
  intros esc doc v g r pre text d Bg Lv N1 N2 Lg S0 S1 S2 R. destruct (begun_collation_lines _ _ _ Bg) as (ll & E & -> & O & Lk).
  destruct (lines_lex _ _ _ ll (v ++ g ++ r) Lk E O S0) as (n & H). exists n. intros fuel Le. destruct (H fuel Le) as (j & _ & Lex).
  destruct (hang_word j fuel esc (rev (all_toks ll)) v g r Lv N1 N2 Lg S1 S2) as (s & Ec & m & Em & Fm). rewrite rev_involutive in Em.
  set (ll2 := [(DStart None, newlines 0); (DSym (B "a"), newlines 0); (DOEnd, newlines 0); (DCEnd, newlines 0)]).
  assert (Z0 : significant m = []).
  { clear -Fm. induction Fm as [|t m Ht _ IH]; [reflexivity|]. cbn [significant filter]. rewrite Ht. exact IH. }
  refine (mid_still fuel d text _ esc s esc (doc ++ [Collation None [B "a"]]) ll ll2 m (all_toks ll2) R _ Em _ _ _ _ _ _).
  - now rewrite Lex.
  - intros X. apply app_eq_nil in X. destruct X as [_ X]. discriminate X.
  - destruct Bg as (Od & _). apply Forall_app. split; [exact Od|]. constructor; [|constructor]. cbn [part_ok]. split; [exact I|]. split; [discriminate|].
    constructor; [|constructor]. unfold symbol_name. constructor; [apply in_b; reflexivity|constructor].
  - rewrite E. exact O.
  - rewrite map_app, E, flat_map_app, <- app_assoc. reflexivity.
  - now rewrite significant_app, Z0.
  - apply Forall_app. split; [|repeat (constructor; [discriminate|]); constructor]. eapply Forall_impl; [|exact Fm]. intros t Ht X. cbv beta in Ht. unfold is in X. assert (Y : token_number T_NUMBER = WHITESPACE) by congruence. discriminate Y.
Qed.
