(* Texts the lexer of locale definitions does not cope with. *)
From Verif Require Import GoBase GoFacts RuneFacts LocGramSpec LocYaccModel LocYaccProofs LocYaccGram LocYaccSound LocParseSpec LocYaccFinal
  LocaleModel LocaleProofs LocLexModel LocLexProofs LocDocSpec LocDocLex LocDocProofs LocDocFinal LocHangSpec LocLexEnds LocLexMore.
Local Open Scope Z_scope.

Definition initial (src : bytes) : lx := {| cur := []; rest := src; rew := []; sent := [] |}.

(* the first line is a category *)
Lemma lex_head : forall c fuel k esc r, stops newLine r ->
  lex_run (S (S k)) fuel esc SInit (initial (lc_name c ++ nl :: r)) =
  lex_run k fuel esc (SGeneric (cat c)) (fresh r [tk EOL [nl]; tk (c_tok (cat c)) (lc_name c)]).
Proof.
  intros c fuel k esc r S1. cbn [lex_run call bind]. change (sCategory (initial ?x)) with (call fuel esc SCategory (fresh x [])).
  change (nl :: r) with (lines_end (newlines 0) ++ r). rewrite call_head by exact S1. reflexivity.
Qed.

Lemma crashed : forall text src esc fuel d s, removeComments text = Ok (src, esc) -> lex fuel esc src = Panicked s ->
  parse_text fuel d text = Crashed.
Proof. intros text src esc fuel d s H L. unfold parse_text. rewrite H. cbv zeta. now rewrite L. Qed.

(* ---- blanks at the end of a line ---- *)
Lemma call_trailing : forall c e fuel esc b r l, entry_ok esc c e -> In b whiteSpace -> (List.length (write_entry e) < fuel)%nat ->
  exists s, call fuel esc (SGeneric (cat c)) (fresh (write_entry e ++ b :: r) l) = Panicked s.
Proof.
  intros c [key gap v] fuel esc b r l (Bl & sh & ks & I1 & I2 & F) Hb Le. unfold write_entry in *. cbn [e_key e_gap e_value] in *.
  destruct (key_facts _ _ _ _ I1 I2) as (L & W & NE & Ne). cbn [call]. unfold sGeneric. rewrite <- !app_assoc.
  rewrite white_none by (apply starts_white, word_starts; assumption). cbn [bind]. cbv zeta. fold word_chars.
  destruct (take_emit word_chars (kw_typ c key) key (gap ++ write_value v ++ b :: r) l low_word W) as [E C]; [now apply blanks_stop|].
  rewrite C. apply beqb_neq in NE. rewrite NE, L, E. unfold must at 1.
  rewrite white_some; [|exact Bl|apply starts_white; now apply (value_starts esc sh)]. cbn [bind]. unfold must at 1.
  rewrite grab_value; [|exact F|rewrite !app_length in Le; lia|exists b, r; split; [reflexivity|right; right; exact Hb]]. cbn [bind]. unfold must at 1.
  rewrite newline_none.
  - cbn [bind]. eexists. reflexivity.
  - assert (A : forallb (fun b => (byte_val b <? 128)%N && negb (existsb (Ascii.eqb b) newLine)) whiteSpace = true) by reflexivity.
    pose proof (proj1 (forallb_forall _ _) A b Hb) as K. cbv beta in K. now apply stops_b.
Qed.
Lemma write_entry_starts : forall esc c e, entry_ok esc c e -> starts (write_entry e).
Proof.
  intros esc c [key gap v] (Bl & sh & ks & I1 & I2 & F). unfold write_entry. cbn [e_key e_gap e_value] in *.
  destruct (key_facts _ _ _ _ I1 I2) as (L & W & NE & Ne). pose proof (word_starts key Ne W) as St. destruct key; [destruct St|exact St].
Qed.
Lemma trailing_crash : forall c e b r text esc d, entry_ok esc c e -> In b whiteSpace ->
  removeComments text = Ok (lc_name c ++ nl :: write_entry e ++ b :: r, esc) ->
  forall fuel, (List.length (write_entry e) + 4 <= fuel)%nat -> parse_text fuel d text = Crashed.
Proof.
  intros c e b r text esc d O Hb R fuel Le. pose proof (write_entry_starts esc c e O) as St.
  destruct (call_trailing c e fuel esc b r [tk EOL [nl]; tk (c_tok (cat c)) (lc_name c)] O Hb) as (s & E); [lia|].
  apply (crashed _ _ _ _ _ s R). unfold lex. fold (initial (lc_name c ++ nl :: write_entry e ++ b :: r)).
  destruct fuel as [|[|[|k]]]; try lia. rewrite lex_head by (now apply starts_line). set (f := S (S (S k))) in *. cbn [lex_run]. now rewrite E.
Qed.

(* ---- copy ---- *)
Lemma copy_crash : forall c b r text esc d, ender b ->
  removeComments text = Ok (lc_name c ++ nl :: B "copy" ++ b :: r, esc) ->
  forall fuel, (4 <= fuel)%nat -> parse_text fuel d text = Crashed.
Proof.
  intros c b r text esc d Hb R fuel Le.
  assert (E : exists s, call fuel esc (SGeneric (cat c)) (fresh (B "copy" ++ b :: r) [tk EOL [nl]; tk (c_tok (cat c)) (lc_name c)]) = Panicked s).
  { cbn [call]. unfold sGeneric. rewrite white_none by (now apply stops_b). cbn [bind]. cbv zeta. fold word_chars.
    destruct (take_emit word_chars 0 (B "copy") (b :: r) [tk EOL [nl]; tk (c_tok (cat c)) (lc_name c)] low_word) as [_ C];
      [now apply withins|apply stops_sep; [reflexivity..|]; right; exists b, r; auto|].
    rewrite C. change (beqb (B "copy") (B "END")) with false. cbv iota.
    assert (L : look_up (B "copy") (c_defs (cat c)) = None) by (destruct c; reflexivity). rewrite L. eexists. reflexivity. }
  destruct E as (s & E). apply (crashed _ _ _ _ _ s R). unfold lex. fold (initial (lc_name c ++ nl :: B "copy" ++ b :: r)).
  destruct fuel as [|[|[|k]]]; try lia. rewrite lex_head by (now apply stops_b). set (f := S (S (S k))) in *. cbn [lex_run]. now rewrite E.
Qed.

(* ---- charclass ---- *)
Scheme derives_mind := Minimality for derives Sort Prop
with derives_all_mind := Minimality for derives_all Sort Prop.
Combined Scheme derivation_ind from derives_mind, derives_all_mind.
Lemma namelist_class : 
  (forall X w, derives X w -> X = N_charclass_namelist \/ X = T_CHARCLASS -> In T_CHARCLASS w) /\
  (forall r w, derives_all r w -> In (Nt N_charclass_namelist) r \/ In (Tm T_CHARCLASS) r -> In T_CHARCLASS w).
Proof.
  apply derivation_ind.
  - intros t [E|E]; [discriminate E|]. injection E as ->. now left.
  - intros A rhs w I _ IH [E|E]; [|discriminate E]. injection E as ->.
    assert (G : forallb (fun p => match fst p with N_charclass_namelist => existsb (fun x => match x with Tm T_CHARCLASS => true | _ => false end) (snd p) | _ => true end) grammar = true)
      by (vm_compute; reflexivity).
    pose proof (proj1 (forallb_forall _ _) G _ I) as K. cbv beta in K. cbn [fst snd] in K. apply existsb_exists in K.
    destruct K as (x & Ix & Ex). apply IH. right. destruct x as [[]|]; try discriminate Ex. exact Ix.
  - intros [[]|[]].
  - intros X w r v _ IH1 _ IH2 H. apply in_or_app. destruct H as [[E|H]|[E|H]].
    + left. apply IH1. now left.
    + right. apply IH2. now left.
    + left. apply IH1. now right.
    + right. apply IH2. now right.
Qed.
Lemma class_needs_names : 
  (forall X w, derives X w -> X <> T_CHARCLASS_STR -> In T_CHARCLASS_STR w -> In T_CHARCLASS w) /\
  (forall r w, derives_all r w -> (In (Tm T_CHARCLASS_STR) r -> In (Nt N_charclass_namelist) r) -> In T_CHARCLASS_STR w -> In T_CHARCLASS w).
Proof.
  apply derivation_ind.
  - intros t N [->|[]]. congruence.
  - intros A rhs w I D IH _ H. apply IH; [|exact H].
    assert (G : forallb (fun p => negb (existsb (fun x => match x with Tm T_CHARCLASS_STR => true | _ => false end) (snd p)) ||
        existsb (fun x => match x with Nt N_charclass_namelist => true | _ => false end) (snd p)) grammar = true)
      by (vm_compute; reflexivity).
    pose proof (proj1 (forallb_forall _ _) G _ I) as K. cbv beta in K. cbn [fst snd] in K. intros J. apply orb_prop in K. destruct K as [K|K].
    + exfalso. apply negb_true_iff in K. rewrite <- not_true_iff_false in K. apply K. apply existsb_exists. now exists (Tm T_CHARCLASS_STR).
    + apply existsb_exists in K. destruct K as (x & Ix & Ex). destruct x as [|[]]; try discriminate Ex. exact Ix.
  - intros _ [].
  - intros X w r v D1 IH1 D2 IH2 H J.
    destruct (in_dec (fun x y : symbol => ltac:(decide equality; decide equality)) (Nt N_charclass_namelist) (X :: r)) as [I|I].
    + apply in_or_app. destruct I as [->|I]; [left; apply (proj1 namelist_class _ _ D1); now left|right; apply (proj2 namelist_class _ _ D2); now left].
    + assert (N : ~ In (Tm T_CHARCLASS_STR) (X :: r)) by (intros Q; exact (I (H Q))). apply in_or_app. apply in_app_or in J. destruct J as [J|J].
      * left. apply IH1; [|exact J]. intros ->. apply N. now left.
      * right. apply IH2; [|exact J]. intros Q. exfalso. apply N. now right.
Qed.
Lemma spells_in : forall l w x t, spells l w -> In t l -> is x t -> x <> T_CHARCLASS -> token_number x <> WHITESPACE -> exists y, In y w /\ token_number y = token_number x.
Proof.
  intros l w x t Sp I E _ Nw. assert (J : In t (significant l)).
  { apply filter_In. split; [exact I|]. apply negb_true_iff, Z.eqb_neq. unfold is in E. now rewrite E. }
  unfold spells in Sp. clear I. induction Sp as [|y u w l' E1 _ IH]; [destruct J|]. destruct J as [->|J].
  - exists y. split; [now left|]. unfold is in *. congruence.
  - destruct (IH J) as (z & Iz & Ez). exists z. split; [now right|exact Ez].
Qed.
Lemma spells_out : forall l w x, spells l w -> In x w -> exists t, In t l /\ is x t.
Proof.
  intros l w x Sp I. unfold spells in Sp. assert (K : exists t, In t (significant l) /\ is x t).
  { induction Sp as [|y u w l' E1 _ IH]; [destruct I|]. destruct I as [->|I]; [exists u; split; [now left|exact E1]|].
    destruct (IH I) as (t & It & Et). exists t. split; [now right|exact Et]. }
  destruct K as (t & It & Et). exists t. split; [now apply in_significant|exact Et].
Qed.
Lemma no_charclass_accepted : forall fuel d text d' src esc t, parse_text fuel d text = Accepted d' ->
  removeComments text = Ok (src, esc) -> In t (tokens_of (lex fuel esc src)) -> t_type t <> token_number T_CHARCLASS_STR.
Proof.
  intros fuel d text d' src esc t H R I E. destruct (accepted_inv _ _ _ _ H) as (src' & esc' & s & R' & L & Y).
  rewrite R in R'. injection R' as <- <-. rewrite L in I. cbn [tokens_of] in I.
  pose proof (types_ends fuel esc src) as Ty. pose proof (lexer_positive fuel esc src) as P. rewrite L in Ty, P. cbn [tokens_of] in Ty, P.
  destruct (accepted_spells _ _ _ _ _ P Y) as (_ & w & Sp & D).
  destruct (spells_in _ _ T_CHARCLASS_STR t Sp I E) as (y & Iy & Ey); [discriminate|discriminate|].
  assert (Y1 : y = T_CHARCLASS_STR).
  { apply term_code_inj. assert (A : translate (token_number y) = translate (token_number T_CHARCLASS_STR)) by now rewrite Ey.
    exact A. }
  subst y. pose proof (proj1 class_needs_names _ _ D ltac:(discriminate) Iy) as J.
  destruct (spells_out _ _ _ Sp J) as (u & Iu & Eu). pose proof (proj1 (Forall_forall _ _) Ty u Iu) as K. cbv beta in K. unfold is in Eu. rewrite Eu in K.
  assert (A : existsb (Z.eqb (token_number T_CHARCLASS)) lexer_types = false) by (vm_compute; reflexivity).
  rewrite <- not_true_iff_false in A. apply A. apply existsb_exists. exists (token_number T_CHARCLASS). split; [exact K|apply Z.eqb_refl].
Qed.

(* a token sent stays sent *)
Definition holds (t : token) (s : lx) : Prop := In t (sent s).
Lemma holds_next : forall t s, holds t s -> holds t (snd (next s)).
Proof. intros t s H. unfold holds, next in *. destruct (rest s); [exact H|]. destruct (decode_rune _). exact H. Qed.
Lemma holds_rewind : forall t s, holds t s -> holds t (rewind s).
Proof. intros t s H. unfold holds, rewind in *. destruct (rew s) as [|[r|] w]; exact H. Qed.
Lemma holds_emit : forall t ty s, True -> holds t s -> holds t (emit ty s).
Proof. intros t ty s _ H. right. exact H. Qed.
Lemma all_true : forall l : list Z, Forall (fun _ => True) l. Proof. intros l. now apply Forall_forall. Qed.
Lemma cats_true : forall c : category, In c categories -> True /\ Forall (fun _ : bytes * (Z * grabber) => True) (c_defs c).
Proof. intros c _. split; [exact I|now apply Forall_forall]. Qed.

Lemma charclass_never : forall b r text esc d d' fuel, ender b ->
  removeComments text = Ok (B "LC_CTYPE" ++ nl :: B "charclass" ++ b :: r, esc) ->
  parse_text fuel d text <> Accepted d'.
Proof.
  intros b r text esc d d' fuel Hb R A. set (src := B "LC_CTYPE" ++ nl :: B "charclass" ++ b :: r) in *.
  set (t := tk 57363 (B "charclass")).
  assert (H : (3 <= fuel)%nat -> ends (holds t) (lex fuel esc src)).
  { intros Le. unfold lex. fold (initial src). unfold src. change (B "LC_CTYPE") with (lc_name Ctype).
    destruct fuel as [|[|[|k]]]; try lia. rewrite lex_head by (now apply stops_b). set (f := S (S (S k))) in *. cbn [lex_run].
    pose proof (holds_next t) as H1. pose proof (holds_rewind t) as H2. pose proof (holds_emit t) as H3.
    assert (G : goes (holds t) (call f esc (SGeneric (cat Ctype)) (fresh (B "charclass" ++ b :: r) [tk EOL [nl]; tk (c_tok (cat Ctype)) (lc_name Ctype)]))).
    { cbn [call]. unfold sGeneric. rewrite white_none by (now apply stops_b). cbn [bind]. cbv zeta. fold word_chars.
      destruct (take_emit word_chars 57363 (B "charclass") (b :: r) [tk EOL [nl]; tk (c_tok (cat Ctype)) (lc_name Ctype)] low_word) as [E C];
        [now apply withins|apply stops_sep; [reflexivity..|]; right; exists b, r; auto|].
      rewrite C. change (beqb (B "charclass") (B "END")) with false. cbv iota.
      change (look_up (B "charclass") (c_defs (cat Ctype))) with (Some (57363, GStringList)). cbv iota. rewrite E.
      assert (P : holds t (fresh (b :: r) (tk 57363 (B "charclass") :: [tk EOL [nl]; tk (c_tok (cat Ctype)) (lc_name Ctype)]))) by (now left).
      apply bind_goes_eq; [apply must_ends, (ws_ends _ (fun _ => True)); auto using all_true|]. intros u s1 C1 P1. apply white_cur in C1.
      apply bind_goes; [apply must_ends, (grab_ends _ (fun _ => True)); auto using all_true; intros; apply int_ends; auto|]. intros u2 s2 P2.
      apply bind_goes; [apply must_ends, (nl_ends _ (fun _ => True)); auto using all_true|]. intros u3 s3 P3. split; [exact P3|]. now left. }
    destruct G as [G1 G2]. destruct (call _ _ _ _) as [o s|s|s]; cbn [bind ends] in *; [|exact G1..].
    destruct o as [st|]; [|exact G1]. apply (run_ends (holds t) (fun _ => True)); auto using all_true, cats_true.
    intros; apply int_ends; auto. }
  destruct (accepted_inv _ _ _ _ A) as (src' & esc' & s & R' & L & _). rewrite R in R'. injection R' as <- <-.
  assert (Le : (3 <= fuel)%nat).
  { destruct fuel as [|[|[|k]]]; [discriminate L| | |lia]; exfalso; revert L; unfold lex; fold (initial src).
    - discriminate.
    - unfold src. change (B "LC_CTYPE") with (lc_name Ctype). rewrite lex_head by (now apply stops_b). discriminate. }
  specialize (H Le). rewrite L in H. refine (no_charclass_accepted _ _ _ _ _ _ t A R _ eq_refl). rewrite L. cbn [tokens_of]. now apply in_rev in H.
Qed.

(* ---- never ending ---- *)
Lemma hang_collate : forall k fuel esc l, lex_run k fuel esc SCollate (fresh [] l) = Unfinished (fresh [] l).
Proof. induction k as [|k IH]; intros fuel esc l; [reflexivity|]. cbn [lex_run]. change (call fuel esc SCollate (fresh [] l)) with (Done (Some SCollate) (fresh [] l)). apply IH. Qed.
Lemma waits : forall fuel n d l, yyParse n false d l = Some (Waits, d) ->
  yyParse fuel false d l = None \/ yyParse fuel false d l = Some (Waits, d).
Proof.
  intros fuel n d l H. destruct (yyParse fuel false d l) as [r|] eqn:E; [right|now left]. unfold yyParse in *. f_equal. exact (run_det _ _ _ _ _ _ E H).
Qed.
Lemma collate_hangs : forall fuel d, parse_text fuel d (B "LC_COLLATE" ++ [nl]) = StillRunning.
Proof.
  intros fuel d. unfold parse_text. change (removeComments (B "LC_COLLATE" ++ [nl])) with (Ok (B "LC_COLLATE" ++ [nl; nl], 92%N)). cbv zeta iota beta.
  unfold lex. fold (initial (B "LC_COLLATE" ++ [nl; nl])).
  destruct fuel as [|[|k]]; [reflexivity..|]. set (f := S (S k)).
  change (lex_run f f 92 SInit (initial (B "LC_COLLATE" ++ [nl; nl]))) with
    (lex_run k f 92 SCollate (fresh [] [tk EOL [nl; nl]; tk LC_COLLATE_STR (B "LC_COLLATE")])).
  rewrite hang_collate. cbn [tokens_of sent fresh rev app].
  destruct (waits f 50 d [tk LC_COLLATE_STR (B "LC_COLLATE"); tk EOL [nl; nl]]) as [E|E]; [vm_compute; reflexivity|..]; now rewrite E.
Qed.
Lemma hang_quote : forall k c w l, exists w', to_quote k {| cur := c; rest := []; rew := w; sent := l |} = Unfinished {| cur := c; rest := []; rew := w'; sent := l |}.
Proof. induction k as [|k IH]; intros c w l; [now exists w|]. cbn [to_quote]. rewrite next_end. cbn [at_char has existsb]. apply IH. Qed.
Lemma to_quote_none : forall x k c w l, ~ In """"%char x -> Forall low x -> exists s, to_quote k {| cur := c; rest := x; rew := w; sent := l |} = Unfinished s /\ sent s = l.
Proof.
  induction x as [|b x IH]; intros k c w l N L.
  - destruct (hang_quote k c w l) as (w' & E). rewrite E. eexists. split; reflexivity.
  - destruct k as [|k]; [eexists; split; reflexivity|]. inversion L as [|? ? L1 L2]; subst. cbn [to_quote]. rewrite next_low by exact L1.
    rewrite at_no by (intros E; apply N; left; now symmetry). apply IH; [|exact L2]. intros J. apply N. now right.
Qed.
Lemma unclosed_call : forall x k esc l, ~ In """"%char x -> Forall low x ->
  exists s, call k esc (SGeneric (cat Messages)) (fresh (B "yesexpr """ ++ x) l) = Unfinished s /\
    sent s = rev [tk 57429 (B "yesexpr"); tk WHITESPACE (B " "); tk DQUOTE [""""%char]] ++ l.
Proof.
  intros x k esc l N L. cbn [call]. unfold sGeneric. change (B "yesexpr """ ++ x) with (B "yesexpr" ++ B " " ++ """"%char :: x).
  rewrite white_none by (now apply stops_b). cbn [bind]. cbv zeta. fold word_chars.
  destruct (take_emit word_chars 57429 (B "yesexpr") (B " " ++ """"%char :: x) l low_word) as [E C]; [now apply withins|now apply stops_b|].
  rewrite C. change (beqb (B "yesexpr") (B "END")) with false. cbv iota.
  change (look_up (B "yesexpr") (c_defs (cat Messages))) with (Some (57429, GMsg)). cbv iota. rewrite E. unfold must at 1.
  rewrite white_some; [|split; [discriminate|constructor; [now left|constructor]]|now apply stops_b]. cbn [bind grab]. unfold grabMsg, fresh.
  rewrite next_low by reflexivity. rewrite at_yes. cbn [negb]. unfold must at 1. unfold emit at 1. cbn [rest sent current cur rev app].
  destruct (to_quote_none x k [] [] (tk DQUOTE [""""%char] :: tk WHITESPACE (B " ") :: tk 57429 (B "yesexpr") :: l) N L) as (s & E1 & E2).
  unfold current. cbn [cur rev app]. unfold tk in E1 at 1. rewrite E1. exists s. split; [reflexivity|exact E2].
Qed.
Lemma unclosed_hangs : forall x text esc d, ~ In """"%char x -> Forall low x ->
  removeComments text = Ok (B "LC_MESSAGES" ++ nl :: B "yesexpr """ ++ x, esc) ->
  forall fuel, parse_text fuel d text = StillRunning.
Proof.
  intros x text esc d N L R fuel. unfold parse_text. rewrite R. cbv zeta iota beta.
  set (src := B "LC_MESSAGES" ++ nl :: B "yesexpr """ ++ x).
  set (runs := [[]; [tk LC_MESSAGES_STR (B "LC_MESSAGES"); tk EOL [nl]];
      [tk LC_MESSAGES_STR (B "LC_MESSAGES"); tk EOL [nl]; tk 57429 (B "yesexpr"); tk WHITESPACE (B " "); tk DQUOTE [""""%char]]]).
  assert (X : exists s, lex fuel esc src = Unfinished s /\ In (rev (sent s)) runs).
  { unfold lex. fold (initial src). destruct fuel as [|[|k]]; [eexists; split; [reflexivity|now left]..|].
    unfold src. change (B "LC_MESSAGES" ++ nl :: ?y) with (lc_name Messages ++ nl :: y). rewrite lex_head by (now apply stops_b).
    destruct k as [|k]; [eexists; split; [reflexivity|right; now left]|]. cbn [lex_run].
    destruct (unclosed_call x (S (S (S k))) esc [tk EOL [nl]; tk (c_tok (cat Messages)) (lc_name Messages)] N L) as (s & E & Es).
    rewrite E. exists s. split; [reflexivity|]. rewrite Es, rev_app_distr, rev_involutive. right. right. now left. }
  destruct X as (s & E & I). rewrite E. cbn [tokens_of].
  destruct (waits fuel 50 d (rev (sent s))) as [Q|Q]; [|now rewrite Q..].
  unfold runs in I. cbn [In] in I. destruct I as [<-|[<-|[<-|[]]]]; vm_compute; reflexivity.
Qed.

(* a section LC_COLLATE with one of the collating- keywords: the lexer takes only letters and underscores for a keyword *)
Lemma hang_stuck : forall r fuel esc l k, stops whiteSpace r -> stops word_chars r ->
  lex_run k fuel esc SCollate (fresh r l) = Unfinished (fresh r l).
Proof.
  intros r fuel esc l k S1 S2. induction k as [|k IH]; [reflexivity|]. cbn [lex_run].
  replace (call fuel esc SCollate (fresh r l)) with (@Done (option lstate) (Some SCollate) (fresh r l)); [exact IH|].
  cbn [call]. unfold sCollate. rewrite white_none by exact S1. cbn [bind]. fold word_chars. rewrite take_none by exact S2. reflexivity.
Qed.
Lemma collating_one : forall r fuel esc l, exists w,
  call fuel esc SCollate (fresh (B "collating-" ++ r) l) =
  Done (Some SCollate) {| cur := rev (B "collating"); rest := B "-" ++ r; rew := w; sent := l |}.
Proof.
  intros r fuel esc l. cbn [call]. unfold sCollate. rewrite white_none by (now apply stops_b). cbn [bind]. fold word_chars.
  change (B "collating-" ++ r) with (B "collating" ++ B "-" ++ r). unfold fresh.
  rewrite (take_all word_chars (B "collating") (B "-" ++ r)) by (first [exact low_word|now apply withins|now apply stops_b]).
  rewrite app_nil_r. unfold current. cbn [cur]. rewrite rev_involutive.
  change (beqb (B "collating") (B "END")) with false. change (beqb (B "collating") (B "order_start")) with false.
  change (beqb (B "collating") (B "collating-element")) with false. change (beqb (B "collating") (B "collating-symbol")) with false.
  cbv iota. eexists. reflexivity.
Qed.
Lemma collating_two : forall r fuel esc w l,
  call fuel esc SCollate {| cur := rev (B "collating"); rest := B "-" ++ r; rew := w; sent := l |} =
  Done (Some SCollate) (fresh (B "-" ++ r) (tk WHITESPACE (B "collating") :: l)).
Proof.
  intros r fuel esc w l. cbn [call]. unfold sCollate.
  assert (G : grabWhitespace {| cur := rev (B "collating"); rest := B "-" ++ r; rew := w; sent := l |} =
    Done true (fresh (B "-" ++ r) (tk WHITESPACE (B "collating") :: l))).
  { unfold grabWhitespace, take. cbv zeta. rewrite take_stop by (now apply stops_b). reflexivity. }
  rewrite G. cbn [bind]. fold word_chars. rewrite take_none by (now apply stops_b). reflexivity.
Qed.
Lemma collating_hangs : forall r text esc d, removeComments text = Ok (B "LC_COLLATE" ++ nl :: B "collating-" ++ r, esc) ->
  forall fuel, parse_text fuel d text = StillRunning.
Proof.
  intros r text esc d R fuel. unfold parse_text. rewrite R. cbv zeta iota beta.
  set (src := B "LC_COLLATE" ++ nl :: B "collating-" ++ r).
  set (runs := [[]; [tk LC_COLLATE_STR (B "LC_COLLATE"); tk EOL [nl]];
      [tk LC_COLLATE_STR (B "LC_COLLATE"); tk EOL [nl]; tk WHITESPACE (B "collating")]]).
  assert (X : exists s, lex fuel esc src = Unfinished s /\ In (rev (sent s)) runs).
  { unfold lex. fold (initial src). destruct fuel as [|[|k]]; [eexists; split; [reflexivity|now left]..|].
    rewrite (lex_call _ _ _ _ _ SCategory (fresh src [])) by reflexivity.
    rewrite (lex_call _ _ _ _ _ SCollate (fresh (B "collating-" ++ r) [tk EOL [nl]; tk LC_COLLATE_STR (B "LC_COLLATE")]))
      by (apply (call_collate_head (S (S k)) esc (newlines 0) (B "collating-" ++ r) []); now apply stops_b).
    set (f := S (S k)). set (l := [tk EOL [nl]; tk LC_COLLATE_STR (B "LC_COLLATE")]).
    destruct k as [|k]; [eexists; split; [reflexivity|right; now left]|].
    destruct (collating_one r f esc l) as (w & E). rewrite (lex_call _ _ _ _ _ _ _ E).
    destruct k as [|k]; [eexists; split; [reflexivity|right; now left]|].
    rewrite (lex_call _ _ _ _ _ _ _ (collating_two r f esc w l)). rewrite hang_stuck by (now apply stops_b).
    eexists. split; [reflexivity|]. right. right. now left. }
  destruct X as (s & E & I). rewrite E. cbn [tokens_of].
  destruct (waits fuel 50 d (rev (sent s))) as [Q|Q]; [|now rewrite Q..].
  unfold runs in I. cbn [In] in I. destruct I as [<-|[<-|[<-|[]]]]; vm_compute; reflexivity.
Qed.

(* ---- ending ---- *)
Lemma parse_finishes : forall d text src esc f0, removeComments text = Ok (src, esc) -> (forall s', lex f0 esc src <> Unfinished s') ->
  exists n, forall fuel, (n <= fuel)%nat -> parse_text fuel d text <> StillRunning.
Proof.
  intros d text src esc f0 R F.
  exists (f0 + 100 * S (List.length (tokens_of (lex f0 esc src))))%nat. intros fuel Le. unfold parse_text. rewrite R. cbv zeta.
  pose proof (lex_upto f0 fuel esc src ltac:(lia)) as U. pose proof (lexer_positive f0 esc src) as P.
  destruct (lex f0 esc src) as [u s|s|s] eqn:L; cbn [upto] in U; [|now rewrite U|exfalso; exact (F s eq_refl)].
  rewrite U. cbn [tokens_of] in *. destruct (parse_spec d _ P) as (o & d' & E & C).
  unfold yyParse in *. apply (run_more _ (fuel - 100 * S (List.length (rev (sent s))))) in E.
  replace (100 * S (List.length (rev (sent s))) + (fuel - 100 * S (List.length (rev (sent s)))))%nat with fuel in E by lia. rewrite E.
  destruct C as [[-> _]|[->| ->]]; discriminate.
Qed.
Lemma parse_ends : forall d text src esc, removeComments text = Ok (src, esc) ->
  ~ cut_escape src -> ~ inside (B "LC_COLLATE") src -> ~ open_message src ->
  exists n, forall fuel, (n <= fuel)%nat -> parse_text fuel d text <> StillRunning.
Proof.
  intros d text src esc R N1 N2 N3. assert (G : good_text src) by (split; [exact (source_ends _ _ _ R)|now split]).
  apply (parse_finishes d text src esc (2 * List.length src + 2) R).
  apply lex_finishes; [exact (source_escape _ _ _ R)|exact G|exact N2|lia].
Qed.
Lemma parse_ends_preprocess : forall d text, (forall p, removeComments text <> Ok p) -> forall fuel, parse_text fuel d text = Crashed.
Proof. intros d text H fuel. unfold parse_text. destruct (removeComments text) as [[src esc]| |]; try reflexivity. exfalso. now apply (H (src, esc)). Qed.
