(* Property theorems C103 for texts with the category LC_COLLATE (pkg/locale/localelex.go in front of the generated parser).
   [removeComments text = Ok (src, esc)]: src is what NewLexer leaves of the file's text. *)
From Verif Require Import GoBase GoFacts Utf8Facts RuneFacts LocaleSpec LocGramSpec LocYaccModel LocYaccProofs LocYaccGram LocYaccSound LocParseSpec LocYaccFinal
  LocaleModel LocaleProofs LocLexModel LocLexProofs LocDocSpec LocDocLex LocDocProofs LocDocFinal LocTokSpec LocHangSpec LocLexEnds LocLexMore LocLexBad LocHang
  LocMidSpec LocMidProofs LocDocProps LocTokProps LocMidProps LocCollSpec LocCollProofs LocCollHang.
Local Open Scope Z_scope.

(* The program ends on every text in which the header of LC_COLLATE and the line order_end are followed by words up to
   END or order_start, unless the text ends within an escape or a message, or a small letter, a blank and a byte that is not
   UTF-8 follow each other in it. *)
Theorem C103_collation_partial : forall d text src esc, removeComments text = Ok (src, esc) ->
  ~ cut_escape src -> ~ open_message src -> collations_go_on src -> ~ torn src ->
  exists n, forall fuel, (n <= fuel)%nat -> parse_text fuel d text <> StillRunning.
Proof.
  intros d text src esc R N1 N2 Go Nt. assert (G : good_text src) by (split; [exact (source_ends _ _ _ R)|now split]).
  apply (parse_finishes d text src esc (2 * List.length src + 3) R). intros s'.
  now apply lex_moves; [..|exact (source_escape _ _ _ R)].
Qed.
Print Assumptions C103_collation_partial.

(* C103 is false at any place: words in LC_COLLATE up to anything but END and order_start, ... *)
Theorem C103_any_words_refuted : forall esc doc pre g u text d, begun_collation esc doc pre ->
  Forall (fun x => In x [" "%char; tab]) g -> leads_nowhere u -> (g = [] -> forall c r, u = c :: r -> ~ In c [nl; cr]) ->
  removeComments text = Ok (pre ++ g ++ u, esc) ->
  exists n, forall fuel, (n <= fuel)%nat -> parse_text fuel d text = StillRunning.
Proof.
  intros esc doc pre g u text d Bg Fg Lu N0 R. apply (mid_words esc doc g u pre text d Bg Fg Lu); [|exact R].
  destruct g as [|x g].
  - specialize (N0 eq_refl). cbn [app]. pose proof (nowhere_white u Lu) as W. destruct u as [|c r]; [exact I|]. destruct W as [L _]. split; [exact L|]. now apply (N0 c r).
  - apply Forall_inv in Fg. destruct Fg as [<-|[<-|[]]]; now apply stops_b.
Qed.
Print Assumptions C103_any_words_refuted.
(* ... a word after order_start that is not forward, backward or position, one blank and a byte that is not UTF-8. *)
Theorem C103_any_torn_refuted : forall esc doc pre g v c t text d, begun_collation esc doc pre -> blanks g ->
  v <> [] -> Forall (fun x => In x small_letters) v -> ~ In v [B "forward"; B "backward"; B "position"] ->
  In c [" "%char; tab] -> invalid t -> removeComments text = Ok (pre ++ B "order_start" ++ g ++ v ++ c :: t, esc) ->
  exists n, forall fuel, (n <= fuel)%nat -> parse_text fuel d text = StillRunning.
Proof. intros esc doc pre g v c t text d. exact (mid_torn esc doc g v c t pre text d). Qed.
Print Assumptions C103_any_torn_refuted.

(* all the places where a word occurs *)
Fixpoint occurrences (w : bytes) (pre s : bytes) : list (bytes * bytes) :=
  (if beqb (firstn (List.length w) s) w then [(pre, skipn (List.length w) s)] else []) ++
  match s with [] => [] | c :: t => occurrences w (pre ++ [c]) t end.
Lemma occurs : forall w a pre b, In (pre ++ a, b) (occurrences w pre (a ++ w ++ b)).
Proof.
  intros w. induction a as [|c a IH]; intros pre b.
  - rewrite app_nil_r. cbn [app]. assert (K : In (pre, b) (if beqb (firstn (List.length w) (w ++ b)) w then [(pre, skipn (List.length w) (w ++ b))] else [])).
    { rewrite firstn_app, firstn_all, Nat.sub_diag. cbn [firstn]. rewrite app_nil_r, beqb_refl, skipn_app, skipn_all, Nat.sub_diag. now left. }
    destruct (w ++ b); cbn [occurrences]; apply in_or_app; now left.
  - cbn [app occurrences]. apply in_or_app. right. replace (pre ++ c :: a) with ((pre ++ [c]) ++ a) by now rewrite <- app_assoc. apply IH.
Qed.
Definition wordy : list bytes :=
  [B "LC_COLLATE"; B "as in order_start forward"; B "<a>"; B "order_end"; B "END LC_COLLATE"; B "LC_NUMERIC"; B "decimal_point "".""";
   B "END LC_NUMERIC"].
Lemma first_line : forall m b w, Forall (fun c => In c [nl; cr]) m -> m <> [] -> (forall c t, b = c :: t -> ~ In c [nl; cr]) ->
  (forall c t, w = c :: t -> ~ In c [nl; cr]) -> m ++ b = nl :: w -> b = w.
Proof.
  intros [|x m] b w F Ne Hb Hw E; [congruence|]. injection E as _ E. apply Forall_inv_tail in F. destruct m as [|y m]; [exact E|].
  exfalso. apply Forall_inv in F. exact (Hw y (m ++ b) (eq_sym E) F).
Qed.
Example C103_collation_nonvacuous : exists src, removeComments (lines wordy) = Ok (src, 92%N) /\
  ~ cut_escape src /\ ~ open_message src /\ collations_go_on src /\ ~ torn src /\
  exists d, parse_text 1000 nothing (lines wordy) = Accepted d.
Proof.
  eexists. split; [vm_compute; reflexivity|]. split; [|split; [|split; [|split]]].
  - intros (a & c & e & E & _). assert (J : In "\"%char (a ++ "\"%char :: c :: e ++ [nl])) by (apply in_or_app; right; now left).
    rewrite <- E in J. apply in_b in J. discriminate J.
  - intros (a & k & g & q & E & [<-|[<-|[]]] & _); pose proof (inside_b (B "expr") (a ++ B "yes") (g ++ """"%char :: q)) as H1;
      pose proof (inside_b (B "expr") (a ++ B "no") (g ++ """"%char :: q)) as H2; rewrite <- !app_assoc in H1, H2.
    + change (B "yes" ++ B "expr" ++ g ++ """"%char :: q) with (B "yesexpr" ++ g ++ """"%char :: q) in H1. rewrite <- E in H1. discriminate H1.
    + change (B "no" ++ B "expr" ++ g ++ """"%char :: q) with (B "noexpr" ++ g ++ """"%char :: q) in H2. rewrite <- E in H2. discriminate H2.
  - split.
    + intros a g m b E Sa Fg Fm Ne Hb. pose proof (occurs (B "LC_COLLATE") a [] (g ++ m ++ b)) as J. rewrite <- E in J. vm_compute in J.
      destruct J as [J|[J|[]]]; injection J as Ja Jb.
      * destruct g as [|x g]; [|exfalso; injection Jb as <- _; apply Forall_inv in Fg; destruct Fg as [Fg|[Fg|[]]]; discriminate Fg].
        cbn [app] in Jb, Ne. eapply first_line in Fm; [|exact Ne|exact Hb| |symmetry; exact Jb].
        -- rewrite Fm. exists []. eexists. split; [reflexivity|]. split; [constructor|].
           apply (out_later (B "as") (B " ")); [discriminate|now apply withins|split; [discriminate|constructor; [now left|constructor]]|].
           apply (out_later (B "in") (B " ")); [discriminate|now apply withins|split; [discriminate|constructor; [now left|constructor]]|].
           apply (out_now (B "order_start")); [right; now left|]. split; [reflexivity|]. intros I. apply in_b in I. discriminate I.
        -- intros c t Ec. injection Ec as <- _. intros I. apply in_b in I. discriminate I.
      * exfalso. destruct Sa as [->|(x & c & -> & Ic)]; [discriminate Ja|].
        apply (f_equal (@rev ascii)) in Ja. rewrite rev_app_distr in Ja. cbn in Ja. injection Ja as <- _. apply in_b in Ic. discriminate Ic.
    + intros a m b E Fm Ne Hb. pose proof (occurs (B "order_end") a [] (m ++ b)) as J. rewrite <- E in J. vm_compute in J.
      destruct J as [J|[]]. injection J as Ja Jb. eapply first_line in Fm; [|exact Ne|exact Hb| |symmetry; exact Jb].
      * rewrite Fm. exists []. eexists. split; [reflexivity|]. split; [constructor|]. apply (out_now (B "END")); [now left|]. split; [reflexivity|].
        intros I. apply in_b in I. discriminate I.
      * intros c t Ec. injection Ec as <- _. intros I. apply in_b in I. discriminate I.
  - intros (a & v & c & t & E & _ & _ & Ne & D). destruct t as [|x t]; [congruence|].
    assert (A : Forall low (a ++ v :: c :: x :: t)) by (rewrite <- E; apply lows; vm_compute; reflexivity).
    apply Forall_app in A. destruct A as [_ A]. do 2 apply Forall_inv_tail in A. apply Forall_inv in A. rewrite decode_low in D by exact A.
    injection D as D. unfold low in A. rewrite D in A. discriminate A.
  - eexists. vm_compute. reflexivity.
Qed.
Definition badly : bytes := [ascii_of_nat 255; "x"%char].
Example C103_words_nonvacuous :
  let pre := file_text (flat_map part_lines sample ++ [B "LC_COLLATE"]) in begun_collation 92 sample pre /\
  (exists u, leads_nowhere u /\ removeComments (pre ++ B "copy from POSIX" ++ nl :: B "END LC_COLLATE") = Ok (pre ++ [] ++ u, 92%N) /\
     forall c r, u = c :: r -> ~ In c [nl; cr]) /\
  (exists t, invalid t /\ removeComments (pre ++ B "order_start forwards " ++ badly ++ nl :: B "END LC_COLLATE") =
     Ok (pre ++ B "order_start" ++ B " " ++ B "forwards" ++ " "%char :: t, 92%N)).
Proof.
  cbv zeta. split; [|split].
  - split; [exact sample_ok|]. eexists. split; [|split; [|reflexivity]].
    + exists [], (lc_name Monetary). do 2 eexists. split; [reflexivity|]. split; [constructor|]. split; [reflexivity|apply after_same].
    + apply comment_free_ok. vm_compute. reflexivity.
  - exists (B "copy" ++ B " " ++ B "from" ++ B " " ++ B "POSIX" ++ [] ++ nl :: B "END LC_COLLATE" ++ [nl]). split; [|split; [vm_compute; reflexivity|]].
    + assert (N : forall c, existsb (Ascii.eqb c) letters = false -> ~ In c letters) by (intros c Q I; apply in_b in I; congruence).
      apply nowhere_later; [discriminate|now apply withins|discriminate|discriminate|constructor; [now left|constructor]|split; [reflexivity|now apply N]|].
      apply nowhere_later; [discriminate|now apply withins|discriminate|discriminate|constructor; [now left|constructor]|split; [reflexivity|now apply N]|].
      apply (nowhere_later (B "POSIX") []); [discriminate|now apply withins|discriminate|discriminate|constructor|split; [reflexivity|now apply N]|].
      apply nowhere_now; [reflexivity|]. intros I. apply in_b in I. discriminate I.
    + intros c r E. injection E as <- _. intros I. apply in_b in I. discriminate I.
  - exists (badly ++ nl :: B "END LC_COLLATE" ++ [nl]). split; [split; [discriminate|vm_compute; reflexivity]|]. vm_compute. reflexivity.
Qed.
