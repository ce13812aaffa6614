(* Property theorems C123 (pkg/locale/localelex.go, grabInt). *)
From Verif Require Import GoBase GoFacts LocaleSpec LocGramSpec LocYaccModel LocYaccProofs LocaleModel LocLexModel LocDocSpec LocDocProps LocNumProofs.
Local Open Scope Z_scope.

(* a decimal integer: digits, with a minus sign or without *)
Definition decimal_digit (c : ascii) : Prop := In c (B "0123456789").
Definition integer_text (s : bytes) : Prop :=
  exists sign ds, s = sign ++ ds /\ (sign = [] \/ sign = B "-") /\ ds <> [] /\ Forall decimal_digit ds.

(* C123 (all it says, of every text, except for texts of two characters with a minus sign at the end): the text of every number token is
   an integer. *)
Theorem C123_numbers_partial : forall fuel esc src t, In t (tokens_of (lex fuel esc src)) -> t_type t = token_number T_NUMBER ->
  integer_text (t_value t) \/ exists c, In c (B "-0123456789") /\ t_value t = [c; "-"%char].
Proof.
  intros fuel esc src t I E. pose proof (proj1 (Forall_forall _ _) (numbers fuel esc src) t I E) as (A & N0 & N1 & L).
  assert (D : forall c, In c number_chars -> c <> "-"%char -> decimal_digit c).
  { intros c Ic Nc. unfold decimal_digit. repeat (destruct Ic as [<-|Ic]; [try (now elim Nc); vm_compute; tauto|]). destruct Ic. }
  assert (M : forall c, In c number_chars -> In c (B "-0123456789")).
  { intros c Ic. repeat (destruct Ic as [<-|Ic]; [vm_compute; tauto|]). destruct Ic. }
  assert (Ds : forall l, Forall (fun c => In c number_chars) l -> ~ In "-"%char l -> Forall decimal_digit l).
  { intros l Al Nl. apply Forall_forall. intros c Ic. apply D; [exact (proj1 (Forall_forall _ _) Al c Ic)|]. now intros ->. }
  destruct (t_value t) as [|c r]; [now elim N0|]. apply Forall_inv_tail in A as A'. apply Forall_inv in A as A0. cbn [tl] in L.
  assert (K : ~ In "-"%char r -> integer_text (c :: r)).
  { intros Nr. destruct (ascii_dec c "-") as [->|Nc].
    - exists (B "-"), r. split; [reflexivity|]. split; [now right|]. split; [intros ->; now elim N1|now apply Ds].
    - exists [], (c :: r). split; [reflexivity|]. split; [now left|]. split; [discriminate|]. constructor; [now apply D|now apply Ds]. }
  destruct L as [L|L]; [|left; now apply K].
  destruct r as [|c1 [|c2 r]]; [left; apply K; intros []| |cbn [List.length] in L; lia].
  destruct (ascii_dec c1 "-") as [->|Nc]; [right|left; apply K; intros [X|[]]; now elim Nc].
  exists c. split; [now apply M|reflexivity].
Qed.
Print Assumptions C123_numbers_partial.
(* both cases, and a number that is neither is an error *)
Example C123_nonvacuous :
  map t_value (filter (fun t => t_type t =? token_number T_NUMBER)
    (tokens_of (lex 100 92 (lines [B "LC_MONETARY"; B "mon_grouping 3;-1;12;7-;--"; B "END LC_MONETARY"])))) = [B "3"; B "-1"; B "12"; B "7-"; B "--"] /\
  lex 100 92 (lines [B "LC_MONETARY"; B "mon_grouping 1-2"; B "END LC_MONETARY"]) =
    Panicked {| cur := rev (B "1-2"); rest := nl :: B "END LC_MONETARY" ++ [nl]; rew := rev (map Some [49; 45; 50]%N);
                sent := rev [{| t_type := token_number T_LC_MONETARY_STR; t_value := B "LC_MONETARY" |}; {| t_type := token_number T_EOL; t_value := [nl] |};
                         {| t_type := token_number T_MON_GROUPING_STR; t_value := B "mon_grouping" |}; {| t_type := WHITESPACE; t_value := B " " |}] |}.
Proof. split; vm_compute; reflexivity. Qed.

(* C123 is false for the rest: each of these eleven texts is sent as a number.  As the grouping of LC_NUMERIC it is accepted; in LC_MONETARY,
   where its value is used, the program crashes. *)
Definition numeric_file (v : bytes) : bytes := lines [B "LC_NUMERIC"; B "grouping " ++ v; B "END LC_NUMERIC"].
Definition monetary_file (v : bytes) : bytes := lines [B "LC_MONETARY"; B "mon_grouping " ++ v; B "END LC_MONETARY"].
Theorem C123_not_integers_refuted : forall c, In c (B "-0123456789") -> ~ integer_text [c; "-"%char] /\ exists fuel,
  (exists t, In t (tokens_of (lex fuel 92 (numeric_file [c; "-"%char]))) /\ t_type t = token_number T_NUMBER /\ t_value t = [c; "-"%char]) /\
  (forall d, parse_text fuel d (numeric_file [c; "-"%char]) = Accepted d) /\
  (forall d, parse_text fuel d (monetary_file [c; "-"%char]) = Crashed).
Proof.
  intros c I. split.
  - intros (sign & ds & E & S1 & Nd & F).
    assert (X : In "-"%char ds).
    { destruct S1 as [->| ->]; cbn [app] in E; [rewrite <- E; right; now left|]. change (B "-" ++ ds) with ("-"%char :: ds) in E. injection E as _ <-. now left. }
    apply (proj1 (Forall_forall _ _) F) in X. unfold decimal_digit in X. repeat (destruct X as [X|X]; [discriminate X|]). destruct X.
  - exists 100%nat. split; [|split; intros d].
    + exists {| t_type := token_number T_NUMBER; t_value := [c; "-"%char] |}. split; [|now split].
      repeat (destruct I as [<-|I]; [vm_compute; tauto|]). destruct I.
    + repeat (destruct I as [<-|I]; [vm_compute; reflexivity|]). destruct I.
    + repeat (destruct I as [<-|I]; [vm_compute; reflexivity|]). destruct I.
Qed.
Print Assumptions C123_not_integers_refuted.
Example C123_refuted_nonvacuous : In "-"%char (B "-0123456789") /\ In "7"%char (B "-0123456789").
Proof. split; vm_compute; tauto. Qed.
