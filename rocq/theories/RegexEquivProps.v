(* C155: repetitions as abbreviations.  Statements only; proofs in RegexEquivProofs.v. *)
From Verif Require Import GoBase GoFacts NumFacts Utf8Facts RegexModel RegexSpec RegexProofs RegexMoreSpec RegexMoreProofs
  RegexGramSpec RegexGramProofs RegexEquivSpec RegexEquivProofs.

(* C155: repetitions and anchors are written so. *)
Theorem C155_written : forall m n l, star = [N_of_ascii "*"] /\
  exactly m = [N_of_ascii "{"] ++ num m ++ [N_of_ascii "}"] /\
  at_least m = [N_of_ascii "{"] ++ num m ++ [N_of_ascii ","; N_of_ascii "}"] /\
  between m n = [N_of_ascii "{"] ++ num m ++ [N_of_ascii ","] ++ num n ++ [N_of_ascii "}"] /\
  anchored true true l = string_of_runes ([N_of_ascii "^"] ++ l ++ [N_of_ascii "$"]).
Proof. intros. repeat split. Qed.
Print Assumptions C155_written.

(* C155, the part that is true: in any pattern, x{m} can be replaced by x written m times, x{m,} by x{m}x*, x{m,m+n} by
   x{m}x{0,n}, x* by x{0,}, and x{m}x{n} by x{m+n}, without a change of the texts matched. *)
Theorem C155_abbreviations_partial : forall x e m n, single x e -> fragment x -> fits (m + n) ->
  interchangeable (x ++ exactly m) (times m x) /\
  interchangeable (x ++ at_least m) ((x ++ exactly m) ++ x ++ star) /\
  interchangeable (x ++ between m (m + n)) ((x ++ exactly m) ++ x ++ between 0 n) /\
  interchangeable (x ++ star) (x ++ at_least 0) /\
  interchangeable ((x ++ exactly m) ++ x ++ exactly n) (x ++ exactly (m + n)).
Proof.
  intros x e m n S1 F Fmn. assert (Fm : fits m) by (unfold fits in *; lia). assert (Fn : fits n) by (unfold fits in *; lia).
  assert (F0 : fits 0) by (unfold fits, max_int64; lia).
  destruct (exactly_item x e m F S1 Fm) as [A1 A2], (exactly_item x e n F S1 Fn) as [B1 B2],
    (exactly_item x e (m + n) F S1 Fmn) as [C1 C2], (at_least_item x e m F S1 Fm) as [D1 D2], (at_least_item x e 0 F S1 F0) as [E1 E2],
    (between_item x e m (m + n) F S1 Fm Fmn) as [G1 G2], (between_item x e 0 n F S1 F0 Fn) as [H1 H2], (star_item x e F S1) as [I1 I2].
  pose proof (once_item x e F S1) as J. destruct (times_item x _ m F J) as [K1 K2]. rewrite concat_singletons in K2.
  split; [|split; [|split; [|split]]].
  - eapply alike_texts; eauto. apply alike_times.
  - eapply alike_texts; eauto using fragment_app, sequence_fragment_app. now apply alike_at_least.
  - eapply alike_texts; eauto using fragment_app, sequence_fragment_app. apply alike_between.
  - eapply alike_texts; eauto. apply alike_refl.
  - eapply alike_texts; eauto using fragment_app, sequence_fragment_app. apply alike_sum.
Qed.
Print Assumptions C155_abbreviations_partial.
Example C155_nonvacuous : single [97%N] (Plain 97) /\ fragment [97%N] /\ fits (2 + 3) /\
  anchored true false ([98%N] ++ ([97%N] ++ between 2 (2 + 3)) ++ [99%N]) = B "^ba{2,5}c" /\
  anchored true false ([98%N] ++ (([97%N] ++ exactly 2) ++ [97%N] ++ between 0 3) ++ [99%N]) = B "^ba{2}a{0,3}c" /\
  (exists b, ParseBre (B "^ba{2,5}c") = Ok b /\ Matches b (B "baaac") = true /\ Matches b (B "bac") = false).
Proof.
  assert (S1 : single [97%N] (Plain 97)) by (constructor; cbn; intros [Q|[Q|[Q|[Q|[]]]]]; discriminate).
  split; [exact S1|]. split.
  { split; [exists [ex (Plain 97) 1 1]; apply (repeated_item [97%N] (Plain 97) []); [exact S1|constructor]|].
    split; [repeat constructor; unfold valid_rune; lia|]. cbn. split; [|discriminate]. intros [Q|[Q|[Q|[]]]]; discriminate. }
  split; [unfold fits, max_int64; cbn; lia|]. split; [vm_compute; reflexivity|]. split; [vm_compute; reflexivity|].
  eexists. split; [vm_compute; reflexivity|]. split; vm_compute; reflexivity.
Qed.

(* where at most is less than at least, nothing is matched, whatever is before and after it *)
Theorem C155_impossible : forall left right pre post x e m n, single x e -> fragment x -> fragment pre -> fragment post ->
  fits m -> n < m -> exists b, ParseBre (anchored left right (pre ++ (x ++ between m n) ++ post)) = Ok b /\
  forall text, Matches b text = false.
Proof.
  intros left right pre post x e m n S1 F Fp Fq Fm L. assert (Fn : fits n) by (unfold fits in *; lia).
  destruct (between_item x e m n F S1 Fm Fn) as [A1 A2]. pose proof Fp as ((P&Sp)&_). pose proof Fq as ((Q&Sq)&_).
  pose proof (fragment_app _ _ Fp (fragment_app _ _ A1 Fq)) as (_&V1&H1&L1). cbn [In] in H1.
  pose proof (sequence_fragment_app _ _ _ _ Sp (sequence_fragment_app _ _ _ _ A2 Sq Fq) (fragment_app _ _ A1 Fq)) as S2.
  eexists. split; [apply (anchored_elements left right _ _ S2); auto|]. intros text.
  match goal with |- ?M = false => destruct M eqn:E; auto end. unfold Matches in E.
  apply matches_loosely in E as (u&t&_&_&H); [|cbn [elements]; eapply sequence_sane; eauto]. cbn [elements app] in H.
  exfalso. eapply loosely_all_impossible; [| |exact H]; auto. eapply sequence_sane; eauto.
Qed.
Print Assumptions C155_impossible.
Example C155_impossible_nonvacuous : exists b, ParseBre (B "a{3,2}") = Ok b /\ Matches b (B "aaa") = false.
Proof. eexists. split; vm_compute; reflexivity. Qed.

(* C155 is false of x*x*, which matches more than x*, and of x{0,n}, which matches more than x{0,1} written n times: for
   every element x that accepts some character and does not accept another. *)
Theorem C155_star_refuted : forall x e a y, single x e -> fragment x -> accepts e a -> ~ accepts e y -> valid_rune a -> valid_rune y ->
  ~ interchangeable ((x ++ star) ++ x ++ star) (x ++ star).
Proof.
  intros x e a y S1 F A Y Va Vy I. destruct (star_item x e F S1) as [I1 I2].
  pose proof (interchangeable_matches _ _ _ _ e x [y; y; y; a; a] I (fragment_app _ _ I1 I1) I1
    (sequence_fragment_app _ _ _ _ I2 I2 I1) I2 F S1) as H. cbn [app] in H.
  apply (star_once e a y A Y). refine (proj1 (H _ _) _); [repeat (apply Forall_cons; [assumption|]); apply Forall_nil|cbn; unfold max_int64; lia|]. exact (star_twice e a y A Y).
Qed.
Print Assumptions C155_star_refuted.
Theorem C155_optional_refuted : forall x e a y n, single x e -> fragment x -> accepts e a -> ~ accepts e y -> valid_rune a -> valid_rune y ->
  2 <= n -> fits n -> ~ interchangeable (x ++ between 0 n) (times n (x ++ between 0 1)).
Proof.
  intros x e a y n S1 F A Y Va Vy L Fn I. assert (F0 : fits 0) by (unfold fits, max_int64; lia). assert (F1 : fits 1) by (unfold fits, max_int64; lia).
  destruct (between_item x e 0 n F S1 F0 Fn) as [A1 A2], (between_item x e 0 1 F S1 F0 F1) as [B1 B2].
  destruct (times_item _ _ n B1 B2) as [C1 C2]. rewrite concat_singletons in C2.
  pose proof (interchangeable_matches _ _ _ _ e x [y; a] I A1 C1 A2 C2 F S1) as H.
  apply (optional_each e a y Y n). refine (proj1 (H _ _) _); [repeat (apply Forall_cons; [assumption|]); apply Forall_nil|cbn; unfold max_int64; lia|].
  now apply (optional_many e a y A Y n).
Qed.
Print Assumptions C155_optional_refuted.
Example C155_refuted_nonvacuous : exists b1 b2 b3 b4,
  ParseBre (B "^x*x*x") = Ok b1 /\ Matches b1 (B "yyyxx") = true /\ ParseBre (B "^x*x") = Ok b2 /\ Matches b2 (B "yyyxx") = false /\
  ParseBre (B "^x{0,2}x") = Ok b3 /\ Matches b3 (B "yx") = true /\ ParseBre (B "^x{0,1}x{0,1}x") = Ok b4 /\ Matches b4 (B "yx") = false.
Proof. do 4 eexists. repeat split; vm_compute; reflexivity. Qed.
