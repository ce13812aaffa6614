(* The numbers the lexer of locale definitions sends. *)
From Verif Require Import GoBase GoFacts RuneFacts LocYaccModel LocaleModel LocLexModel LocLexProofs.
Local Open Scope Z_scope.

(* going back over a rune takes away at least what was read for it *)
Lemma decode_encode_length : forall b r w, decode_rune b = (r, w) -> (w <= List.length (encode_rune r))%nat.
Proof.
  intros b r w H. unfold decode_rune in H. destruct b as [|c0 b]; [injection H as <- <-; cbn; lia|].
  assert (L1 : forall r, (1 <= List.length (encode_rune r))%nat).
  { intros x. unfold encode_rune. repeat match goal with |- context [if ?q then _ else _] => destruct q end; cbn [List.length map]; lia. }
  destruct (byte_val c0 <? 128)%N; [injection H as <- <-; apply L1|].
  unfold in_range, cont in H. cbv zeta in H.
  assert (L2 : forall r, (128 <= r)%N -> (2 <= List.length (encode_rune r))%nat).
  { intros x Hx. unfold encode_rune. replace (x <? 128)%N with false by lia.
    repeat match goal with |- context [if ?q then _ else _] => destruct q end; cbn [List.length map]; lia. }
  assert (L3 : forall r, (2048 <= r)%N -> (3 <= List.length (encode_rune r))%nat).
  { intros x Hx. unfold encode_rune. replace (x <? 128)%N with false by lia. replace (x <? 2048)%N with false by lia.
    repeat match goal with |- context [if ?q then _ else _] => destruct q end; cbn [List.length map]; lia. }
  assert (L4 : forall r, (65536 <= r < 1114112)%N -> (4 <= List.length (encode_rune r))%nat).
  { intros x Hx. unfold encode_rune. replace (x <? 128)%N with false by lia. replace (x <? 2048)%N with false by lia.
    replace (x <? 65536)%N with false by lia. replace (x <? 1114112)%N with true by lia. replace ((55296 <=? x) && (x <=? 57343))%N with false by lia.
    cbn [List.length]. lia. }
  destruct (((194 <=? byte_val c0)%N && (byte_val c0 <=? 223)%N)%bool) eqn:E1.
  { destruct b as [|c1 b]; [injection H as <- <-; apply L1|].
    match type of H with (if ?q then _ else _) = _ => destruct q eqn:E2 end; injection H as <- <-; [apply L2; lia|apply L1]. }
  destruct (((224 <=? byte_val c0)%N && (byte_val c0 <=? 239)%N)%bool) eqn:E3.
  { destruct b as [|c1 [|c2 b]]; [injection H as <- <-; apply L1..|].
    match type of H with (if ?q then _ else _) = _ => destruct q eqn:E2 end; injection H as <- <-; [apply L3|apply L1].
    destruct (byte_val c0 =? 224)%N eqn:E4; destruct (byte_val c0 =? 237)%N eqn:E5; lia. }
  destruct (((240 <=? byte_val c0)%N && (byte_val c0 <=? 244)%N)%bool) eqn:E6.
  { destruct b as [|c1 [|c2 [|c3 b]]]; [injection H as <- <-; apply L1..|].
    match type of H with (if ?q then _ else _) = _ => destruct q eqn:E2 end; injection H as <- <-; [apply L4|apply L1].
    destruct (byte_val c0 =? 240)%N eqn:E4; destruct (byte_val c0 =? 244)%N eqn:E5; lia. }
  injection H as <- <-. apply L1.
Qed.

Lemma Forall_skipn : forall A (Q : A -> Prop) n l, Forall Q l -> Forall Q (skipn n l).
Proof. intros A Q n l H. apply Forall_forall. intros x I. apply (proj1 (Forall_forall _ _) H). rewrite <- (firstn_skipn n l). apply in_or_app. now right. Qed.

(* Take adds only characters of the set *)
Lemma take_only : forall chars, Forall (fun c => (byte_val c < 128)%N) chars -> forall fuel s,
  Forall (fun c => In c chars) (cur s) -> Forall (fun c => In c chars) (cur (take_from fuel chars s)).
Proof.
  intros chars A.
  assert (Back : forall s, Forall (fun c => In c chars) (cur s) -> Forall (fun c => In c chars) (cur (rewind (snd (next s))))).
  { intros s H. unfold next. destruct (rest s) as [|c r] eqn:R; [exact H|].
    destruct (decode_rune (c :: r)) as [n k] eqn:D. cbn [snd]. unfold rewind. cbn [rew cur].
    apply decode_encode_length in D as L. pose proof (decode_width (c :: r) n k ltac:(discriminate) D) as W.
    rewrite skipn_app. rewrite skipn_all2 by (rewrite rev_length, firstn_length; lia). cbn [app]. now apply Forall_skipn. }
  induction fuel as [|f IH]; intros s H; cbn [take_from]; specialize (Back s H); destruct (next s) as [r s1] eqn:E; cbn [snd] in Back.
  - exact Back.
  - destruct (has chars r) eqn:Hr; [|exact Back]. apply IH.
    unfold next in E. destruct (rest s) as [|c0 b] eqn:R; [injection E as <- <-; discriminate|].
    destruct (decode_rune (c0 :: b)) as [n k] eqn:D. injection E as <- <-. cbn [cur]. cbn [has] in Hr.
    apply existsb_exists in Hr. destruct Hr as (x & I & Ex). apply N.eqb_eq in Ex. pose proof (proj1 (Forall_forall _ _) A x I) as Lx. cbv beta in Lx.
    destruct (decode_ascii c0 b n k D ltac:(lia)) as [D1 ->]. cbn [firstn rev app]. constructor; [|exact H].
    assert (c0 = x) as ->; [|exact I]. unfold byte_val in *. rewrite <- (ascii_N_embedding c0), <- (ascii_N_embedding x). congruence.
Qed.

Definition number_chars : bytes := B "-1234567890".
Lemma number_low : Forall (fun c => (byte_val c < 128)%N) number_chars.
Proof. repeat constructor. Qed.

Definition number_token (t : token) : Prop := t_type t = NUMBER ->
  Forall (fun c => In c number_chars) (t_value t) /\ t_value t <> [] /\ t_value t <> B "-" /\
  ((List.length (t_value t) <= 2)%nat \/ ~ In "-"%char (tl (t_value t))).

Lemma numbers : forall fuel esc src, Forall number_token (tokens_of (lex fuel esc src)).
Proof.
  intros fuel esc src. set (P := fun s : lx => Forall number_token (sent s)).
  assert (N1 : forall s, P s -> P (snd (next s))).
  { intros s H. unfold P, next in *. destruct (rest s); [exact H|]. destruct (decode_rune _). exact H. }
  assert (N2 : forall s, P s -> P (rewind s)).
  { intros s H. unfold P, rewind in *. destruct (rew s) as [|[r|] w]; exact H. }
  assert (E : ends P (lex fuel esc src)).
  { assert (O : forall l, forallb (fun z => negb (z =? NUMBER)) l = true -> Forall (fun z => z <> NUMBER) l).
    { intros l H. apply Forall_forall. intros z I. apply (proj1 (forallb_forall _ _) H) in I. lia. }
    apply (lex_ends P (fun z => z <> NUMBER)); auto.
    - intros t s Ht H. unfold P in *. cbn [emit sent]. constructor; [|exact H]. intros X. now elim Ht.
    - intros s C H. unfold grabInt. cbv zeta. pose proof (take_ends P N1 N2 number_chars s H) as K.
      pose proof (take_only number_chars number_low (S (List.length (rest s))) s) as F. rewrite C in F. specialize (F (Forall_nil _)).
      change (take (B "-1234567890") s) with (take number_chars s). unfold take in *. set (s1 := take_from _ _ s) in *.
      destruct (beqb (current s1) []) eqn:B1; cbn [ends]; [exact K|].
      destruct (beqb (current s1) (B "-")) eqn:B2; cbn [orb ends]; [exact K|].
      destruct (_ && _)%bool eqn:B3; cbn [ends]; [exact K|].
      unfold P. cbn [emit sent]. constructor; [|exact K]. intros _. cbn [t_value].
      split; [unfold current; now apply Forall_rev|]. split; [intros X; now rewrite X in B1|]. split; [intros X; now rewrite X in B2|].
      apply andb_false_iff in B3. destruct B3 as [B3|B3]; [left; apply Nat.ltb_ge in B3; exact B3|right]. intros I.
      rewrite <- not_true_iff_false in B3. apply B3. apply existsb_exists. exists "-"%char. split; [exact I|reflexivity].
    - intros c I. destruct I as [<-|[<-|[<-|[<-|[<-|[]]]]]]; (split; [discriminate|]); apply (proj1 (Forall_map (fun d : bytes * (Z * grabber) => fst (snd d)) (fun z => z <> NUMBER) _)), O; reflexivity.
    - constructor. }
  unfold P in E. destruct (lex fuel esc src) as [u s|s|s]; cbn [ends tokens_of] in *; now apply Forall_rev.
Qed.
