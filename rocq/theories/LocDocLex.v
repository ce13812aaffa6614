(* The lexer on well-formed locale definitions: which tokens it sends. *)
From Verif Require Import GoBase GoFacts Utf8Facts RuneFacts LocYaccModel LocaleModel LocLexModel LocDocSpec.
Local Open Scope Z_scope.

Definition tk (t : Z) (v : bytes) : token := {| t_type := t; t_value := v |}.
(* between two tokens *)
Definition fresh (r : bytes) (l : list token) : lx := {| cur := []; rest := r; rew := []; sent := l |}.

Definition low (c : ascii) : Prop := (byte_val c < 128)%N.

Lemma decode_low : forall c r, low c -> decode_rune (c :: r) = (byte_val c, 1%nat).
Proof.
  intros c r H. unfold decode_rune. unfold low in H. apply N.ltb_lt in H. now rewrite H.
Qed.

Lemma next_low : forall c r u w l, low c -> next {| cur := u; rest := c :: r; rew := w; sent := l |} =
  (Some (byte_val c), {| cur := c :: u; rest := r; rew := Some (byte_val c) :: w; sent := l |}).
Proof. intros c r u w l H. unfold next. cbn [rest cur rew sent]. now rewrite (decode_low c r H). Qed.

Lemma rewind_low : forall c r u w l, low c -> rewind {| cur := c :: u; rest := r; rew := Some (byte_val c) :: w; sent := l |} =
  {| cur := u; rest := c :: r; rew := w; sent := l |}.
Proof. intros c r u w l H. unfold rewind. cbn [rest cur rew sent]. rewrite encode_ascii by exact H. reflexivity. Qed.

Lemma next_end : forall u w l, next {| cur := u; rest := []; rew := w; sent := l |} =
  (None, {| cur := u; rest := []; rew := None :: w; sent := l |}).
Proof. reflexivity. Qed.

Lemma byte_val_inj : forall a b, byte_val a = byte_val b -> a = b.
Proof. intros a b H. rewrite <- (ascii_of_byte_val a), <- (ascii_of_byte_val b). now rewrite H. Qed.

Lemma has_in : forall chars c, has chars (Some (byte_val c)) = true <-> In c chars.
Proof.
  intros chars c. cbn [has]. rewrite existsb_exists. split.
  - intros (x & I & E). apply N.eqb_eq, byte_val_inj in E. now subst.
  - intros I. exists c. split; [exact I|apply N.eqb_refl].
Qed.
Lemma has_not : forall chars c, has chars (Some (byte_val c)) = false <-> ~ In c chars.
Proof. intros chars c. rewrite <- not_true_iff_false. now rewrite has_in. Qed.

(* what Take stops at *)
Definition stops (chars r : bytes) : Prop := match r with [] => True | c :: _ => low c /\ ~ In c chars end.

Lemma take_stop : forall chars fuel r u w l, stops chars r ->
  take_from fuel chars {| cur := u; rest := r; rew := w; sent := l |} = {| cur := u; rest := r; rew := w; sent := l |}.
Proof.
  intros chars fuel r u w l H. destruct r as [|c r].
  - destruct fuel; cbn [take_from]; rewrite next_end; reflexivity.
  - destruct H as [L N]. destruct fuel; cbn [take_from]; rewrite (next_low _ _ _ _ _ L); [now rewrite rewind_low|].
    apply has_not in N. rewrite N. now rewrite rewind_low.
Qed.

Lemma take_from_all : forall chars v fuel r u w l, Forall low chars -> Forall (fun c => In c chars) v -> stops chars r ->
  (List.length v <= fuel)%nat ->
  take_from fuel chars {| cur := u; rest := v ++ r; rew := w; sent := l |} =
  {| cur := rev v ++ u; rest := r; rew := rev (map (fun c => Some (byte_val c)) v) ++ w; sent := l |}.
Proof.
  intros chars v. induction v as [|c v IH]; intros fuel r u w l L F S1 Le; cbn [app rev map].
  - now apply take_stop.
  - destruct fuel as [|fuel]; [cbn [List.length] in Le; lia|]. cbn [take_from].
    inversion F as [|? ? I F']; subst. rewrite next_low by exact (proj1 (Forall_forall _ _) L c I).
    rewrite (proj2 (has_in chars c) I). rewrite IH by (auto; cbn [List.length] in Le; lia). now rewrite <- !app_assoc.
Qed.

Lemma take_all : forall chars v r u w l, Forall low chars -> Forall (fun c => In c chars) v -> stops chars r ->
  take chars {| cur := u; rest := v ++ r; rew := w; sent := l |} =
  {| cur := rev v ++ u; rest := r; rew := rev (map (fun c => Some (byte_val c)) v) ++ w; sent := l |}.
Proof. intros. apply take_from_all; auto. cbn [rest]. rewrite app_length. lia. Qed.

Lemma take_none : forall chars r l, stops chars r -> take chars (fresh r l) = fresh r l.
Proof. intros. now apply take_stop. Qed.

(* deciding facts about closed character sets *)
Definition lowb (c : ascii) : bool := (byte_val c <? 128)%N.
Lemma lows : forall l, forallb lowb l = true -> Forall low l.
Proof. intros l H. apply Forall_forall. intros c I. apply N.ltb_lt. exact (proj1 (forallb_forall _ _) H c I). Qed.
Definition within (chars v : bytes) : bool := forallb (fun c => existsb (Ascii.eqb c) chars) v.
Lemma in_b : forall c l, existsb (Ascii.eqb c) l = true <-> In c l.
Proof.
  intros c l. rewrite existsb_exists. split.
  - intros (x & I & E). apply Ascii.eqb_eq in E. now subst.
  - intros I. exists c. split; [exact I|apply Ascii.eqb_refl].
Qed.
Lemma withins : forall chars v, within chars v = true <-> Forall (fun c => In c chars) v.
Proof.
  intros chars v. unfold within. rewrite forallb_forall, Forall_forall. split; intros H c I; apply in_b, H, I.
Qed.
Lemma stops_b : forall chars c r, lowb c && negb (existsb (Ascii.eqb c) chars) = true -> stops chars (c :: r).
Proof.
  intros chars c r H. apply andb_true_iff in H. destruct H as [H1 H2]. split; [now apply N.ltb_lt|].
  intros I. apply in_b in I. rewrite I in H2. discriminate H2.
Qed.

(* ---- words ---- *)
Definition word_toks (t : Z) (v : bytes) (r : bytes) (l : list token) := fresh r (tk t v :: l).

Lemma take_emit : forall chars t v r l, Forall low chars -> Forall (fun c => In c chars) v -> stops chars r ->
  emit t (take chars (fresh (v ++ r) l)) = fresh r (tk t v :: l) /\ current (take chars (fresh (v ++ r) l)) = v.
Proof.
  intros chars t v r l L F S1. unfold fresh. rewrite take_all by auto. unfold emit, current, fresh, tk. cbn [cur rest sent].
  now rewrite app_nil_r, rev_involutive.
Qed.

Lemma low_white : Forall low whiteSpace. Proof. now apply lows. Qed.
Lemma low_line : Forall low newLine. Proof. now apply lows. Qed.

Lemma white_some : forall v r l, blanks v -> stops whiteSpace r -> grabWhitespace (fresh (v ++ r) l) = Done true (fresh r (tk WHITESPACE v :: l)).
Proof.
  intros v r l [Ne F] S1. unfold grabWhitespace. cbv zeta.
  destruct (take_emit whiteSpace WHITESPACE v r l low_white) as [E C]; [|exact S1|].
  - apply Forall_forall. intros c I. apply (proj1 (Forall_forall _ _) F) in I. cbn. destruct I as [->| ->]; auto.
  - rewrite C, E. destruct v as [|c v]; [congruence|]. reflexivity.
Qed.
Lemma white_none : forall r l, stops whiteSpace r -> grabWhitespace (fresh r l) = Done false (fresh r l).
Proof. intros r l H. unfold grabWhitespace. cbv zeta. rewrite take_none by exact H. reflexivity. Qed.

(* the end of a line and the empty lines after it: newlines and carriage returns, at least one *)
Definition eol_char (b : bool) : ascii := if b then cr else nl.
Definition lines_end (k : bool * list bool) : bytes := eol_char (fst k) :: map eol_char (snd k).
Definition newlines (k : nat) : bool * list bool := (false, repeat false k).
Lemma newlines_end : forall k, lines_end (newlines k) = repeat nl (S k).
Proof. intros k. unfold lines_end, newlines. cbn [fst snd repeat eol_char]. f_equal. induction k; cbn [repeat map]; [reflexivity|now f_equal]. Qed.
Lemma eol_in : forall b, In (eol_char b) newLine.
Proof. intros []; [right; now left|now left]. Qed.
Lemma newline_some : forall k r l, stops newLine r -> grabNewline (fresh (lines_end k ++ r) l) = Done true (fresh r (tk EOL (lines_end k) :: l)).
Proof.
  intros k r l S1. unfold grabNewline. cbv zeta.
  destruct (take_emit newLine EOL (lines_end k) r l low_line) as [E C]; [|exact S1|].
  - constructor; [apply eol_in|]. apply Forall_map, Forall_forall. intros b _. apply eol_in.
  - rewrite C, E. reflexivity.
Qed.
Lemma newline_none : forall r l, stops newLine r -> grabNewline (fresh r l) = Done false (fresh r l).
Proof. intros r l H. unfold grabNewline. cbv zeta. rewrite take_none by exact H. reflexivity. Qed.

Lemma at_yes : forall c, at_char c (Some (byte_val c)) = true.
Proof. intros c. apply has_in. now left. Qed.
Lemma at_no : forall c x, c <> x -> at_char c (Some (byte_val x)) = false.
Proof. intros c x H. apply has_not. intros [E|[]]. now apply H. Qed.

(* ---- symbols ---- *)
Definition name_chars : bytes := upperChars ++ lowerChars ++ B "-" ++ B "_" ++ digits.
Lemma symbol_chars : forall n, symbol_name n -> Forall (fun c => In c name_chars) n.
Proof.
  intros n H. eapply Forall_impl; [|exact H]. intros c I. apply in_b.
  assert (E : forallb (fun c => existsb (Ascii.eqb c) name_chars) (B "ABCDEFGHIJKLMNOPQRSTUVWXYZabcdefghijklmnopqrstuvwxyz0123456789_-") = true)
    by (vm_compute; reflexivity).
  exact (proj1 (forallb_forall _ _) E c I).
Qed.

Lemma grab_symbol : forall n r l, symbol_name n -> grabChar (fresh (bracketed n ++ r) l) = Done true (fresh r (tk CHARSYMBOL (bracketed n) :: l)).
Proof.
  intros n r l H. unfold grabChar, bracketed, fresh. cbn [app]. rewrite <- app_assoc. cbn [app].
  rewrite next_low by reflexivity. rewrite at_yes. cbn [negb]. cbv zeta. fold name_chars.
  rewrite take_all; [|now apply lows|now apply symbol_chars|now apply stops_b].
  rewrite next_low by reflexivity. rewrite at_yes. cbn [negb]. unfold emit, current, tk. cbn [cur rest sent rev].
  rewrite rev_app_distr, rev_involutive. reflexivity.
Qed.

Lemma no_symbol : forall c r l, low c -> c <> "<"%char -> grabChar (fresh (c :: r) l) = Done false (fresh (c :: r) l).
Proof.
  intros c r l L N. unfold grabChar, fresh. rewrite next_low by exact L. rewrite at_no by congruence. cbn [negb].
  now rewrite rewind_low.
Qed.

(* ---- lists ---- *)
Fixpoint joined {A : Type} (sep : A) (l : list (list A)) : list A :=
  match l with
  | [] => []
  | [x] => x
  | x :: l' => x ++ sep :: joined sep l'
  end.
Definition semi : token := tk SEMI (B ";").

(* what a value may be followed by *)
Definition ender (c : ascii) : Prop := In c (nl :: cr :: whiteSpace).
Lemma ender_b : forall P : ascii -> bool, forallb P (nl :: cr :: whiteSpace) = true -> forall c, ender c -> P c = true.
Proof. intros P H c I. exact (proj1 (forallb_forall _ _) H c I). Qed.
Lemma ender_low : forall c, ender c -> low c.
Proof. intros c H. apply N.ltb_lt. now apply (ender_b (fun c => N.ltb (byte_val c) 128)). Qed.
Lemma ender_semi : forall c, ender c -> ";"%char <> c.
Proof. intros c H <-. assert (X := ender_b (fun c => negb (Ascii.eqb c ";")) eq_refl _ H). discriminate X. Qed.

Lemma grab_list : forall (A : Type) (write : A -> bytes) (toks : A -> list token) (ok : A -> Prop) grab fuel items b r l,
  (forall x r l, ok x -> (r = [] \/ exists c r', r = c :: r' /\ (c = ";"%char \/ ender c)) ->
     grab (fresh (write x ++ r) l) = Done true (fresh r (rev (toks x) ++ l))) ->
  items <> [] -> Forall ok items -> (exists c r', r = c :: r' /\ ender c) -> (List.length items <= fuel)%nat ->
  grabList fuel grab b (fresh (join (B ";") (map write items) ++ r) l) =
  Done true (fresh r (rev (joined semi (map toks items)) ++ l)).
Proof.
  intros A write toks ok grab fuel items b r l G Ne F (e & r' & -> & He). revert fuel b l.
  induction items as [|x items IH]; intros fuel b l Le; [congruence|].
  destruct fuel as [|fuel]; [cbn [List.length] in Le; lia|]. inversion F as [|? ? Ox F']; subst. cbn [grabList].
  destruct items as [|y items].
  - cbn [map join joined]. rewrite G by (auto; right; exists e, r'; auto). cbn [bind].
    unfold fresh at 1. rewrite next_low by (now apply ender_low). rewrite at_no by (now apply ender_semi).
    rewrite rewind_low by (now apply ender_low). reflexivity.
  - change (join (B ";") (map write (x :: y :: items))) with (write x ++ B ";" ++ join (B ";") (map write (y :: items))).
    change (joined semi (map toks (x :: y :: items))) with (toks x ++ semi :: joined semi (map toks (y :: items))).
    rewrite <- !app_assoc. rewrite G; [|exact Ox|]. 2:{ right. eexists. eexists. split; [reflexivity|now left]. }
    cbn [bind]. unfold fresh at 1. cbn [B app]. change (B ";") with [";"%char]. cbn [app].
    rewrite next_low by reflexivity. rewrite at_yes.
    match goal with |- context [emit SEMI ?s] => change (emit SEMI s) with (fresh (join (B ";") (map write (y :: items)) ++ e :: r') (semi :: rev (toks x) ++ l)) end.
    change [";"%char] with (B ";"). rewrite IH; [|discriminate|exact F'|cbn [List.length] in *; lia].
    f_equal. f_equal. rewrite rev_app_distr. cbn [rev]. rewrite <- !app_assoc. reflexivity.
Qed.

(* ---- numbers ---- *)
Definition int_chars : bytes := B "-1234567890".
Lemma digit_int : forall c, is_digit c -> In c int_chars /\ c <> "-"%char.
Proof.
  intros c [d H].
  destruct c as [b0 b1 b2 b3 b4 b5 b6 b7]; destruct b0, b1, b2, b3, b4, b5, b6, b7; try discriminate H;
    (split; [apply in_b; reflexivity|discriminate]).
Qed.
Lemma itoa_shape : forall z, exists c t, itoa z = c :: t /\ In c int_chars /\ Forall is_digit t /\ (c = "-"%char -> t <> []).
Proof.
  intros z. unfold itoa. destruct (z <? 0).
  - exists "-"%char, (utoa (Z.to_N (- z))). split; [reflexivity|]. split; [now apply in_b|].
    split; [apply Forall_forall, utoa_digits|]. intros _. apply utoa_nonempty.
  - destruct (utoa (Z.to_N z)) as [|c t] eqn:E; [now destruct (utoa_nonempty (Z.to_N z))|].
    exists c, t. assert (D : Forall is_digit (c :: t)) by (rewrite <- E; apply Forall_forall, utoa_digits).
    inversion D as [|? ? D1 D2]; subst. destruct (digit_int c D1) as [I N]. split; [reflexivity|]. split; [exact I|].
    split; [exact D2|]. intros ->. now destruct N.
Qed.
Lemma grab_int : forall z r l, stops int_chars r -> grabInt (fresh (itoa z ++ r) l) = Done true (fresh r (tk NUMBER (itoa z) :: l)).
Proof.
  intros z r l S1. destruct (itoa_shape z) as (c & t & E & I & D & N). unfold grabInt. cbv zeta. fold int_chars.
  destruct (take_emit int_chars NUMBER (itoa z) r l) as [E1 C]; [now apply lows| |exact S1|].
  - rewrite E. constructor; [exact I|]. eapply Forall_impl; [|exact D]. intros x Hx. exact (proj1 (digit_int x Hx)).
  - rewrite C, E1, E. cbn [tl].
    assert (X : existsb (Ascii.eqb "-") t = false).
    { apply not_true_iff_false. intros X. apply in_b in X. apply (proj1 (Forall_forall _ _) D) in X. now destruct (proj2 (digit_int _ X)). }
    rewrite X, andb_false_r, orb_false_r. replace (beqb (c :: t) []) with false by reflexivity.
    destruct (beqb (c :: t) (B "-")) eqn:Q; [|reflexivity]. apply beqb_eq in Q. change (B "-") with ["-"%char] in Q.
    injection Q as -> ->. now destruct N.
Qed.

(* ---- strings ---- *)
Definition plain_rune (r : N) : Prop := valid_rune r /\ r <> 34%N /\ r <> 10%N /\ r <> 92%N.
Definition glyph_typ (g : glyph) : Z :=
  match g with Single _ | Escaped _ => CHAR | Octal _ _ _ => OCTAL_CHAR | Decimal _ _ _ => DECIMAL_CHAR | Hex _ _ => HEX_CHAR end.
Definition glyph_tok (g : glyph) : token := tk (glyph_typ g) (write_glyph g).
Definition text_toks (s : list glyph) : list token :=
  match s with
  | [] => [tk TWO_DOUBLE_QUOTE_STR [""""%char; """"%char]]
  | _ => tk DQUOTE [""""%char] :: map glyph_tok s ++ [tk DQUOTE [""""%char]]
  end.

Lemma next_rune : forall x r u w l, valid_rune x -> next {| cur := u; rest := encode_rune x ++ r; rew := w; sent := l |} =
  (Some x, {| cur := rev (encode_rune x) ++ u; rest := r; rew := Some x :: w; sent := l |}).
Proof.
  intros x r u w l H. unfold next. cbn [rest cur rew sent]. rewrite (decode_encode x r H).
  destruct (encode_rune x ++ r) as [|c t] eqn:E; [apply app_eq_nil in E; now destruct (encode_nonempty x)|]. rewrite <- E.
  rewrite firstn_app, firstn_all, Nat.sub_diag, firstn_O, app_nil_r. now rewrite skipn_len_app.
Qed.
Lemma rewind_rune : forall x r u w l, rewind {| cur := rev (encode_rune x) ++ u; rest := r; rew := Some x :: w; sent := l |} =
  {| cur := u; rest := encode_rune x ++ r; rew := w; sent := l |}.
Proof.
  intros x r u w l. unfold rewind. cbn [rest cur rew sent]. rewrite <- (rev_length (encode_rune x)).
  rewrite skipn_len_app, firstn_app, firstn_all, Nat.sub_diag, firstn_O, app_nil_r, rev_involutive. reflexivity.
Qed.
Lemma at_rune : forall c x, byte_val c <> x -> at_char c (Some x) = false.
Proof. intros c x H. cbn. apply N.eqb_neq in H. now rewrite H. Qed.

Lemma loop_plain : forall esc rs fuel r l, Forall plain_rune rs -> (List.length rs < fuel)%nat ->
  string_loop fuel esc false (fresh (string_of_runes rs ++ """"%char :: r) l) =
  Done true (fresh r (tk DQUOTE [""""%char] :: rev (map (fun x => tk CHAR (encode_rune x)) rs) ++ l)).
Proof.
  intros esc rs. induction rs as [|x rs IH]; intros fuel r l F Le; (destruct fuel as [|fuel]; [lia|]); cbn [string_loop].
  - change (string_of_runes [] ++ """"%char :: r) with (""""%char :: r). unfold fresh at 1.
    rewrite next_low by reflexivity. rewrite at_yes. reflexivity.
  - inversion F as [|? ? (V & N1 & N2 & N3) F']; subst.
    change (string_of_runes (x :: rs)) with (encode_rune x ++ string_of_runes rs). rewrite <- app_assoc. unfold fresh at 1.
    rewrite next_rune by exact V. rewrite !at_rune by (try (intros <-; apply N1; reflexivity); try (intros <-; apply N2; reflexivity); intros <-; apply N3; reflexivity).
    unfold emit, current. cbn [cur rest sent]. rewrite app_nil_r, rev_involutive.
    change {| cur := []; rest := ?a; rew := []; sent := ?b |} with (fresh a b). rewrite IH; [|exact F'|cbn [List.length] in Le; lia].
    cbn [map rev]. rewrite <- app_assoc. reflexivity.
Qed.

(* characters and escapes *)
Definition rounds (g : glyph) : nat := match g with Single _ => 1 | _ => 2 end.
Definition short (g : glyph) : Prop := match g with Decimal _ _ None => True | _ => False end.
Definition no_digit (r : bytes) : Prop := exists x t, r = encode_rune x ++ t /\ valid_rune x /\ ~ (48 <= x <= 57)%N.

Lemma digit_range : forall c, In c digits -> (48 <= byte_val c <= 57)%N.
Proof.
  intros c I. assert (A : forallb (fun c => (48 <=? byte_val c)%N && (byte_val c <=? 57)%N) digits = true) by reflexivity.
  pose proof (proj1 (forallb_forall _ _) A c I) as K. cbv beta in K. apply andb_true_iff in K. destruct K as [K1 K2].
  apply N.leb_le in K1, K2. lia.
Qed.
Lemma no_digit_has : forall x, ~ (48 <= x <= 57)%N -> has digits (Some x) = false.
Proof.
  intros x H. apply not_true_iff_false. intros X. cbn [has] in X. apply existsb_exists in X. destruct X as (c & I & E).
  apply N.eqb_eq in E. subst. now apply H, digit_range.
Qed.
Lemma among : forall (P : ascii -> bool) l c, forallb P l = true -> In c l -> P c = true.
Proof. intros P l c H I. exact (proj1 (forallb_forall _ _) H c I). Qed.
Lemma octal_digits : forall c, octal_digit c -> In c digits /\ low c /\ ~ In c (B ",;<>").
Proof.
  intros c I. apply (among (fun c => existsb (Ascii.eqb c) digits && lowb c && negb (existsb (Ascii.eqb c) (B ",;<>"))) (B "01234567") c eq_refl) in I.
  apply andb_true_iff in I. destruct I as [I I3]. apply andb_true_iff in I. destruct I as [I1 I2].
  split; [now apply in_b|]. split; [now apply N.ltb_lt|]. intros X. apply in_b in X. now rewrite X in I3.
Qed.
Lemma hex_low : forall c, hex_digit c -> low c.
Proof. intros c I. apply N.ltb_lt. exact (among lowb (B "0123456789ABCDEFabcdef") c eq_refl I). Qed.
Lemma digit_low : forall c, In c digits -> low c.
Proof. intros c I. apply N.ltb_lt. exact (among lowb digits c eq_refl I). Qed.

Lemma loop_glyph : forall esc g f r l, glyph_ok esc g -> (short g -> no_digit r) ->
  string_loop (rounds g + f) esc false (fresh (write_glyph g ++ r) l) = string_loop f esc false (fresh r (glyph_tok g :: l)).
Proof.
  intros esc g f r l O Sh.
  assert (Back : forall t, low (hd nl t) -> t <> [] -> string_loop (2 + f) esc false (fresh ("\"%char :: t) l) =
    bind (grabEscapeInString esc {| cur := ["\"%char]; rest := t; rew := [Some 92%N]; sent := l |}) (fun _ s => string_loop f esc false s)).
  { intros [|c t] Lc Ne; [congruence|]. cbn [hd] in Lc. change (2 + f)%nat with (S (S f)). set (g1 := S f). cbn [string_loop]. unfold fresh.
    rewrite next_low by reflexivity.
    change (at_char """" (Some (byte_val "\"))) with false. change (at_char nl (Some (byte_val "\"))) with false. rewrite at_yes. cbv iota.
    unfold g1. cbn [string_loop]. rewrite next_low by exact Lc. rewrite rewind_low by exact Lc. reflexivity. }
  destruct g as [x|c|a b c|a b c|a b]; cbn [rounds write_glyph app glyph_ok] in *.
  - destruct O as (V & N1 & N2 & N3). cbn [Nat.add string_loop]. unfold fresh at 1.
    rewrite next_rune by exact V. rewrite !at_rune by (try (intros <-; apply N1; reflexivity); try (intros <-; apply N2; reflexivity); intros <-; apply N3; reflexivity).
    unfold emit, current. cbn [cur rest sent]. rewrite app_nil_r, rev_involutive. reflexivity.
  - destruct O as (O & Lc & _). rewrite Back by (try exact Lc; discriminate). unfold grabEscapeInString. rewrite next_low by exact Lc.
    replace (has (B ",;<>") (Some (byte_val c)) || (byte_val c =? esc)%N)%bool with true; [reflexivity|]. symmetry. apply orb_true_iff.
    destruct O as [O|O]; [left; now apply has_in|right; now apply N.eqb_eq].
  - destruct O as (Oa & Ob & Oc & Ne). apply octal_digits in Oa, Ob, Oc. destruct Oa as (Da & La & Na), Ob as (Db & Lb & _), Oc as (Dc & Lc & _).
    rewrite Back by (try exact La; discriminate). unfold grabEscapeInString. rewrite next_low by exact La.
    apply has_not in Na. apply N.eqb_neq in Ne. rewrite Na, Ne. apply has_in in Da. rewrite Da. cbn [orb].
    rewrite next_low by exact Lb. cbn [snd]. rewrite next_low by exact Lc. reflexivity.
  - destruct O as (Oa & Ob & Oc & Ne). rewrite Back by (try reflexivity; discriminate). unfold grabEscapeInString. rewrite next_low by reflexivity.
    change (has (B ",;<>") (Some (byte_val "d"))) with false. change (has digits (Some (byte_val "d"))) with false.
    replace (byte_val "d" =? esc)%N with false by (symmetry; apply N.eqb_neq; intros X; apply Ne; now rewrite <- X).
    rewrite at_yes. cbn [orb]. rewrite next_low by (now apply digit_low). cbn [snd]. rewrite next_low by (now apply digit_low). cbn [snd].
    destruct c as [c|].
    + specialize (Oc c eq_refl). cbn [app]. rewrite next_low by (now apply digit_low). apply has_in in Oc. fold digits in Oc.
      change (B "0123456789") with digits in Oc. rewrite Oc. reflexivity.
    + destruct (Sh I) as (x & t & -> & V & Nd). cbn [app]. rewrite next_rune by exact V. rewrite (no_digit_has x Nd). rewrite rewind_rune. reflexivity.
  - destruct O as (Oa & Ob & Ne). rewrite Back by (try reflexivity; discriminate). unfold grabEscapeInString. rewrite next_low by reflexivity.
    change (has (B ",;<>") (Some (byte_val "x"))) with false. change (has digits (Some (byte_val "x"))) with false.
    change (at_char "d" (Some (byte_val "x"))) with false.
    replace (byte_val "x" =? esc)%N with false by (symmetry; apply N.eqb_neq; intros X; apply Ne; now rewrite <- X).
    rewrite at_yes. cbn [orb]. rewrite next_low by (now apply hex_low). cbn [snd]. rewrite next_low by (now apply hex_low). reflexivity.
Qed.
Lemma rounds_length : forall g, (rounds g <= List.length (write_glyph g))%nat.
Proof.
  intros [r|c|a b c|a b c|a b]; cbn [rounds write_glyph List.length]; try lia. pose proof (encode_nonempty r) as H.
  destruct (encode_rune r); [congruence|cbn [List.length]; lia].
Qed.
Lemma glyph_front : forall esc g t, glyph_ok esc g -> (forall r, g = Single r -> ~ (48 <= r <= 57)%N) -> no_digit (write_glyph g ++ t).
Proof.
  intros esc g t O N.
  assert (Esc : forall u, no_digit ("\"%char :: u)).
  { intros u. exists 92%N, u. split; [reflexivity|]. split; [vm_compute; intuition discriminate|lia]. }
  destruct g as [r|c|a b c|a b c|a b]; try apply Esc. exists r, t. split; [reflexivity|]. split; [exact (proj1 O)|now apply N].
Qed.
Lemma quote_front : forall t, no_digit (""""%char :: t).
Proof. intros t. exists 34%N, t. split; [reflexivity|]. split; [vm_compute; intuition discriminate|lia]. Qed.
Lemma text_front : forall esc g gs t, text_ok esc (g :: gs) -> short g -> no_digit (written gs ++ """"%char :: t).
Proof.
  intros esc g gs t [F A] Sg. destruct gs as [|h gs]; [apply quote_front|]. inversion F as [|? ? _ F1]; subst. inversion F1 as [|? ? Oh _]; subst.
  change (written (h :: gs)) with (write_glyph h ++ written gs). rewrite <- app_assoc. apply (glyph_front esc); [exact Oh|].
  intros r ->. destruct g as [| | |a b [c|]|]; try destruct Sg. exact (proj1 A).
Qed.
Lemma apart_tail : forall g gs, apart (g :: gs) -> apart gs.
Proof. intros g gs H. exact (proj2 H). Qed.
Lemma text_tail : forall esc g gs, text_ok esc (g :: gs) -> glyph_ok esc g /\ text_ok esc gs.
Proof. intros esc g gs [F A]. inversion F; subst. split; [assumption|]. split; [assumption|]. now apply apart_tail in A. Qed.

Lemma loop_text : forall esc gs fuel r l, text_ok esc gs -> (List.length (written gs) < fuel)%nat ->
  string_loop fuel esc false (fresh (written gs ++ """"%char :: r) l) =
  Done true (fresh r (tk DQUOTE [""""%char] :: rev (map glyph_tok gs) ++ l)).
Proof.
  intros esc gs. induction gs as [|g gs IH]; intros fuel r l F Le.
  - destruct fuel as [|fuel]; [lia|]. cbn [string_loop]. change (written [] ++ """"%char :: r) with (""""%char :: r). unfold fresh at 1.
    rewrite next_low by reflexivity. rewrite at_yes. reflexivity.
  - pose proof (text_tail _ _ _ F) as [Og F'].
    change (written (g :: gs)) with (write_glyph g ++ written gs) in *. rewrite app_length in Le. pose proof (rounds_length g).
    rewrite <- app_assoc. replace fuel with (rounds g + (fuel - rounds g))%nat by lia.
    rewrite loop_glyph; [|exact Og|intros Sg; now apply (text_front esc g)].
    rewrite IH by (try exact F'; lia). cbn [map rev]. rewrite <- app_assoc. reflexivity.
Qed.

Lemma first_no_quote : forall esc g gs t, glyph_ok esc g -> exists x, valid_rune x /\ byte_val """" <> x /\
  exists u, written (g :: gs) ++ t = encode_rune x ++ u.
Proof.
  intros esc g gs t O. change (written (g :: gs)) with (write_glyph g ++ written gs). rewrite <- app_assoc. 
  assert (Esc : forall u, exists x, valid_rune x /\ byte_val """" <> x /\ exists v, "\"%char :: u = encode_rune x ++ v).
  { intros u. exists 92%N. split; [vm_compute; intuition discriminate|]. split; [discriminate|]. exists u. reflexivity. }
  destruct g as [r|c|a b c|a b c|a b]; try apply Esc. destruct O as (V & N1 & _). exists r. split; [exact V|].
  split; [intros <-; apply N1; reflexivity|]. now exists (written gs ++ t).
Qed.
Lemma grab_text : forall esc s fuel r l, text_ok esc s -> (List.length (written s) < fuel)%nat ->
  grabString fuel esc (fresh (in_quotes (written s) ++ r) l) = Done true (fresh r (rev (text_toks s) ++ l)).
Proof.
  intros esc s fuel r l F Le. unfold grabString, peek, in_quotes, fresh. cbn [app]. rewrite <- app_assoc. cbn [app].
  rewrite next_low by reflexivity. rewrite rewind_low by reflexivity. rewrite at_yes. cbn [negb]. cbv zeta.
  rewrite next_low by reflexivity. cbn [snd]. destruct s as [|g s].
  - change (written [] ++ """"%char :: r) with (""""%char :: r). rewrite next_low by reflexivity.
    rewrite rewind_low by reflexivity. rewrite at_yes. rewrite next_low by reflexivity. reflexivity.
  - destruct (first_no_quote esc g s (""""%char :: r) (proj1 (text_tail _ _ _ F))) as (x & V & N1 & u & E).
    rewrite E. rewrite next_rune by exact V. rewrite rewind_rune. rewrite at_rune by exact N1. rewrite <- E.
    unfold emit, current. cbn [cur rest sent rev app].
    change {| cur := []; rest := ?a; rew := []; sent := ?b |} with (fresh a b).
    rewrite (loop_text esc (g :: s)); [|exact F|exact Le].
    f_equal. f_equal. unfold text_toks. cbn [rev]. rewrite rev_app_distr. cbn [rev app]. rewrite <- app_assoc. reflexivity.
Qed.

Lemma to_quote_all : forall n s fuel r u w l, (List.length s <= n)%nat -> ~ In """"%char s -> (n < fuel)%nat ->
  exists w', to_quote fuel {| cur := u; rest := s ++ """"%char :: r; rew := w; sent := l |} =
  Done tt {| cur := """"%char :: rev s ++ u; rest := r; rew := Some 34%N :: w'; sent := l |}.
Proof.
  induction n as [|n IH]; intros s fuel r u w l L Q Le; (destruct fuel as [|fuel]; [lia|]); cbn [to_quote].
  - destruct s; [|cbn [List.length] in L; lia]. cbn [app]. rewrite next_low by reflexivity. rewrite at_yes. exists w. reflexivity.
  - destruct s as [|c s].
    + cbn [app]. rewrite next_low by reflexivity. rewrite at_yes. exists w. reflexivity.
    + destruct (decode_rune (c :: s)) as [x k] eqn:D. assert (W : (1 <= k <= List.length (c :: s))%nat) by (now apply (decode_width _ x)).
      assert (E : next {| cur := u; rest := (c :: s) ++ """"%char :: r; rew := w; sent := l |} =
        (Some x, {| cur := rev (firstn k (c :: s)) ++ u; rest := skipn k (c :: s) ++ """"%char :: r; rew := Some x :: w; sent := l |})).
      { unfold next. cbn [rest cur rew sent]. rewrite decode_app by (discriminate || reflexivity). rewrite D.
        rewrite firstn_app, skipn_app. replace (k - List.length (c :: s))%nat with 0%nat by lia. cbn [firstn skipn].
        rewrite app_nil_r. reflexivity. }
      rewrite E. assert (N : byte_val """" <> x).
      { intros <-. destruct (decode_ascii c s _ _ D) as [B1 _]; [reflexivity|]. apply byte_val_inj in B1. apply Q. now left. }
      rewrite at_rune by exact N.
      destruct (IH (skipn k (c :: s)) fuel r (rev (firstn k (c :: s)) ++ u) (Some x :: w) l) as (w' & H).
      * rewrite skipn_length. lia.
      * intros I. apply Q. rewrite <- (firstn_skipn k (c :: s)). apply in_or_app. now right.
      * lia.
      * exists w'. rewrite H. rewrite app_assoc, <- rev_app_distr, firstn_skipn. reflexivity.
Qed.

Definition regexp_toks (s : bytes) : list token := [tk DQUOTE [""""%char]; tk EXTENDED_REG_EXP s; tk DQUOTE [""""%char]].
Lemma grab_regexp : forall s fuel r l, ~ In """"%char s -> (List.length s < fuel)%nat ->
  grabMsg fuel (fresh (in_quotes s ++ r) l) = Done true (fresh r (rev (regexp_toks s) ++ l)).
Proof.
  intros s fuel r l Q Le. unfold grabMsg, in_quotes, fresh. cbn [app]. rewrite <- app_assoc. cbn [app].
  rewrite next_low by reflexivity. rewrite at_yes. cbn [negb]. unfold emit at 1. cbn [cur rest sent].
  destruct (to_quote_all (List.length s) s fuel r [] [] (tk DQUOTE [""""%char] :: l) (Nat.le_refl _) Q Le) as (w' & H).
  change {| t_type := DQUOTE; t_value := current _ |} with (tk DQUOTE [""""%char]). rewrite H. cbn [bind].
  change (Some 34%N) with (Some (byte_val """")). rewrite rewind_low by reflexivity. unfold emit, current. cbn [cur rest sent].
  rewrite next_low by reflexivity. cbn [snd cur rest sent]. rewrite app_nil_r, rev_involutive. reflexivity.
Qed.

(* ---- pairs ---- *)
Definition pair_toks (p : bytes * bytes) : list token :=
  [tk 40 (B "("); tk CHARSYMBOL (bracketed (fst p)); tk 44 (B ","); tk CHARSYMBOL (bracketed (snd p)); tk 41 (B ")")].
Lemma grab_pair : forall p r l, symbol_name (fst p) -> symbol_name (snd p) ->
  grabCharPair (fresh (pair_text p ++ r) l) = Done true (fresh r (rev (pair_toks p) ++ l)).
Proof.
  intros [a b] r l Ha Hb. cbn [fst snd] in *. unfold grabCharPair, pair_text. cbn [fst snd app].
  unfold fresh at 1. rewrite next_low by reflexivity. rewrite at_yes. cbn [negb].
  match goal with |- context [emit 40 {| cur := ?u; rest := ?t; rew := ?w; sent := ?l |}] =>
    change (emit 40 {| cur := u; rest := t; rew := w; sent := l |}) with (fresh t (tk 40 (B "(") :: l)) end.
  rewrite <- !app_assoc. cbn [app]. rewrite grab_symbol by exact Ha. cbn [bind negb].
  unfold fresh at 1. rewrite next_low by reflexivity. rewrite at_yes. cbn [negb].
  match goal with |- context [emit 44 {| cur := ?u; rest := ?t; rew := ?w; sent := ?l |}] =>
    change (emit 44 {| cur := u; rest := t; rew := w; sent := l |}) with (fresh t (tk 44 (B ",") :: l)) end.
  rewrite <- !app_assoc. cbn [app]. rewrite grab_symbol by exact Hb. cbn [bind negb].
  unfold fresh at 1. rewrite next_low by reflexivity. rewrite at_yes. reflexivity.
Qed.

(* ---- values ---- *)
Definition value_toks (v : value) : list token :=
  match v with
  | Text s => text_toks s
  | Texts l => joined semi (map text_toks l)
  | Number z => [tk NUMBER (itoa z)]
  | Numbers l => joined semi (map (fun z => [tk NUMBER (itoa z)]) l)
  | Chars l => joined semi (map (fun n => [tk CHARSYMBOL (bracketed n)]) l)
  | Pairs l => joined semi (map pair_toks l)
  | Regexp s => regexp_toks s
  end.
Definition g_of (sh : shape) : grabber :=
  match sh with
  | a_text | a_full_text => GString
  | full_texts => GStringList
  | a_number => GInt
  | some_numbers => GIntList
  | some_symbols => GCharList
  | some_pairs => GCharPairList
  | a_regexp => GMsg
  end.

Lemma join_length : forall (A : Type) (write : A -> bytes) l, (forall x, write x <> []) -> (List.length l <= List.length (join (B ";") (map write l)))%nat.
Proof.
  intros A write l H. induction l as [|x l IH]; [cbn; lia|]. destruct l as [|y l].
  - cbn [map join List.length]. specialize (H x). destruct (write x); [congruence|cbn [List.length]; lia].
  - change (join (B ";") (map write (x :: y :: l))) with (write x ++ B ";" ++ join (B ";") (map write (y :: l))).
    rewrite !app_length. change (List.length (B ";")) with 1%nat. cbn [List.length] in *. lia.
Qed.
Lemma join_part : forall (A : Type) (write : A -> bytes) l x, In x l -> (List.length (write x) <= List.length (join (B ";") (map write l)))%nat.
Proof.
  intros A write l x I. induction l as [|y l IH]; [destruct I|]. destruct l as [|z l].
  - destruct I as [<-|[]]. cbn [map join]. lia.
  - change (join (B ";") (map write (y :: z :: l))) with (write y ++ B ";" ++ join (B ";") (map write (z :: l))).
    rewrite !app_length. destruct I as [<-|I]; [lia|]. specialize (IH I). lia.
Qed.

Lemma stops_sep : forall chars r, existsb (Ascii.eqb ";") chars = false ->
  forallb (fun c => negb (existsb (Ascii.eqb c) chars)) (nl :: cr :: whiteSpace) = true ->
  r = [] \/ (exists c r', r = c :: r' /\ (c = ";"%char \/ ender c)) -> stops chars r.
Proof.
  intros chars r H1 H2 [->|(c & r' & -> & [->|H])]; [exact I|apply stops_b; now rewrite H1|]. split; [now apply ender_low|].
  intros J. pose proof (ender_b _ H2 c H) as X. cbv beta in X. apply negb_true_iff in X. rewrite <- not_true_iff_false in X. apply X.
  apply existsb_exists. exists c. split; [exact J|apply Ascii.eqb_refl].
Qed.

Lemma grab_value : forall sh v fuel esc r l, fits esc sh v -> (List.length (write_value v) < fuel)%nat -> (exists c r', r = c :: r' /\ ender c) ->
  grab fuel esc (g_of sh) (fresh (write_value v ++ r) l) = Done true (fresh r (rev (value_toks v) ++ l)).
Proof.
  intros sh v fuel esc r l F Le R. destruct sh, v; try (exfalso; exact F); cbn [g_of grab write_value value_toks fits] in *.
  - apply grab_text; [exact F|]. unfold in_quotes in Le. cbn [List.length] in Le. rewrite app_length in Le. lia.
  - apply grab_text; [exact (proj1 F)|]. unfold in_quotes in Le. cbn [List.length] in Le. rewrite app_length in Le. lia.
  - destruct F as [H H0]. apply grab_list with (ok := fun s => In s l0 /\ text_ok esc s); auto.
    + intros x r0 k [I P] _. apply grab_text; [exact P|]. pose proof (join_part _ (fun s => in_quotes (written s)) l0 x I) as H1.
      cbv beta in H1. unfold in_quotes at 1 in H1. cbn [List.length] in H1. rewrite app_length in H1. lia.
    + apply Forall_forall. intros x I. split; [exact I|]. exact (proj1 (proj1 (Forall_forall _ _) H0 x I)).
    + pose proof (join_length _ (fun s => in_quotes (written s)) l0 ltac:(discriminate)). lia.
  - rewrite grab_int; [reflexivity|]. destruct R as (e & r' & -> & He). apply stops_sep; [reflexivity..|]. right. exists e, r'. auto.
  - destruct F as [H H0]. apply grab_list with (ok := fun _ => True); auto.
    + intros x r0 k _ S1. apply grab_int. apply stops_sep; [reflexivity..|exact S1].
    + apply Forall_forall. trivial.
    + pose proof (join_length _ itoa l0 itoa_nonempty). lia.
  - destruct F as [H H0]. apply grab_list with (ok := symbol_name); auto.
    + intros x r0 k O _. now apply grab_symbol.
    + pose proof (join_length _ bracketed l0 ltac:(discriminate)). lia.
  - destruct F as [H H0]. apply grab_list with (ok := fun p => symbol_name (fst p) /\ symbol_name (snd p)); auto.
    + intros x r0 k [O1 O2] _. now apply grab_pair.
    + pose proof (join_length _ pair_text l0 ltac:(discriminate)). lia.
  - apply grab_regexp; [exact (proj1 F)|]. unfold in_quotes in Le. cbn [List.length] in Le. rewrite app_length in Le. lia.
Qed.

(* a line begins with neither a blank nor the end of a line *)
Definition starts (r : bytes) : Prop := match r with [] => False | c :: _ => low c /\ ~ In c (whiteSpace ++ newLine) end.
Lemma starts_white : forall r t, starts r -> stops whiteSpace (r ++ t).
Proof. intros [|c r] t; [now intros []|]. intros [L N]. split; [exact L|]. intros I. apply N. apply in_or_app. now left. Qed.
Lemma starts_line : forall r t, starts r -> stops newLine (r ++ t).
Proof. intros [|c r] t; [now intros []|]. intros [L N]. split; [exact L|]. intros I. apply N. apply in_or_app. now right. Qed.
Lemma starts_b : forall c r, lowb c && negb (existsb (Ascii.eqb c) (whiteSpace ++ newLine)) = true -> starts (c :: r).
Proof. intros c r H. now apply (stops_b (whiteSpace ++ newLine)). Qed.

Lemma starts_join : forall (A : Type) (write : A -> bytes) l, l <> [] -> (forall x, starts (write x)) -> starts (join (B ";") (map write l)).
Proof.
  intros A write [|x l] Ne H; [congruence|]. destruct l as [|y l]; [exact (H x)|].
  change (join (B ";") (map write (x :: y :: l))) with (write x ++ B ";" ++ join (B ";") (map write (y :: l))).
  specialize (H x). destruct (write x); [destruct H|exact H].
Qed.
Lemma int_starts : forall z, starts (itoa z).
Proof.
  intros z. destruct (itoa_shape z) as (c & t & -> & I & _). apply starts_b.
  assert (E : forallb (fun c => lowb c && negb (existsb (Ascii.eqb c) (whiteSpace ++ newLine))) int_chars = true) by reflexivity.
  exact (proj1 (forallb_forall _ _) E c I).
Qed.
Lemma value_starts : forall esc sh v, fits esc sh v -> starts (write_value v).
Proof.
  intros esc sh v F. destruct sh, v; try (exfalso; exact F); cbn [fits] in F; cbn [write_value]; try (now apply starts_b).
  - apply starts_join; [exact (proj1 F)|]. intros x. now apply starts_b.
  - apply int_starts.
  - apply starts_join; [exact (proj1 F)|]. apply int_starts.
  - apply starts_join; [exact (proj1 F)|]. intros x. now apply starts_b.
  - apply starts_join; [exact (proj1 F)|]. intros x. now apply starts_b.
Qed.

(* ---- entries ---- *)
Definition cat (c : lc) : category :=
  match c with
  | Ctype => {| c_name := B "LC_CTYPE"; c_tok := LC_CTYPE_STR; c_defs := ctypeMap |}
  | Monetary => {| c_name := B "LC_MONETARY"; c_tok := LC_MONETARY_STR; c_defs := monetaryMap |}
  | Numeric => {| c_name := B "LC_NUMERIC"; c_tok := LC_NUMERIC_STR; c_defs := numericMap |}
  | Time => {| c_name := B "LC_TIME"; c_tok := LC_TIME_STR; c_defs := timeMap |}
  | Messages => {| c_name := B "LC_MESSAGES"; c_tok := LC_MESSAGES_STR; c_defs := msgMap |}
  end.
Definition kw_typ (c : lc) (k : bytes) : Z := match look_up k (c_defs (cat c)) with Some (t, _) => t | None => 0 end.
Definition word_chars : bytes := upperChars ++ lowerChars ++ B "_".

Definition grabber_eqb (a b : grabber) : bool :=
  match a, b with
  | GCharList, GCharList | GCharPairList, GCharPairList | GIntList, GIntList | GInt, GInt | GString, GString
  | GStringList, GStringList | GMsg, GMsg => true
  | _, _ => false
  end.
Lemma grabber_eqb_eq : forall a b, grabber_eqb a b = true -> a = b.
Proof. intros [] []; auto; discriminate. Qed.

Definition key_ok (c : lc) (sh : shape) (k : bytes) : bool :=
  match look_up k (c_defs (cat c)) with Some (t, g) => grabber_eqb g (g_of sh) | None => false end &&
  within word_chars k && negb (beqb k (B "END")) && negb (beqb k []).
Lemma keys_ok : forallb (fun '(c, sh, ks) => forallb (key_ok c sh) ks) keywords = true.
Proof. vm_compute. reflexivity. Qed.
Lemma key_facts : forall c sh ks k, In (c, sh, ks) keywords -> In k ks ->
  look_up k (c_defs (cat c)) = Some (kw_typ c k, g_of sh) /\ Forall (fun x => In x word_chars) k /\ k <> B "END" /\ k <> [].
Proof.
  intros c sh ks k I1 I2. pose proof (proj1 (forallb_forall _ _) keys_ok _ I1) as H. cbv beta iota in H.
  apply (proj1 (forallb_forall _ _) H) in I2. unfold key_ok in I2. unfold kw_typ.
  destruct (look_up k (c_defs (cat c))) as [[t g]|]; [|discriminate I2]. cbv beta iota in I2.
  apply andb_true_iff in I2. destruct I2 as [I2 A4]. apply andb_true_iff in I2. destruct I2 as [I2 A3].
  apply andb_true_iff in I2. destruct I2 as [A1 A2]. apply grabber_eqb_eq in A1. subst g. split; [reflexivity|].
  split; [now apply withins|]. split; intros ->; discriminate.
Qed.

Definition eol_tok (k : bool * list bool) : token := tk EOL (lines_end k).
Definition entry_toks (c : lc) (e : entry) : list token :=
  tk (kw_typ c (e_key e)) (e_key e) :: tk WHITESPACE (e_gap e) :: value_toks (e_value e).

Lemma low_word : Forall low word_chars. Proof. now apply lows. Qed.
Lemma blanks_stop : forall chars g r, existsb (Ascii.eqb " ") chars = false -> existsb (Ascii.eqb tab) chars = false ->
  blanks g -> stops chars (g ++ r).
Proof.
  intros chars g r H1 H2 [Ne F]. destruct g as [|c g]; [congruence|]. inversion F as [|? ? O _]; subst. cbn [app].
  destruct O as [->| ->]; apply stops_b; [now rewrite H1|now rewrite H2].
Qed.
Lemma word_starts : forall k, k <> [] -> Forall (fun x => In x word_chars) k -> starts k.
Proof.
  intros [|c k] Ne F; [congruence|]. inversion F as [|? ? I _]; subst. apply starts_b.
  assert (E : forallb (fun c => lowb c && negb (existsb (Ascii.eqb c) (whiteSpace ++ newLine))) word_chars = true) by reflexivity.
  exact (proj1 (forallb_forall _ _) E c I).
Qed.

Lemma call_entry : forall c e fuel esc k r l, entry_ok esc c e -> stops newLine r -> (List.length (write_entry e) < fuel)%nat ->
  call fuel esc (SGeneric (cat c)) (fresh (write_entry e ++ lines_end k ++ r) l) =
  Done (Some (SGeneric (cat c))) (fresh r (rev (entry_toks c e ++ [eol_tok k]) ++ l)).
Proof.
  intros c [key gap v] fuel esc k r l (Bl & sh & ks & I1 & I2 & F) S1 Le. unfold write_entry in *. cbn [e_key e_gap e_value] in *.
  destruct (key_facts _ _ _ _ I1 I2) as (L & W & NE & Ne). cbn [call]. unfold sGeneric. rewrite <- !app_assoc.
  rewrite white_none by (apply starts_white, word_starts; assumption). cbn [bind]. cbv zeta. fold word_chars.
  destruct (take_emit word_chars (kw_typ c key) key (gap ++ write_value v ++ lines_end k ++ r) l low_word W) as [E C];
    [now apply blanks_stop|].
  rewrite C. apply beqb_neq in NE. rewrite NE, L, E. unfold must at 1.
  rewrite white_some; [|exact Bl|apply starts_white; now apply (value_starts esc sh)]. cbn [bind]. unfold must at 1.
  rewrite grab_value; [|exact F|rewrite !app_length in Le; lia|eexists; eexists; split; [reflexivity|destruct (fst k); [right; now left|now left]]]. cbn [bind]. unfold must at 1.
  rewrite newline_some by exact S1. cbn [bind]. f_equal. f_equal. unfold entry_toks. cbn [e_key e_gap e_value app rev].
  rewrite rev_app_distr. cbn [rev app]. rewrite <- !app_assoc. reflexivity.
Qed.

Lemma cat_name : forall c, c_name (cat c) = lc_name c. Proof. intros []; reflexivity. Qed.
Lemma low_upper : Forall low upperChars. Proof. now apply lows. Qed.
Lemma name_upper : forall c, Forall (fun x => In x upperChars) (lc_name c).
Proof. intros []; apply withins; reflexivity. Qed.
Lemma lines_stop : forall chars k r, existsb (Ascii.eqb nl) chars || existsb (Ascii.eqb cr) chars = false -> stops chars (lines_end k ++ r).
Proof.
  intros chars [b k] r H. apply orb_false_iff in H. destruct H as [H1 H2]. unfold lines_end. cbn [fst app]. apply stops_b.
  destruct b; cbn [eol_char]; [now rewrite H2|now rewrite H1].
Qed.

Definition end_toks (typ : Z) (name : bytes) : list token := [tk END_STR (B "END"); tk WHITESPACE (B " "); tk typ name].

Lemma call_end : forall c fuel esc k r l, stops newLine r ->
  call fuel esc (SGeneric (cat c)) (fresh ((B "END " ++ lc_name c) ++ lines_end k ++ r) l) =
  Done (Some SCategory) (fresh r (rev (end_toks (c_tok (cat c)) (lc_name c) ++ [eol_tok k]) ++ l)).
Proof.
  intros c fuel esc k r l S1. cbn [call]. unfold sGeneric. rewrite <- app_assoc.
  rewrite white_none by (apply starts_white, starts_b; reflexivity). cbn [bind]. cbv zeta. fold word_chars.
  change (B "END " ++ lc_name c ++ lines_end k ++ r) with (B "END" ++ (B " " ++ lc_name c ++ lines_end k ++ r)).
  destruct (take_emit word_chars END_STR (B "END") (B " " ++ lc_name c ++ lines_end k ++ r) l low_word) as [E C];
    [now apply withins|now apply stops_b|].
  rewrite C, E. rewrite beqb_refl. unfold must at 1.
  rewrite white_some; [|split; [discriminate|repeat constructor]|apply starts_white; destruct c; now apply starts_b]. cbn [bind].
  destruct (take_emit upperChars (c_tok (cat c)) (lc_name c) (lines_end k ++ r) (tk WHITESPACE (B " ") :: tk END_STR (B "END") :: l) low_upper (name_upper c)) as [E2 C2];
    [now apply lines_stop|].
  rewrite C2, E2, cat_name, beqb_refl. cbn [negb].
  rewrite white_none by (now apply lines_stop). cbn [bind]. unfold must. rewrite newline_some by exact S1. reflexivity.
Qed.

Definition head_toks (typ : Z) (name : bytes) : list token := [tk typ name].

Lemma find_cat : forall c, find (fun x => beqb (lc_name c) (c_name x)) categories = Some (cat c).
Proof. intros []; reflexivity. Qed.
Lemma call_head : forall c fuel esc k r l, stops newLine r ->
  call fuel esc SCategory (fresh (lc_name c ++ lines_end k ++ r) l) =
  Done (Some (SGeneric (cat c))) (fresh r (rev (head_toks (c_tok (cat c)) (lc_name c) ++ [eol_tok k]) ++ l)).
Proof.
  intros c fuel esc k r l S1. cbn [call]. unfold sCategory. cbv zeta.
  destruct (take_emit (upperChars ++ B "_") (c_tok (cat c)) (lc_name c) (lines_end k ++ r) l) as [E C];
    [now apply lows|eapply Forall_impl; [|apply name_upper]; intros x H; apply in_or_app; now left|now apply lines_stop|].
  rewrite C. replace (beqb (lc_name c) (B "LC_COLLATE")) with false by (destruct c; reflexivity).
  rewrite find_cat. cbn [option_map]. rewrite E. rewrite take_none by (now apply lines_stop). unfold must.
  rewrite newline_some by exact S1. reflexivity.
Qed.

(* ---- LC_COLLATE ---- *)
Lemma call_collate_head : forall fuel esc k r l, stops newLine r ->
  call fuel esc SCategory (fresh (B "LC_COLLATE" ++ lines_end k ++ r) l) =
  Done (Some SCollate) (fresh r (rev (head_toks LC_COLLATE_STR (B "LC_COLLATE") ++ [eol_tok k]) ++ l)).
Proof.
  intros fuel esc k r l S1. cbn [call]. unfold sCategory. cbv zeta.
  destruct (take_emit (upperChars ++ B "_") LC_COLLATE_STR (B "LC_COLLATE") (lines_end k ++ r) l) as [E C];
    [now apply lows|now apply withins|now apply lines_stop|].
  rewrite C, beqb_refl, E. rewrite take_none by (now apply lines_stop). unfold must.
  rewrite newline_some by exact S1. reflexivity.
Qed.
Lemma call_collate_end : forall fuel esc k r l, stops newLine r ->
  call fuel esc SCollate (fresh (B "END LC_COLLATE" ++ lines_end k ++ r) l) =
  Done (Some SCategory) (fresh r (rev (end_toks LC_COLLATE_STR (B "LC_COLLATE") ++ [eol_tok k]) ++ l)).
Proof.
  intros fuel esc k r l S1. cbn [call]. unfold sCollate.
  rewrite white_none by (apply starts_white, starts_b; reflexivity). cbn [bind]. cbv zeta. fold word_chars.
  change (B "END LC_COLLATE" ++ lines_end k ++ r) with (B "END" ++ (B " " ++ B "LC_COLLATE" ++ lines_end k ++ r)).
  destruct (take_emit word_chars END_STR (B "END") (B " " ++ B "LC_COLLATE" ++ lines_end k ++ r) l low_word) as [E C];
    [now apply withins|now apply stops_b|].
  rewrite C, E. rewrite beqb_refl. unfold must at 1.
  rewrite white_some; [|split; [discriminate|repeat constructor]|apply starts_white; now apply starts_b]. cbn [bind].
  destruct (take_emit upperChars LC_COLLATE_STR (B "LC_COLLATE") (lines_end k ++ r) (tk WHITESPACE (B " ") :: tk END_STR (B "END") :: l) low_upper) as [E2 C2];
    [now apply withins|now apply lines_stop|].
  rewrite C2, E2, beqb_refl. cbn [negb]. rewrite newline_some by exact S1. reflexivity.
Qed.
Lemma call_order_start : forall fuel esc r l, stops word_chars r ->
  call fuel esc SCollate (fresh (B "order_start" ++ r) l) = Done (Some SOrderStart) (fresh r (tk ORDER_START_STR (B "order_start") :: l)).
Proof.
  intros fuel esc r l S1. cbn [call]. unfold sCollate.
  rewrite white_none by (apply starts_white, starts_b; reflexivity). cbn [bind]. cbv zeta. fold word_chars.
  destruct (take_emit word_chars ORDER_START_STR (B "order_start") r l low_word) as [E C];
    [now apply withins|exact S1|].
  rewrite C, E. reflexivity.
Qed.
Lemma low_lower : Forall low lowerChars. Proof. now apply lows. Qed.
Definition dir_typ (w : bytes) : Z := if beqb w (B "forward") then FORWARD_STR else if beqb w (B "backward") then BACKWARD_STR else POSITION_STR.
Lemma call_direction : forall fuel esc g w k r l, blanks g -> In w [B "forward"; B "backward"; B "position"] ->
  call fuel esc SOrderStart (fresh (g ++ w ++ lines_end k ++ r) l) =
  Done (Some SOrderStart) (fresh (lines_end k ++ r) (tk (dir_typ w) w :: tk WHITESPACE g :: l)).
Proof.
  intros fuel esc g w k r l Bl I. cbn [call]. unfold sOrderStart.
  rewrite white_some; [|exact Bl|apply starts_white; cbn [In] in I; destruct I as [<-|[<-|[<-|[]]]]; now apply starts_b].
  cbn [bind]. cbv zeta.
  destruct (take_emit lowerChars (dir_typ w) w (lines_end k ++ r) (tk WHITESPACE g :: l) low_lower) as [E C];
    [cbn [In] in I; destruct I as [<-|[<-|[<-|[]]]]; now apply withins|now apply lines_stop|].
  rewrite C. cbn [In] in I. destruct I as [<-|[<-|[<-|[]]]]; exact (f_equal (Done (Some SOrderStart)) E).
Qed.
Lemma call_order_line : forall fuel esc k r l, stops newLine r ->
  call fuel esc SOrderStart (fresh (lines_end k ++ r) l) = Done (Some SOrder) (fresh r (eol_tok k :: l)).
Proof.
  intros fuel esc k r l S1. cbn [call]. unfold sOrderStart. rewrite white_none by (now apply lines_stop). cbn [bind]. cbv zeta.
  rewrite take_none by (now apply lines_stop). unfold must. rewrite newline_some by exact S1. reflexivity.
Qed.
Lemma call_symbol : forall fuel esc n k r l, symbol_name n -> stops newLine r ->
  call fuel esc SOrder (fresh (bracketed n ++ lines_end k ++ r) l) = Done (Some SOrder) (fresh r (eol_tok k :: tk CHARSYMBOL (bracketed n) :: l)).
Proof.
  intros fuel esc n k r l N S1. cbn [call]. unfold sOrder. rewrite grab_symbol by exact N. cbn [bind negb]. unfold must.
  rewrite newline_some by exact S1. reflexivity.
Qed.
Lemma call_order_end : forall fuel esc k r l, stops newLine r ->
  call fuel esc SOrder (fresh (B "order_end" ++ lines_end k ++ r) l) = Done (Some SCollate) (fresh r (eol_tok k :: tk ORDER_END_STR (B "order_end") :: l)).
Proof.
  intros fuel esc k r l S1. cbn [call]. unfold sOrder.
  change (B "order_end" ++ lines_end k ++ r) with ("o"%char :: (B "rder_end" ++ lines_end k ++ r)) at 1.
  rewrite no_symbol by (discriminate || reflexivity). cbn [bind negb]. cbv zeta.
  change ("o"%char :: (B "rder_end" ++ lines_end k ++ r)) with (B "order_end" ++ lines_end k ++ r).
  destruct (take_emit lowerChars ORDER_END_STR (B "order_end") (lines_end k ++ r) l low_lower) as [E C];
    [now apply withins|now apply lines_stop|].
  rewrite C, E, beqb_refl. cbn [negb]. unfold must. rewrite newline_some by exact S1. reflexivity.
Qed.
Lemma call_finish : forall fuel esc l, call fuel esc SCategory (fresh [] l) = Done None (fresh [] l).
Proof. reflexivity. Qed.
