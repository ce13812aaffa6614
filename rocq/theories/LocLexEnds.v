(* The lexer ends on texts without the category LC_COLLATE, an escape cut short by the end and an open message. *)
From Verif Require Import GoBase GoFacts RuneFacts LocYaccModel LocaleModel LocaleProofs LocLexModel LocLexProofs LocDocSpec LocDocLex LocHangSpec LocNumProofs.
Local Open Scope Z_scope.

(* what is still to be made into tokens *)
Definition pend (s : lx) : bytes := current s ++ rest s.

Lemma pend_next : forall s, pend (snd (next s)) = pend s.
Proof.
  intros s. unfold pend, next, current. destruct (rest s) as [|c r] eqn:E; [reflexivity|].
  destruct (decode_rune (c :: r)) as [n k]. cbn [snd cur rest]. rewrite rev_app_distr, rev_involutive, <- app_assoc. now rewrite firstn_skipn.
Qed.
Lemma pend_rewind : forall s, pend (rewind s) = pend s.
Proof.
  intros s. unfold pend, rewind, current. destruct (rew s) as [|[r|] w]; try reflexivity. cbn [cur rest].
  rewrite (app_assoc (rev (skipn _ _))), <- rev_app_distr, firstn_skipn. reflexivity.
Qed.
Lemma rewind_rest : forall s, exists p, rest (rewind s) = p ++ rest s.
Proof.
  intros s. unfold rewind. destruct (rew s) as [|[r|] w]; [now exists []| |now exists []]. cbn [rest]. eexists. reflexivity.
Qed.
Lemma pend_rewinds : forall n s, pend (rewinds n s) = pend s.
Proof. induction n as [|n IH]; intros s; cbn [rewinds]; [reflexivity|]. now rewrite IH, pend_rewind. Qed.
Lemma pend_take_from : forall f chars s, pend (take_from f chars s) = pend s.
Proof.
  induction f as [|f IH]; intros chars s; cbn [take_from]; pose proof (pend_next s) as N; destruct (next s) as [r s1]; cbn [snd] in N.
  - now rewrite pend_rewind.
  - destruct (has chars r); [now rewrite IH|now rewrite pend_rewind].
Qed.
Lemma pend_take : forall chars s, pend (take chars s) = pend s. Proof. intros. apply pend_take_from. Qed.
Lemma pend_emit : forall t s, pend s = current s ++ pend (emit t s). Proof. reflexivity. Qed.

(* texts *)
Definition inside (w u : bytes) : Prop := exists a b, u = a ++ w ++ b.
Definition good_text (u : bytes) : Prop :=
  (u = [] \/ exists x, u = x ++ [nl]) /\ ~ cut_escape u /\ ~ open_message u.
Lemma good_suffix : forall p u, good_text (p ++ u) -> good_text u.
Proof.
  intros p u (E & N & M). split; [|split].
  - destruct u as [|c u]; [now left|]. right. destruct E as [E|(x & E)]; [destruct p; discriminate E|].
    destruct (exists_last (l := c :: u)) as (y & z & F); [discriminate|]. rewrite F in *. exists y. rewrite app_assoc in E.
    apply app_inj_tail in E. now rewrite (proj2 E).
  - intros (a & c & e & -> & H). apply N. exists (p ++ a), c, e. now rewrite <- !app_assoc.
  - intros (a & k & g & q & -> & H). apply M. exists (p ++ a), k, g, q. now rewrite <- !app_assoc.
Qed.
Lemma outside_suffix : forall w p u, ~ inside w (p ++ u) -> ~ inside w u.
Proof. intros w p u N (a & b & ->). apply N. exists (p ++ a), b. now rewrite <- !app_assoc. Qed.

(* a piece of the lexer ends, with progress if [b] of its result *)
Definition fine {A} (s : lx) (b : A -> bool) (r : lres A) : Prop :=
  match r with
  | Done a s' => exists p, pend s = p ++ pend s' /\ (b a = true -> p <> [])
  | Panicked _ => True
  | Unfinished _ => False
  end.
Definition ok_id (b : bool) : bool := b.
Definition never {A} (_ : A) : bool := false.
Definition always {A} (_ : A) : bool := true.

Lemma fine_same : forall A (b : A -> bool) s s0 r, pend s = pend s0 -> fine s b r -> fine s0 b r.
Proof. intros A b s s0 r E H. destruct r; cbn [fine] in *; try exact H. now rewrite <- E. Qed.
Lemma fine_later : forall A (b : A -> bool) s s0 p r, pend s0 = p ++ pend s -> fine s b r -> fine s0 b r.
Proof.
  intros A b s s0 p r E H. destruct r as [a s'| |]; cbn [fine] in *; try exact H. destruct H as (q & Q & N). exists (p ++ q).
  rewrite E, Q, app_assoc. split; [reflexivity|]. intros X Y. apply app_eq_nil in Y. now apply N.
Qed.
Lemma fine_weak : forall A (b c : A -> bool) s r, (forall a, c a = true -> b a = true) -> fine s b r -> fine s c r.
Proof. intros A b c s r H K. destruct r as [a s'| |]; cbn [fine] in *; try exact K. destruct K as (p & E & N). exists p. split; [exact E|]. auto. Qed.
Lemma fine_after : forall A (b : A -> bool) s s0 p r, pend s0 = p ++ pend s -> p <> [] -> fine s never r -> fine s0 b r.
Proof.
  intros A b s s0 p r E Ne H. destruct r as [a s'| |]; cbn [fine] in *; try exact H. destruct H as (q & Q & N). exists (p ++ q).
  rewrite E, Q, app_assoc. split; [reflexivity|]. intros _ Y. apply app_eq_nil in Y. now apply Ne.
Qed.
Lemma fine_bind : forall A C s (b : A -> bool) (c : C -> bool) (m : lres A) f, fine s b m ->
  (forall a s' p, m = Done a s' -> pend s = p ++ pend s' -> (b a = true -> p <> []) -> fine s c (f a s')) -> fine s c (bind m f).
Proof.
  intros A C s b c m f H K. destruct m as [a s'| |]; cbn [bind fine] in *; [|exact I|contradiction].
  destruct H as (p & E & N). exact (K a s' p eq_refl E N).
Qed.
Lemma fine_must : forall s m, fine s ok_id m -> fine s always (must m).
Proof.
  intros s m H. unfold must. destruct m as [[|] s'| |]; cbn [bind fine] in *; try exact H; exact I.
Qed.

Lemma emit_fine : forall s s0 t, pend s = pend s0 -> current s <> [] -> fine s0 ok_id (Done true (emit t s)).
Proof. intros s s0 t E Ne. exists (current s). rewrite <- E, (pend_emit t). now split. Qed.
Lemma same_fine : forall A (b : A -> bool) s s0 a, pend s = pend s0 -> b a = false -> fine s0 b (Done a s).
Proof. intros A b s s0 a E F. exists []. rewrite <- E. split; [reflexivity|]. congruence. Qed.

Lemma ws_fine : forall s, fine s ok_id (grabWhitespace s).
Proof.
  intros s. unfold grabWhitespace. cbv zeta. pose proof (pend_take whiteSpace s) as E. destruct (beqb _ []) eqn:Q.
  - now apply same_fine.
  - apply emit_fine; [exact E|]. now apply beqb_neq.
Qed.
Lemma nl_fine : forall s, fine s ok_id (grabNewline s).
Proof.
  intros s. unfold grabNewline. cbv zeta. pose proof (pend_take newLine s) as E. destruct (beqb _ []) eqn:Q.
  - now apply same_fine.
  - apply emit_fine; [exact E|]. now apply beqb_neq.
Qed.

(* a character read stays in the current token *)
Lemma read_current : forall s c, at_char c (fst (next s)) = true -> current (snd (next s)) <> [].
Proof.
  intros s c H. unfold next, current in *. destruct (rest s) as [|a r] eqn:E; [discriminate H|].
  destruct (decode_rune (a :: r)) as [n k] eqn:D. cbn [snd cur]. destruct (decode_width (a :: r) n k) as [L _]; [discriminate|exact D|].
  destruct k as [|k]; [lia|]. cbn [firstn rev]. intros X. apply (f_equal (@rev _)) in X. rewrite rev_involutive in X.
  apply app_eq_nil in X. destruct X as [X _]. now apply app_eq_nil in X.
Qed.
Ltac rd s r s' E H := let N := fresh in pose proof (pend_next s) as E; pose proof (read_current s) as H;
  destruct (next s) as [r s']; cbn [fst snd] in E, H.

Lemma char_fine : forall s, fine s ok_id (grabChar s).
Proof.
  intros s. unfold grabChar. rd s r s1 E H. destruct (negb (at_char "<" r)); [apply same_fine; [now rewrite pend_rewind|reflexivity]|].
  cbv zeta. set (cs := upperChars ++ _). pose proof (pend_take cs s1) as E1. rd (take cs s1) r2 s2 E2 H2.
  destruct (negb (at_char ">" r2)) eqn:Q.
  - apply same_fine; [|reflexivity]. rewrite pend_rewinds. congruence.
  - apply emit_fine; [congruence|]. apply (H2 ">"%char). now apply negb_false_iff.
Qed.
Lemma pair_fine : forall s, fine s ok_id (grabCharPair s).
Proof.
  intros s. unfold grabCharPair. rd s r s1 E H. destruct (negb (at_char "(" r)) eqn:Q; [apply same_fine; [now rewrite pend_rewind|reflexivity]|].
  apply negb_false_iff in Q. apply H in Q. apply (fine_after _ _ (emit 40 s1) s (current s1)); [rewrite <- E; apply pend_emit|exact Q|].
  eapply fine_bind; [apply char_fine|]. intros b s2 p _ E2 _. destruct b; cbn [negb]; [|exists p; split; [exact E2|discriminate]].
  rd s2 r3 s3 E3 H3. destruct (negb (at_char "," r3)); [exists p; rewrite pend_rewind, E3; split; [exact E2|discriminate]|].
  apply (fine_later _ _ (emit 44 s3) _ (p ++ current s3)); [rewrite <- app_assoc, <- (pend_emit 44), E3; exact E2|].
  eapply fine_bind; [apply char_fine|]. intros b s4 q _ E4 _. destruct b; cbn [negb]; [|exists q; split; [exact E4|discriminate]].
  rd s4 r5 s5 E5 H5. destruct (negb (at_char ")" r5)); [exists q; rewrite pend_rewind, E5; split; [exact E4|discriminate]|].
  exists (q ++ current s5). rewrite <- app_assoc, <- pend_emit, E5. split; [exact E4|discriminate].
Qed.
Lemma int_fine : forall s, fine s ok_id (grabInt s).
Proof.
  intros s. unfold grabInt. cbv zeta. pose proof (pend_take (B "-1234567890") s) as E. destruct (beqb _ []) eqn:Q.
  - now apply same_fine.
  - match goal with |- fine _ _ (if ?c then _ else _) => destruct c end; [exact I|]. apply emit_fine; [exact E|]. now apply beqb_neq.
Qed.

Lemma shorter : forall (p a b : bytes), a = p ++ b -> (List.length b <= List.length a)%nat.
Proof. intros p a b ->. rewrite app_length. lia. Qed.
Lemma much_shorter : forall (p a b : bytes), a = p ++ b -> p <> [] -> (List.length b < List.length a)%nat.
Proof. intros p a b -> N. rewrite app_length. destruct p; [congruence|]. cbn [List.length]. lia. Qed.

Lemma list_fine : forall (G : lx -> Prop) grab, (forall s s' p, G s -> pend s = p ++ pend s' -> G s') ->
  (forall s, G s -> fine s ok_id (grab s)) ->
  forall fuel ok s, G s -> (List.length (pend s) < fuel)%nat ->
  match grabList fuel grab ok s with Unfinished _ => False | Panicked _ => True
  | Done b s' => exists p, pend s = p ++ pend s' /\ (ok = false -> b = true -> p <> []) end.
Proof.
  intros G grab Gs Hg. induction fuel as [|f IH]; intros ok s Gd Le; [lia|]. cbn [grabList].
  pose proof (Hg s Gd) as F. destruct (grab s) as [b s1| |]; cbn [bind fine] in *; [|exact I|contradiction].
  destruct F as (p & E & N). destruct b.
  - pose proof (N eq_refl) as Ne. rd s1 r s2 E2 H2. destruct (at_char ";" r).
    + assert (E3 : pend s = (p ++ current s2) ++ pend (emit SEMI s2)) by (rewrite <- app_assoc, <- pend_emit, E2; exact E).
      pose proof (Gs _ _ _ Gd E3) as G3. pose proof (much_shorter _ _ _ E3) as L.
      assert (X : p ++ current s2 <> []) by (intros X; apply app_eq_nil in X; now apply Ne). specialize (L X).
      specialize (IH true (emit SEMI s2) G3). destruct (grabList f grab true (emit SEMI s2)) as [b s'| |]; [|exact I|apply IH; lia].
      destruct IH as (q & Q & _); [lia|]. exists ((p ++ current s2) ++ q). rewrite E3, Q, !app_assoc. split; [reflexivity|].
      intros _ _ Y. apply app_eq_nil in Y. now apply X.
    + exists p. rewrite pend_rewind, E2. split; [exact E|]. now intros.
  - exists p. split; [exact E|]. intros -> X. discriminate X.
Qed.

(* in a string *)
Lemma next_text : forall b x c w l, exists r k y, (1 <= k)%nat /\ skipn k (b :: x) = y /\ (List.length y <= List.length x)%nat /\
  next {| cur := c; rest := (b :: x) ++ [nl]; rew := w; sent := l |} =
  (Some r, {| cur := rev (firstn k (b :: x)) ++ c; rest := y ++ [nl]; rew := Some r :: w; sent := l |}) /\
  ((r < 128)%N -> r = byte_val b /\ k = 1%nat).
Proof.
  intros b x c w l. destruct (decode_rune (b :: x)) as [r k] eqn:D. destruct (decode_width (b :: x) r k) as [L1 L2]; [discriminate|exact D|].
  exists r, k, (skipn k (b :: x)). split; [lia|]. split; [reflexivity|]. split; [rewrite skipn_length; cbn [List.length]; lia|]. split.
  - unfold next. cbn [rest cur rew sent]. pose proof (decode_app (b :: x) nl []) as A. rewrite A by (try discriminate; reflexivity).
    cbn [app]. change (b :: x ++ [nl]) with ((b :: x) ++ [nl]). rewrite D. cbv beta iota.
    rewrite firstn_app, skipn_app. replace (k - List.length (b :: x))%nat with 0%nat by lia. cbn [firstn skipn]. now rewrite app_nil_r.
  - intros Lr. destruct (decode_ascii _ _ _ _ D Lr) as [A B]. now split.
Qed.

(* an escape *)
Definition after_escape (x : bytes) (r : lres bool) : Prop :=
  match r with
  | Done _ s' => exists p y l, x = p ++ y /\ p <> [] /\ s' = {| cur := []; rest := y ++ [nl]; rew := []; sent := l |}
  | Panicked _ => True
  | Unfinished _ => False
  end.
Lemma next_in : forall x, x <> [] -> exists r p y, x = p ++ y /\ p <> [] /\ runes_of x = r :: runes_of y /\
  (List.length p <= List.length (encode_rune r))%nat /\ ((r < 128)%N -> exists b, p = [b] /\ r = byte_val b) /\
  forall c w l, next {| cur := c; rest := x ++ [nl]; rew := w; sent := l |} =
  (Some r, {| cur := rev p ++ c; rest := y ++ [nl]; rew := Some r :: w; sent := l |}).
Proof.
  intros [|b x] Ne; [congruence|]. destruct (decode_rune (b :: x)) as [r k] eqn:D.
  destruct (decode_width (b :: x) r k) as [L1 L2]; [discriminate|exact D|].
  exists r, (firstn k (b :: x)), (skipn k (b :: x)). split; [now rewrite firstn_skipn|]. split; [destruct k; [lia|discriminate]|].
  split; [now apply runes_of_step|]. split; [|split].
  - pose proof (decode_encode_length _ _ _ D). rewrite firstn_length. lia.
  - intros Lr. destruct (decode_ascii _ _ _ _ D Lr) as [A ->]. now exists b.
  - intros c w l. unfold next. cbn [rest cur rew sent]. rewrite (decode_app (b :: x) nl []) by (try discriminate; reflexivity).
    cbn [app]. change (b :: x ++ [nl]) with ((b :: x) ++ [nl]). rewrite D. cbv beta iota.
    rewrite firstn_app, skipn_app. replace (k - List.length (b :: x))%nat with 0%nat by lia. cbn [firstn skipn]. now rewrite app_nil_r.
Qed.
Lemma has_low : forall chars r, Forall low chars -> has chars (Some r) = true -> (r < 128)%N /\ exists c, In c chars /\ r = byte_val c.
Proof.
  intros chars r L H. cbn [has] in H. apply existsb_exists in H. destruct H as (c & I & E). apply N.eqb_eq in E.
  pose proof (proj1 (Forall_forall _ _) L c I) as Lc. unfold low in Lc. split; [lia|]. exists c. split; [exact I|congruence].
Qed.
Lemma encode_at_most : forall r, (List.length (encode_rune r) <= 4)%nat.
Proof. intros r. unfold encode_rune. repeat match goal with |- context [if ?q then _ else _] => destruct q end; cbn [List.length map]; lia. Qed.
Lemma tail_escape : forall y, (List.length (runes_of y) <= 1)%nat \/ exists p q z, y = p ++ q ++ z /\ p <> [] /\ q <> [] /\
  forall c w l, exists u v, snd (next (snd (next {| cur := c; rest := y ++ [nl]; rew := w; sent := l |}))) =
    {| cur := rev q ++ rev p ++ c; rest := z ++ [nl]; rew := Some u :: Some v :: w; sent := l |}.
Proof.
  intros y. destruct y as [|b y]; [left; cbn; lia|]. destruct (next_in (b :: y)) as (r & p & y1 & E1 & Np & R1 & _ & _ & N1); [discriminate|].
  destruct y1 as [|b1 y1]; [left; rewrite R1, runes_of_nil; cbn; lia|].
  destruct (next_in (b1 :: y1)) as (r2 & q & y2 & E2 & Nq & R2 & _ & _ & N2); [discriminate|].
  right. exists p, q, y2. split; [congruence|]. split; [exact Np|]. split; [exact Nq|]. intros c w l. rewrite N1. cbn [snd]. rewrite N2. cbn [snd].
  now exists r2, r.
Qed.
Lemma at_low : forall c r, low c -> at_char c (Some r) = true -> r = byte_val c.
Proof. intros c r L H. cbn [at_char has existsb] in H. rewrite orb_false_r in H. apply N.eqb_eq in H. now symmetry. Qed.
Lemma low_digits : Forall low digits. Proof. now apply lows. Qed.
Lemma not_newline : forall chars n, existsb (Ascii.eqb n) chars = false -> low n -> Forall low chars -> has chars (Some (byte_val n)) = false.
Proof.
  intros chars n H Ln Lc. apply not_true_iff_false. intros X. destruct (has_low _ _ Lc X) as (_ & c & I & E). apply byte_val_inj in E. subst c.
  apply in_b in I. congruence.
Qed.

Lemma escape_fine : forall esc x w l, esc <> 10%N -> ~ cut_escape ("\"%char :: x ++ [nl]) ->
  after_escape ("\"%char :: x)
    (grabEscapeInString esc (rewind (snd (next {| cur := ["\"%char]; rest := x ++ [nl]; rew := w; sent := l |})))).
Proof.
  intros esc x w l Ne Nc. destruct x as [|b0 x0].
  - cbn [app]. rewrite next_low by reflexivity. cbn [snd]. rewrite rewind_low by reflexivity. unfold grabEscapeInString. rewrite next_low by reflexivity.
    change (has (B ",;<>") (Some (byte_val nl))) with false. change (has digits (Some (byte_val nl))) with false.
    change (at_char "d" (Some (byte_val nl))) with false. change (at_char "x" (Some (byte_val nl))) with false.
    replace (byte_val nl =? esc)%N with false by (symmetry; apply N.eqb_neq; change (byte_val nl) with 10%N; congruence). exact I.
  - set (x := b0 :: x0) in *. assert (Nx : x <> []) by discriminate. clearbody x. clear b0 x0.
    destruct (next_in x Nx) as (r & p & y & Ex & Np & Rx & Lp & Lw & N1). rewrite N1. cbn [snd].
    unfold rewind. cbn [rew cur rest sent].
    destruct (Nat.eq_dec (List.length p) (List.length (encode_rune r))) as [Eq|Eq].
    + rewrite <- Eq. rewrite <- rev_length at 1. rewrite <- (rev_length p) at 1. rewrite skipn_app, skipn_all, Nat.sub_diag, firstn_app, firstn_all, Nat.sub_diag.
      cbn [skipn firstn app]. rewrite app_nil_r, rev_involutive. rewrite app_assoc, <- Ex. unfold grabEscapeInString. rewrite N1.
      destruct (has (B ",;<>") (Some r) || (r =? esc)%N)%bool.
      * exists ("\"%char :: p), y. eexists. split; [now rewrite Ex|]. split; [discriminate|]. reflexivity.
      * assert (T : In r (map byte_val (B "0123456789dx")) -> exists p1 p2 z, y = p1 ++ p2 ++ z /\ p1 <> [] /\ p2 <> [] /\ (1 <= List.length p)%nat /\
          forall c w l, exists u v, snd (next (snd (next {| cur := c; rest := y ++ [nl]; rew := w; sent := l |}))) =
            {| cur := rev p2 ++ rev p1 ++ c; rest := z ++ [nl]; rew := Some u :: Some v :: w; sent := l |}).
        { intros I. apply in_map_iff in I. destruct I as (c & <- & I).
          assert (Lc : Forall low (B "0123456789dx")) by now apply lows. apply (proj1 (Forall_forall _ _) Lc) in I as Lc'.
          destruct (Lw Lc') as (b & -> & Eb). apply byte_val_inj in Eb. subst b.
          destruct (tail_escape y) as [Y|(p1 & p2 & z & Y)].
          - exfalso. apply Nc. exists [], c, y. split; [now rewrite Ex|]. now split.
          - exists p1, p2, z. destruct Y as (Y1 & Y2 & Y3 & Y4). split; [exact Y1|]. split; [exact Y2|]. split; [exact Y3|]. split; [cbn; lia|exact Y4]. }
        assert (Dg : has digits (Some r) = true -> In r (map byte_val (B "0123456789dx"))).
        { intros H. destruct (has_low _ _ low_digits H) as (_ & c & I & ->). apply in_map.
          change (B "0123456789dx") with (digits ++ B "dx"). apply in_or_app. now left. }
        destruct (has digits (Some r)).
        { destruct (T (Dg eq_refl)) as (p1 & p2 & z & Ey & N2 & N3 & Lp1 & Nn).
          destruct (Nn (rev p ++ ["\"%char]) (Some r :: w) l) as (u & v & Eu). rewrite Eu. exists ("\"%char :: p ++ p1 ++ p2), z. eexists.
          split; [rewrite Ex, Ey; cbn [app]; now rewrite <- !app_assoc|]. split; [discriminate|]. reflexivity. }
        destruct (at_char "d" (Some r)) eqn:Qd.
        { apply at_low in Qd; [|reflexivity].
          destruct (T ltac:(rewrite Qd; apply in_map; apply in_b; reflexivity)) as (p1 & p2 & z & Ey & N2 & N3 & Lp1 & Nn).
          destruct (Nn (rev p ++ ["\"%char]) (Some r :: w) l) as (u & v & Eu). rewrite Eu.
          destruct z as [|z0 zs].
          - cbn [app]. rewrite next_low by reflexivity. change (has digits (Some (byte_val nl))) with false. rewrite rewind_low by reflexivity.
            exists ("\"%char :: p ++ p1 ++ p2), []. eexists. split; [rewrite Ex, Ey; cbn [app]; now rewrite <- !app_assoc|]. split; [discriminate|].
            reflexivity.
          - destruct (next_in (z0 :: zs)) as (r4 & p4 & y4 & E4 & Np4 & _ & Lp4 & _ & N4); [discriminate|]. rewrite N4.
            destruct (has digits (Some r4)).
            + exists ("\"%char :: p ++ p1 ++ p2 ++ p4), y4. eexists.
              split; [rewrite Ex, Ey, E4; cbn [app]; now rewrite <- !app_assoc|]. split; [discriminate|]. reflexivity.
            + unfold rewind. cbn [rew cur rest sent]. set (k := rev p4 ++ rev p2 ++ rev p1 ++ rev p ++ ["\"%char]).
              set (n := List.length (encode_rune r4)).
              exists (rev (skipn n k)), (rev (firstn n k) ++ y4). eexists.
              split; [|split; [|unfold emit; cbn [rest]; rewrite <- app_assoc; reflexivity]].
              * rewrite app_assoc, <- rev_app_distr, firstn_skipn. unfold k. rewrite !rev_app_distr, !rev_involutive. cbn [rev app].
                rewrite Ex, Ey, E4. now rewrite <- !app_assoc.
              * intros X. apply (f_equal (@List.length _)) in X. rewrite rev_length, skipn_length in X. unfold k in X. rewrite !app_length, !rev_length in X.
                cbn [List.length] in X. pose proof (encode_at_most r4) as L4. fold n in L4, Lp4.
                destruct p1; [congruence|]. destruct p2; [congruence|]. destruct p4; [congruence|]. cbn [List.length] in *. lia. }
        destruct (at_char "x" (Some r)) eqn:Qx; [|exact I].
        apply at_low in Qx; [|reflexivity].
        destruct (T ltac:(rewrite Qx; apply in_map; apply in_b; reflexivity)) as (p1 & p2 & z & Ey & N2 & N3 & Lp1 & Nn).
        destruct (Nn (rev p ++ ["\"%char]) (Some r :: w) l) as (u & v & Eu). rewrite Eu. exists ("\"%char :: p ++ p1 ++ p2), z. eexists.
        split; [rewrite Ex, Ey; cbn [app]; now rewrite <- !app_assoc|]. split; [discriminate|]. reflexivity.
    + assert (Ge : (List.length (rev p ++ ["\"%char]) <= List.length (encode_rune r))%nat) by (rewrite app_length, rev_length; cbn [List.length]; lia).
      rewrite skipn_all2, firstn_all2 by exact Ge. rewrite rev_app_distr, rev_involutive. cbn [rev app]. rewrite app_assoc, <- Ex.
      unfold grabEscapeInString. rewrite next_low by reflexivity.
      change (has (B ",;<>") (Some (byte_val "\"))) with false. change (has digits (Some (byte_val "\"))) with false.
      change (at_char "d" (Some (byte_val "\"))) with false. change (at_char "x" (Some (byte_val "\"))) with false.
      destruct (byte_val "\" =? esc)%N; cbn [orb]; [|exact I].
      exists ["\"%char], x. eexists. split; [reflexivity|]. split; [discriminate|]. reflexivity.
Qed.

Lemma string_loop_fine : forall fuel esc x, esc <> 10%N -> ~ cut_escape (x ++ [nl]) -> (2 * List.length x < fuel)%nat -> forall w l,
  fine {| cur := []; rest := x ++ [nl]; rew := w; sent := l |} ok_id
    (string_loop fuel esc false {| cur := []; rest := x ++ [nl]; rew := w; sent := l |}).
Proof.
  intros fuel. induction fuel as [fuel IH] using lt_wf_ind. intros esc x Ne Nc Le w l. destruct fuel as [|f]; [lia|]. cbn [string_loop].
  destruct x as [|b x].
  - cbn [app]. rewrite next_low by reflexivity. exact I.
  - destruct (next_in (b :: x)) as (r & p & y & Ex & Np & _ & _ & Lw & N1); [discriminate|]. rewrite N1. rewrite app_nil_r.
    assert (Ly : (List.length (b :: x) = List.length p + List.length y)%nat) by (rewrite Ex; apply app_length).
    assert (Lp : (1 <= List.length p)%nat) by (destruct p; [congruence|cbn; lia]).
    rewrite Ex in *. clear Ex b x.
    assert (Nc' : forall q z, p ++ y = q ++ z -> ~ cut_escape (z ++ [nl])).
    { intros q z E (a & c & e & E2 & H). apply Nc. exists (q ++ a), c, e. rewrite E, <- app_assoc, E2, <- app_assoc. now split. }
    destruct (at_char """" (Some r)).
    { exists p. split; [unfold pend, current, emit; cbn [cur rest rev app]; now rewrite <- app_assoc|]. intros _. exact Np. }
    destruct (at_char nl (Some r)); [exact I|].
    destruct (at_char "\" (Some r)) eqn:Q.
    + apply at_low in Q; [|reflexivity]. destruct (Lw ltac:(rewrite Q; reflexivity)) as (b & -> & Eb). rewrite Q in Eb. apply byte_val_inj in Eb. subst b.
      destruct f as [|f]; [cbn in Le; lia|]. cbn [string_loop rev app].
      pose proof (escape_fine esc y (Some r :: w) l Ne Nc) as F.
      destruct (next {| cur := ["\"%char]; rest := y ++ [nl]; rew := Some r :: w; sent := l |}) as [r2 s2] eqn:N2. cbn [snd] in F.
      destruct (grabEscapeInString esc (rewind s2)) as [u s3|s3|s3]; cbn [after_escape bind] in *; [|exact I|contradiction].
      destruct F as (q & z & l3 & Eq & Nq & ->).
      apply (fine_after _ _ {| cur := []; rest := z ++ [nl]; rew := []; sent := l3 |} _ q); [|exact Nq|].
      { unfold pend, current. cbn [cur rest rev app]. change ("\"%char :: y ++ [nl]) with (("\"%char :: y) ++ [nl]). now rewrite Eq, <- app_assoc. }
      apply (fine_weak _ ok_id); [discriminate|]. apply IH; [lia|exact Ne|exact (Nc' q z Eq)|].
      apply (f_equal (@List.length _)) in Eq. rewrite app_length in Eq. destruct q; [congruence|]. cbn [List.length] in *. lia.
    + apply (fine_after _ _ {| cur := []; rest := y ++ [nl]; rew := []; sent := {| t_type := CHAR; t_value := rev (rev p) |} :: l |} _ p); [|exact Np|].
      { unfold pend, current. cbn [cur rest rev app]. now rewrite <- app_assoc. }
      apply (fine_weak _ ok_id); [discriminate|]. apply IH; [lia|exact Ne|exact (Nc' p y eq_refl)|]. lia.
Qed.

(* the first quote *)
Lemma peek_quote : forall s r s1, peek s = (r, s1) -> at_char """" r = true ->
  exists t, rest s = """"%char :: t /\ s1 = s.
Proof.
  intros [c t w l] r s1 E Q. unfold peek in E. unfold next in E. cbn [rest cur rew sent] in E.
  destruct t as [|b t]; [injection E as <- _; discriminate Q|]. destruct (decode_rune (b :: t)) as [n k] eqn:D.
  injection E as <- E. cbn [at_char has existsb orb] in Q. rewrite orb_false_r in Q. apply N.eqb_eq in Q.
  destruct (decode_ascii _ _ _ _ D) as [A ->]; [rewrite <- Q; reflexivity|]. rewrite <- Q in A. apply byte_val_inj in A. subst b.
  exists t. split; [reflexivity|]. rewrite <- E, <- Q. reflexivity.
Qed.
Lemma peek_pend : forall s r s1, peek s = (r, s1) -> pend s1 = pend s /\ (rest s <> [] -> rest s1 <> []).
Proof.
  intros s r s1 E. unfold peek in E. pose proof (pend_next s) as P. destruct (next s) as [r' s'] eqn:Q. injection E as _ <-. cbn [snd] in P.
  split; [now rewrite pend_rewind|]. unfold next in Q. destruct (rest s) as [|b t] eqn:R; [congruence|]. intros _.
  destruct (decode_rune (b :: t)) as [n k] eqn:D. injection Q as _ <-. unfold rewind. cbn [rew cur rest].
  destruct (decode_width (b :: t) n k) as [L _]; [discriminate|exact D|].
  destruct k as [|k]; [lia|]. cbn [firstn rev]. pose proof (LocaleProofs.enc_length_pos n) as Le.
  destruct (encode_rune n) as [|e1 er]; [cbn [List.length] in Le; lia|]. cbn [List.length].
  destruct ((rev (firstn k t) ++ [b]) ++ cur s) as [|z zs] eqn:Z.
  - apply app_eq_nil in Z. destruct Z as [Z _]. now apply app_eq_nil in Z.
  - cbn [firstn rev]. rewrite <- app_assoc. intros X. apply app_eq_nil in X. destruct X as [_ X]. discriminate X.
Qed.

Lemma string_fine : forall fuel esc s, esc <> 10%N -> good_text (pend s) -> (2 * List.length (pend s) < fuel)%nat -> fine s ok_id (grabString fuel esc s).
Proof.
  intros fuel esc s Ne G Le. unfold grabString. destruct (peek s) as [r s1] eqn:P1. destruct (peek_pend _ _ _ P1) as [E1 _].
  destruct (negb (at_char """" r)) eqn:Q; [now apply same_fine|]. apply negb_false_iff in Q.
  destruct (peek_quote _ _ _ P1 Q) as (t & R & ->). cbv zeta.
  assert (N1 : next s = (Some (byte_val """"), {| cur := """"%char :: cur s; rest := t; rew := Some (byte_val """") :: rew s; sent := sent s |})).
  { destruct s as [c t0 w l]. cbn [rest cur rew sent] in *. subst t0. now apply next_low. }
  pose proof (pend_next s) as E2. rewrite N1 in *. cbn [snd] in *. set (s2 := {| cur := _; rest := t; rew := _; sent := _ |}) in *.
  destruct (peek s2) as [r3 s3] eqn:P3. destruct (peek_pend _ _ _ P3) as [E3 R3].
  destruct (at_char """" r3) eqn:Q3.
  - destruct (peek_quote _ _ _ P3 Q3) as (t3 & R4 & ->). pose proof (pend_next s2) as E4. apply emit_fine; [congruence|].
    apply (read_current s2 """"%char). cbn [rest s2] in R4. unfold next. cbn [rest s2]. rewrite R4, decode_low by reflexivity. reflexivity.
  - assert (Nt : t <> []).
    { intros ->. destruct G as ([G|(x & G)] & _).
      - rewrite <- E2 in G. unfold pend, current in G. cbn [cur rev s2 rest] in G. rewrite app_nil_r in G. now apply app_eq_nil in G.
      - rewrite <- E2 in G. unfold pend, current in G. cbn [cur rev s2 rest] in G. rewrite app_nil_r in G. apply app_inj_tail in G.
        destruct G as [_ G]. discriminate G. }
    specialize (R3 Nt). assert (Gs : pend s = current s3 ++ rest s3) by (rewrite <- E2, <- E3; reflexivity).
    assert (G3 : good_text (rest s3)) by (apply (good_suffix (current s3)); now rewrite <- Gs).
    destruct G3 as ([X|(x & X)] & Nb & _); [congruence|].
    apply (fine_later _ _ (emit DQUOTE s3) s (current s3)); [exact Gs|]. unfold emit. rewrite X. apply string_loop_fine.
    + exact Ne.
    + now rewrite <- X.
    + apply (f_equal (@List.length _)) in Gs. rewrite X, !app_length in Gs. cbn [List.length] in Gs. lia.
Qed.

(* a message *)
Lemma to_quote_fine : forall fuel s, In """"%char (rest s) -> (List.length (rest s) < fuel)%nat ->
  exists s', to_quote fuel s = Done tt s' /\ pend s' = pend s /\ rew s' <> [] /\ exists w r, rew s' = Some (byte_val """") :: w /\ cur s' = """"%char :: r.
Proof.
  induction fuel as [|f IH]; intros s I Le; [lia|]. cbn [to_quote]. pose proof (pend_next s) as E. pose proof (read_current s) as _.
  apply in_split in I. destruct I as (a & b & Er).
  assert (A : exists a' b', rest s = a' ++ """"%char :: b' /\ ~ In """"%char a').
  { destruct (in_dec ascii_dec """"%char (rest s)) as [I|N]; [|exfalso; apply N; rewrite Er; apply in_or_app; right; now left].
    clear -I. induction (rest s) as [|c t IH]; [destruct I|]. destruct (ascii_dec c """") as [->|N]; [exists [], t; split; [reflexivity|intros []]|].
    destruct I as [I|I]; [congruence|]. destruct (IH I) as (a' & b' & -> & N'). exists (c :: a'), b'. split; [reflexivity|]. intros [J|J]; [congruence|now apply N']. }
  clear a b Er. destruct A as (a & b & Er & Na). destruct s as [c t w l]. cbn [rest cur rew sent] in *. subst t. destruct a as [|x a].
  - cbn [app] in *. rewrite next_low in * by reflexivity. cbn [snd] in E. change (at_char """" (Some (byte_val """"))) with true. cbv iota.
    eexists. split; [reflexivity|]. split; [exact E|]. split; [discriminate|]. do 2 eexists. split; reflexivity.
  - unfold next in *. cbn [rest cur rew sent app] in *. change (x :: a ++ """"%char :: b) with ((x :: a) ++ """"%char :: b) in *.
    rewrite (decode_app (x :: a)) in * by (try discriminate; reflexivity). destruct (decode_rune (x :: a)) as [r k] eqn:D.
    destruct (decode_width (x :: a) r k) as [L1 L2]; [discriminate|exact D|]. cbn [snd] in E.
    destruct (at_char """" (Some r)) eqn:Q.
    + exfalso. apply at_low in Q; [|reflexivity]. destruct (decode_ascii _ _ _ _ D) as [A _]; [rewrite Q; reflexivity|]. rewrite Q in A.
      apply byte_val_inj in A. apply Na. left. now symmetry.
    + rewrite skipn_app in *. replace (k - List.length (x :: a))%nat with 0%nat in * by lia. cbn [skipn] in *.
      destruct (IH {| cur := rev (firstn k ((x :: a) ++ """"%char :: b)) ++ c; rest := skipn k (x :: a) ++ """"%char :: b; rew := Some r :: w; sent := l |})
        as (s' & E1 & E2 & E3); cbn [rest].
      * apply in_or_app. right. now left.
      * rewrite app_length, skipn_length in *. cbn [List.length] in *. lia.
      * exists s'. split; [exact E1|]. split; [congruence|exact E3].
Qed.
Lemma msg_fine : forall fuel s, cur s = [] -> (forall q, rest s = """"%char :: q -> In """"%char q) -> (List.length (pend s) < fuel)%nat ->
  fine s ok_id (grabMsg fuel s).
Proof.
  intros fuel [c t w l] C H Le. cbn [cur rest] in *. subst c. unfold grabMsg. destruct t as [|b t].
  - apply same_fine; reflexivity.
  - pose proof (pend_next {| cur := []; rest := b :: t; rew := w; sent := l |}) as E. rewrite <- E in Le.
    destruct (decode_rune (b :: t)) as [r k] eqn:D.
    assert (Nx : next {| cur := []; rest := b :: t; rew := w; sent := l |} =
      (Some r, {| cur := rev (firstn k (b :: t)) ++ []; rest := skipn k (b :: t); rew := Some r :: w; sent := l |}))
      by (unfold next; cbn [rest cur rew sent]; now rewrite D).
    rewrite Nx in *. cbn [snd] in E, Le.
    destruct (negb (at_char """" (Some r))) eqn:Q; [apply same_fine; [now rewrite pend_rewind|reflexivity]|].
    apply negb_false_iff, at_low in Q; [|reflexivity]. destruct (decode_ascii _ _ _ _ D) as [A ->]; [rewrite Q; reflexivity|]. rewrite Q in A.
    apply byte_val_inj in A. subst b r. cbn [firstn skipn rev app] in *. specialize (H t eq_refl).
    unfold pend, current in Le. cbn [cur rev rest app] in Le.
    destruct (to_quote_fine fuel (emit DQUOTE {| cur := [""""%char]; rest := t; rew := Some (byte_val """") :: w; sent := l |})) as (s' & E1 & E2 & _ & w' & q' & E3 & E4).
    + exact H.
    + unfold emit. cbn [rest]. cbn [List.length] in Le. lia.
    + rewrite E1. cbn [bind]. destruct s' as [c' t' w2 l']. cbn [rew cur] in E3, E4. subst w2 c'. rewrite rewind_low by reflexivity.
      exists (""""%char :: rev q' ++ [""""%char]). split; [|discriminate]. unfold emit in *. cbn [rest sent]. rewrite next_low by reflexivity.
      unfold pend, current in *. cbn [snd cur rest rev app] in *. rewrite <- app_assoc. cbn [app]. rewrite <- E2. rewrite <- app_assoc. reflexivity.
Qed.

(* what take has taken is made of its characters *)
Lemma take_from_chars : forall chars, Forall low chars -> forall f s, Forall (fun c => In c chars) (cur s) ->
  Forall (fun c => In c chars) (cur (take_from f chars s)).
Proof.
  intros chars L.
  assert (R : forall s, Forall (fun c => In c chars) (cur s) -> Forall (fun c => In c chars) (cur (rewind (snd (next s))))).
  { intros s F. unfold next. destruct (rest s) as [|b t]; [exact F|]. destruct (decode_rune (b :: t)) as [r k] eqn:D. cbn [snd]. unfold rewind. cbn [rew cur].
    pose proof (decode_encode_length _ _ _ D) as Ln. rewrite skipn_app. rewrite skipn_all2 by (rewrite rev_length, firstn_length; lia).
    cbn [app]. now apply Forall_skipn. }
  induction f as [|f IH]; intros s F; cbn [take_from]; specialize (R s F); destruct (next s) as [r s1] eqn:N; cbn [snd] in R; [exact R|].
  destruct (has chars r) eqn:H; [|exact R]. apply IH. unfold next in N. destruct (rest s) as [|b t]; [injection N as <- <-; discriminate H|].
  destruct (decode_rune (b :: t)) as [r0 k] eqn:D. injection N as <- <-. destruct (has_low _ _ L H) as (Lr & c & I & E).
  destruct (decode_ascii _ _ _ _ D Lr) as [A ->]. rewrite E in A. apply byte_val_inj in A. subst b. cbn [cur firstn rev app]. now constructor.
Qed.
Lemma ws_blanks : forall s s', cur s = [] -> grabWhitespace s = Done true s' -> exists g, blanks g /\ rest s = g ++ rest s' /\ cur s' = [].
Proof.
  intros s s' C H. unfold grabWhitespace in H. cbv zeta in H. pose proof (pend_take whiteSpace s) as E.
  destruct (beqb _ []) eqn:Q; [discriminate H|]. apply beqb_neq in Q. injection H as <-. exists (current (take whiteSpace s)). split; [split; [exact Q|]|split].
  - pose proof (take_from_chars whiteSpace low_white (S (List.length (rest s))) s) as F. rewrite C in F. specialize (F (Forall_nil _)).
    unfold current, take. apply Forall_rev. eapply Forall_impl; [|exact F]. intros c [<-|[<-|[]]]; auto.
  - unfold pend, current in *. rewrite C in E. cbn [rev app] in E. cbn [emit rest]. now symmetry.
  - reflexivity.
Qed.

Lemma grab_fine : forall fuel esc g s, (g = GMsg -> cur s = [] /\ forall q, rest s = """"%char :: q -> In """"%char q) -> esc <> 10%N ->
  good_text (pend s) -> (2 * List.length (pend s) < fuel)%nat -> fine s ok_id (grab fuel esc g s).
Proof.
  intros fuel esc g s Ng Ne G Le.
  assert (L : forall gr, (forall s', good_text (pend s') -> (2 * List.length (pend s') < fuel)%nat -> fine s' ok_id (gr s')) ->
    fine s ok_id (grabList fuel gr false s)).
  { intros gr Hg. pose proof (list_fine (fun s' => good_text (pend s') /\ (2 * List.length (pend s') < fuel)%nat) gr) as K.
    assert (K1 : forall s0 s' p, good_text (pend s0) /\ (2 * List.length (pend s0) < fuel)%nat -> pend s0 = p ++ pend s' ->
      good_text (pend s') /\ (2 * List.length (pend s') < fuel)%nat).
    { intros s0 s' p [A A1] E. split; [apply (good_suffix p); now rewrite <- E|]. apply shorter in E. lia. }
    specialize (K K1 (fun s0 H => Hg s0 (proj1 H) (proj2 H)) fuel false s (conj G Le) ltac:(lia)).
    destruct (grabList fuel gr false s) as [b s'| |]; cbn [fine]; try exact K.
    destruct K as (p & E & N). exists p. split; [exact E|]. unfold ok_id. auto. }
  destruct g; cbn [grab]; try (apply L; intros s' G' L').
  - apply char_fine.
  - apply pair_fine.
  - apply int_fine.
  - apply int_fine.
  - now apply string_fine.
  - now apply string_fine.
  - destruct (Ng eq_refl) as [C H]. apply msg_fine; [exact C|exact H|lia].
Qed.

(* ---- the categories ---- *)
Definition calm (st : lstate) : Prop :=
  match st with
  | SCategory => True
  | SGeneric c => In c categories
  | _ => False
  end.
Definition steps (s : lx) (r : lres (option lstate)) : Prop :=
  match r with
  | Done o s' => match o with None => True | Some st => calm st /\ exists p, pend s = p ++ pend s' /\ p <> [] end
  | Panicked _ => True
  | Unfinished _ => False
  end.
Lemma steps_bind : forall A s (b : A -> bool) (m : lres A) f, fine s b m ->
  (forall a s' p, m = Done a s' -> pend s = p ++ pend s' -> (b a = true -> p <> []) -> steps s (f a s')) -> steps s (bind m f).
Proof.
  intros A s b m f H K. destruct m as [a s'| |]; cbn [bind fine] in *; [|exact I|contradiction].
  destruct H as (p & E & N). exact (K a s' p eq_refl E N).
Qed.
Lemma steps_later : forall s s0 p r, pend s0 = p ++ pend s -> steps s r -> steps s0 r.
Proof.
  intros s s0 p r E H. destruct r as [[st|] s'| |]; cbn [steps] in *; try exact H. destruct H as (C & q & Q & N). split; [exact C|].
  exists (p ++ q). rewrite E, Q, app_assoc. split; [reflexivity|]. intros X. apply app_eq_nil in X. now apply N.
Qed.

Lemma messages_key : forall c k typ, In c categories -> In (k, (typ, GMsg)) (c_defs c) -> In k [B "yesexpr"; B "noexpr"].
Proof.
  assert (A : forallb (fun c => forallb (fun d => match snd (snd d) with GMsg => existsb (beqb (fst d)) [B "yesexpr"; B "noexpr"] | _ => true end) (c_defs c))
    categories = true) by (vm_compute; reflexivity).
  intros c k typ I D. pose proof (proj1 (forallb_forall _ _) A c I) as K. cbv beta in K. pose proof (proj1 (forallb_forall _ _) K _ D) as M.
  cbv beta in M. cbn [fst snd] in M. apply existsb_exists in M. destruct M as (x & J & E). apply beqb_eq in E. now subst x.
Qed.

Lemma category_steps_word : forall s, current (take (upperChars ++ B "_") s) <> B "LC_COLLATE" -> steps s (sCategory s).
Proof.
  intros s Nc. unfold sCategory. cbv zeta. set (cs := upperChars ++ _) in *. pose proof (pend_take cs s) as E.
  set (s1 := take cs s) in *.
  destruct (beqb (current s1) (B "LC_COLLATE")) eqn:Q; [exfalso; apply Nc; now apply beqb_eq|].
  destruct (find _ categories) as [c|] eqn:F; cbn [option_map]; [|exact I]. apply find_some in F. destruct F as [Ic F]. apply beqb_eq in F.
  assert (Ne : current s1 <> []).
  { rewrite F. assert (A : forallb (fun c => negb (beqb (c_name c) [])) categories = true) by (vm_compute; reflexivity).
    pose proof (proj1 (forallb_forall _ _) A c Ic) as K. cbv beta in K. apply negb_true_iff in K. now apply beqb_neq. }
  apply (steps_later (take whiteSpace (emit (c_tok c) s1)) s (current s1)); [rewrite pend_take, <- pend_emit; now symmetry|].
  eapply steps_bind; [apply fine_must, nl_fine|]. intros u s' p _ E1 N1. split.
  - exact Ic.
  - exists p. split; [exact E1|]. now apply N1.
Qed.
Lemma category_steps : forall s, ~ inside (B "LC_COLLATE") (pend s) -> steps s (sCategory s).
Proof.
  intros s Nc. apply category_steps_word. intros Q. apply Nc. exists [], (rest (take (upperChars ++ B "_") s)).
  rewrite <- (pend_take (upperChars ++ B "_") s). unfold pend. now rewrite Q.
Qed.

Lemma generic_steps : forall fuel esc c s, In c categories -> esc <> 10%N -> good_text (pend s) ->
  (2 * List.length (pend s) < fuel)%nat -> steps s (sGeneric fuel esc c s).
Proof.
  intros fuel esc c s Ic Ne G Le. unfold sGeneric. eapply steps_bind; [apply ws_fine|]. intros b s1 p _ E1 _. cbv zeta.
  set (cs := upperChars ++ _). pose proof (pend_take cs s1) as E2. set (s2 := take cs s1) in *. clearbody s2 cs.
  assert (E : pend s = p ++ pend s2) by congruence. clear E1 E2.
  apply (steps_later s2 s p _ E). assert (G2 : good_text (pend s2)) by (apply (good_suffix p); now rewrite <- E).
  apply shorter in E. assert (Le2 : (2 * List.length (pend s2) < fuel)%nat) by lia. clear p s E s1 Le G.
  destruct (beqb (current s2) (B "END")).
  - apply (steps_later (emit END_STR s2) s2 (current s2) _); [apply pend_emit|].
    eapply steps_bind; [apply fine_must, ws_fine|]. intros u s3 p3 _ E3 N3.
    apply (steps_later s3 _ p3 _ E3). pose proof (pend_take upperChars s3) as E4. set (s4 := take upperChars s3) in *. clearbody s4.
    destruct (negb _); [exact I|]. apply (steps_later (emit (c_tok c) s4) s3 (current s4)); [rewrite <- pend_emit; now symmetry|].
    eapply steps_bind; [apply ws_fine|]. intros b5 s5 p5 _ E5 _. apply (steps_later s5 _ p5 _ E5).
    eapply steps_bind; [apply fine_must, nl_fine|]. intros u6 s6 p6 _ E6 N6. split; [exact I|]. exists p6. split; [exact E6|now apply N6].
  - destruct (look_up (current s2) (c_defs c)) as [[typ g]|] eqn:K; [|exact I]. apply look_up_in in K.
    apply (steps_later (emit typ s2) s2 (current s2) _); [apply pend_emit|].
    assert (G3 : good_text (pend (emit typ s2))) by (apply (good_suffix (current s2)); exact G2).
    assert (L3 : (2 * List.length (pend (emit typ s2)) < fuel)%nat).
    { pose proof (shorter (current s2) (pend s2) (pend (emit typ s2)) (pend_emit typ s2)). lia. }
    eapply steps_bind; [apply fine_must, ws_fine|]. intros u s3 p3 W3 E3 N3. apply (steps_later s3 _ p3 _ E3).
    assert (Ng : g = GMsg -> cur s3 = [] /\ forall q, rest s3 = """"%char :: q -> In """"%char q).
    { intros ->. destruct (grabWhitespace (emit typ s2)) as [[|] s3'| |] eqn:W; try discriminate W3. injection W3 as _ <-.
      destruct (ws_blanks (emit typ s2) s3' eq_refl W) as (g & Bg & Eg & Cg). split; [exact Cg|]. intros q Eq.
      destruct (in_dec ascii_dec """"%char q) as [J|J]; [exact J|]. exfalso. destruct G2 as (_ & _ & Op). apply Op.
      exists [], (current s2), g, q. split; [|split; [exact (messages_key c _ _ Ic K)|now split]].
      rewrite (pend_emit typ). cbn [app]. f_equal. unfold pend at 1. cbn [current cur emit rev app]. change (rest (emit typ s2)) with (rest s2) in Eg.
      unfold current. cbn [rev app]. rewrite <- Eq. exact Eg. }
    assert (G4 : good_text (pend s3)) by (apply (good_suffix p3); now rewrite <- E3). apply shorter in E3.
    eapply steps_bind; [apply fine_must, grab_fine; [exact Ng|exact Ne|exact G4|lia]|]. intros u5 s5 p5 _ E5 N5. apply (steps_later s5 _ p5 _ E5).
    eapply steps_bind; [apply fine_must, nl_fine|]. intros u6 s6 p6 _ E6 N6. split; [exact Ic|]. exists p6. split; [exact E6|now apply N6].
Qed.

Lemma run_fine : forall k fuel esc st s, esc <> 10%N -> calm st -> good_text (pend s) -> ~ inside (B "LC_COLLATE") (pend s) -> (List.length (pend s) < k)%nat ->
  (2 * List.length (pend s) < fuel)%nat -> forall s', lex_run k fuel esc st s <> Unfinished s'.
Proof.
  induction k as [|k IH]; intros fuel esc st s Ne C G Nc Lk Lf s'; [lia|]. cbn [lex_run].
  assert (S1 : steps s (call fuel esc st s)).
  { destruct st; cbn [call calm] in *; try contradiction; [now apply category_steps|]. now apply generic_steps. }
  destruct (call fuel esc st s) as [[st1|] s1| |]; cbn [bind steps] in *; try discriminate; [|contradiction].
  destruct S1 as (C1 & p & Ep & Np). pose proof (much_shorter _ _ _ Ep Np). apply IH; [exact Ne|exact C1|apply (good_suffix p); now rewrite <- Ep|apply (outside_suffix _ p); now rewrite <- Ep|lia|lia].
Qed.
Lemma lex_finishes : forall fuel esc src, esc <> 10%N -> good_text src -> ~ inside (B "LC_COLLATE") src -> (2 * List.length src + 1 < fuel)%nat -> forall s', lex fuel esc src <> Unfinished s'.
Proof.
  intros fuel esc src Ne G Nc Le s'. unfold lex. destruct fuel as [|fuel]; [lia|]. cbn [lex_run call bind].
  apply run_fine; [exact Ne|exact I|exact G|exact Nc| |]; unfold pend, current; cbn [cur rest rev app]; lia.
Qed.

(* the preprocessed text ends with a newline *)
Lemma remove_lines_ends : forall f cc ec ls u e, remove_lines f cc ec ls = Ok (u, e) -> u = [] \/ exists x, u = x ++ [nl].
Proof.
  induction f as [|f IH]; intros cc ec ls u e H.
  - destruct ls; cbn in H; [injection H as <- _; now left|discriminate H].
  - destruct ls as [|l ls]; [cbn in H; injection H as <- _; now left|]. rewrite remove_lines_cons in H.
    destruct (N.eqb _ cc); [exact (IH _ _ _ _ _ H)|]. cbv zeta in H. destruct (checkSpecialWord l (B "escape_char")); [exact (IH _ _ _ _ _ H)|].
    destruct (join_cont ec l ls) as [[l' rest']| |]; cbn [rbind] in H; try discriminate H.
    destruct (remove_lines f _ ec rest') as [[o e']| |] eqn:R; cbn [rbind] in H; try discriminate H. injection H as <- _. right.
    destruct (IH _ _ _ _ _ R) as [->|(x & ->)]; [now exists l'|]. exists (l' ++ [nl] ++ x). now rewrite <- !app_assoc.
Qed.
Lemma source_ends : forall text src esc, removeComments text = Ok (src, esc) -> src = [] \/ exists x, src = x ++ [nl].
Proof. intros text src esc H. exact (remove_lines_ends _ _ _ _ _ _ H). Qed.

(* the escape character is not a newline *)
Lemma fields_no_space : forall f b c w, In w (fields_from f c b) -> (forall x, c = Some x -> x <> [] /\ hd_error x <> Some nl) -> w <> [] /\ hd_error w <> Some nl.
Proof.
  induction f as [|f IH]; intros b c w I H.
  - cbn in I. destruct c as [x|]; [|destruct I]. destruct I as [<-|[]]. now apply H.
  - destruct b as [|a b]; [cbn in I; destruct c as [x|]; [|destruct I]; destruct I as [<-|[]]; now apply H|].
    cbn [fields_from] in I. destruct (decode_rune (a :: b)) as [r k] eqn:D. destruct (is_space_rune r) eqn:Q.
    + destruct c as [x|]; [|apply (IH _ _ _ I); intros; discriminate]. destruct I as [<-|I]; [now apply H|]. apply (IH _ _ _ I). intros; discriminate.
    + apply (IH _ _ _ I). intros x E. injection E as <-. destruct (decode_width (a :: b) r k) as [L _]; [discriminate|exact D|].
      destruct k as [|k]; [lia|]. cbn [firstn]. destruct c as [x|].
      * destruct (H x eq_refl) as [H1 H2]. destruct x as [|x0 x]; [congruence|]. now split.
      * split; [discriminate|]. cbn [app hd_error]. intros X. injection X as ->. rewrite decode_low in D by reflexivity. injection D as <- _. discriminate Q.
Qed.
Lemma special_not_newline : forall l w r, checkSpecialWord l w = Some r -> r <> 10%N.
Proof.
  intros l w r H. unfold checkSpecialWord in H. destruct (beqb _ _); [|discriminate H]. destruct (Fields l) as [|x [|y [|z t]]] eqn:F; try discriminate H.
  injection H as <-. destruct (fields_no_space (List.length l) l None y) as [N1 N2]; [unfold Fields in F; rewrite F; right; now left|intros; discriminate|].
  destruct y as [|c y]; [congruence|]. intros E. destruct (decode_rune (c :: y)) as [r k] eqn:D. cbn [fst] in E. subst r.
  destruct (decode_ascii _ _ _ _ D) as [A _]; [reflexivity|]. apply N2. cbn [hd_error]. f_equal. apply byte_val_inj. exact A.
Qed.
Lemma remove_lines_escape : forall f cc ec ls u e, ec <> 10%N -> remove_lines f cc ec ls = Ok (u, e) -> e <> 10%N.
Proof.
  induction f as [|f IH]; intros cc ec ls u e Ne H.
  - destruct ls; cbn in H; [injection H as _ <-; exact Ne|discriminate H].
  - destruct ls as [|l ls]; [cbn in H; injection H as _ <-; exact Ne|]. rewrite remove_lines_cons in H.
    destruct (N.eqb _ cc); [exact (IH _ _ _ _ _ Ne H)|]. cbv zeta in H. destruct (checkSpecialWord l (B "escape_char")) as [r|] eqn:Q.
    + exact (IH _ _ _ _ _ (special_not_newline _ _ _ Q) H).
    + destruct (join_cont ec l ls) as [[l' rest']| |]; cbn [rbind] in H; try discriminate H.
      destruct (remove_lines f _ ec rest') as [[o e']| |] eqn:R; cbn [rbind] in H; try discriminate H. injection H as _ <-. exact (IH _ _ _ _ _ Ne R).
Qed.
Lemma source_escape : forall text src esc, removeComments text = Ok (src, esc) -> esc <> 10%N.
Proof. intros text src esc H. refine (remove_lines_escape _ _ _ _ _ _ _ H). discriminate. Qed.

(* ---- more fuel does not change an outcome ---- *)
Definition upto {A} (r r' : lres A) : Prop := match r with Unfinished _ => True | _ => r' = r end.
Lemma upto_refl : forall A (r : lres A), upto r r. Proof. intros A [a s|s|s]; cbn [upto]; auto. Qed.
Lemma upto_bind : forall A C (m m' : lres A) (f f' : A -> lx -> lres C), upto m m' -> (forall a s, upto (f a s) (f' a s)) ->
  upto (bind m f) (bind m' f').
Proof. intros A C m m' f f' H K. destruct m as [a s|s|s]; cbn [upto bind] in *; [subst m'; apply K|subst m'; reflexivity|exact I]. Qed.
Lemma upto_must : forall m m', upto m m' -> upto (must m) (must m').
Proof. intros m m' H. apply upto_bind; [exact H|]. intros. apply upto_refl. Qed.
Lemma list_upto : forall g g', (forall s, upto (g s) (g' s)) -> forall f f' ok s, (f <= f')%nat -> upto (grabList f g ok s) (grabList f' g' ok s).
Proof.
  intros g g' H. induction f as [|f IH]; intros f' ok s Le; [exact I|]. destruct f' as [|f']; [lia|]. cbn [grabList].
  apply upto_bind; [apply H|]. intros b s1. destruct b; [|apply upto_refl]. destruct (next s1) as [r s2].
  destruct (at_char ";" r); [apply IH; lia|apply upto_refl].
Qed.
Lemma loop_upto : forall f f' esc e s, (f <= f')%nat -> upto (string_loop f esc e s) (string_loop f' esc e s).
Proof.
  induction f as [|f IH]; intros f' esc e s Le; [exact I|]. destruct f' as [|f']; [lia|]. cbn [string_loop].
  destruct (next s) as [r s1]. destruct e; [apply upto_bind; [apply upto_refl|]; intros; apply IH; lia|].
  destruct (at_char """" r); [apply upto_refl|]. destruct (at_char nl r); [apply upto_refl|]. destruct (at_char "\" r); apply IH; lia.
Qed.
Lemma string_upto : forall f f' esc s, (f <= f')%nat -> upto (grabString f esc s) (grabString f' esc s).
Proof.
  intros f f' esc s Le. unfold grabString. destruct (peek s) as [r s1]. destruct (negb _); [apply upto_refl|]. cbv zeta.
  destruct (peek _) as [r2 s2]. destruct (at_char """" r2); [apply upto_refl|]. now apply loop_upto.
Qed.
Lemma quote_upto : forall f f' s, (f <= f')%nat -> upto (to_quote f s) (to_quote f' s).
Proof.
  induction f as [|f IH]; intros f' s Le; [exact I|]. destruct f' as [|f']; [lia|]. cbn [to_quote]. destruct (next s) as [r s1].
  destruct (at_char """" r); [apply upto_refl|]. apply IH. lia.
Qed.
Lemma grab_upto : forall f f' esc g s, (f <= f')%nat -> upto (grab f esc g s) (grab f' esc g s).
Proof.
  intros f f' esc g s Le. destruct g; cbn [grab]; try apply upto_refl; try (apply list_upto; [|exact Le]; intros; try apply upto_refl).
  - now apply string_upto.
  - now apply string_upto.
  - unfold grabMsg. destruct (next s) as [r s1]. destruct (negb _); [apply upto_refl|]. apply upto_bind; [now apply quote_upto|].
    intros. apply upto_refl.
Qed.
Ltac ub := first [apply upto_refl | apply upto_must | apply upto_bind; [|intros; cbv zeta]].
Lemma call_upto : forall f f' esc st s, (f <= f')%nat -> upto (call f esc st s) (call f' esc st s).
Proof.
  intros f f' esc st s Le. destruct st as [| |c| | |]; cbn [call]; try apply upto_refl.
  - unfold sGeneric. ub; [ub|]. destruct (beqb _ _); [ub|]. destruct (look_up _ _) as [[typ g]|]; [|ub].
    ub; [ub|]. ub; [ub; now apply grab_upto|]. ub.
  - unfold sCollate. ub; [ub|]. destruct (beqb _ _); [ub|]. destruct (beqb _ _); [ub|]. destruct (beqb _ _).
    + ub; [ub|]. ub; [ub|]. ub; [ub|]. destruct (negb _); [ub|]. ub; [ub|]. ub; [ub; now apply string_upto|]. ub.
    + destruct (beqb _ _); [|ub]. ub; [ub|]. ub; [ub; now apply string_upto|]. ub.
Qed.
Lemma run_upto : forall k k' f f' esc st s, (k <= k')%nat -> (f <= f')%nat -> upto (lex_run k f esc st s) (lex_run k' f' esc st s).
Proof.
  induction k as [|k IH]; intros k' f f' esc st s L1 L2; [exact I|]. destruct k' as [|k']; [lia|]. cbn [lex_run].
  apply upto_bind; [now apply call_upto|]. intros o s1. destruct o; [apply IH; lia|apply upto_refl].
Qed.
Lemma lex_upto : forall f f' esc src, (f <= f')%nat -> upto (lex f esc src) (lex f' esc src).
Proof. intros. now apply run_upto. Qed.
