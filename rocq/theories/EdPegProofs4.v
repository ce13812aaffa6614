(* Facts about the parser of ed: rejected input, termination, the grammar file, cutting the input. *)
From Verif Require Import GoBase GoFacts NumFacts Utf8Facts RuneFacts EdModel EdPegModel EdPegSpec EdPegProofs EdPegProofs2 EdPegProofs3.
Local Open Scope nat_scope.

(* ---- termination and captured text ---- *)
Lemma parse_ends : forall buf, exists r, Parse buf = Val r.
Proof.
  intros buf. unfold Parse, Parse_with. pose proof (sound_no_hang r_first 0 (runes_of buf) eq_refl).
  destruct (pmatch r_first 0 (runes_of buf)); [eauto|eauto|congruence].
Qed.
Definition tok_in (lo hi : nat) (t : token) : Prop := match t with TText b e => lo <= b <= e /\ e <= hi | TAct _ => True end.
Lemma tok_in_weaken : forall lo hi lo' hi' t, lo' <= lo -> hi <= hi' -> tok_in lo hi t -> tok_in lo' hi' t.
Proof. intros lo hi lo' hi' [b e|n] H1 H2; cbn; lia. Qed.
Definition toks_in (f : nat -> list N -> pres) : Prop :=
  forall pos rest p r t, f pos rest = POk p r t -> pos <= p /\ Forall (tok_in pos p) t.
Lemma toks_join : forall pos p q t u, pos <= p -> p <= q -> Forall (tok_in pos p) t -> Forall (tok_in p q) u -> Forall (tok_in pos q) (t ++ u).
Proof.
  intros pos p q t u H1 H2 F1 F2. apply Forall_app. split; (eapply Forall_impl; [|eassumption]); intros x; apply tok_in_weaken; lia.
Qed.
Lemma star_toks : forall f k, toks_in f -> toks_in (star_loop f k).
Proof.
  intros f k A. induction k as [|k IH]; intros pos rest p r t H; [discriminate|].
  rewrite star_loop_S in H. destruct (f pos rest) as [p1 r1 t1| |] eqn:E; try discriminate.
  - destruct (p1 =? pos); try discriminate. destruct (star_loop f k p1 r1) as [p2 r2 t2| |] eqn:E2; try discriminate.
    injection H as <- <- <-. apply A in E as [L1 F1]. apply IH in E2 as [L2 F2]. split; [lia|]. eapply toks_join; eauto.
  - injection H as <- <- <-. split; auto.
Qed.
Lemma pmatch_toks : forall e, toks_in (pmatch e).
Proof.
  induction e; intros pos rest p r t H; cbn [pmatch] in H.
  - destruct rest as [|x rest]; [discriminate|]. destruct (N.eqb x c); [|discriminate]. injection H as <- <- <-. split; auto.
  - destruct rest as [|x rest]; [discriminate|]. destruct (_ && _)%bool; [|discriminate]. injection H as <- <- <-. split; auto.
  - destruct rest as [|x rest]; [discriminate|]. injection H as <- <- <-. split; auto.
  - destruct (pmatch e1 pos rest) as [p1 r1 t1| |] eqn:E; try discriminate.
    destruct (pmatch e2 p1 r1) as [p2 r2 t2| |] eqn:E2; try discriminate. injection H as <- <- <-.
    apply IHe1 in E as [L1 F1]. apply IHe2 in E2 as [L2 F2]. split; [lia|]. eapply toks_join; eauto.
  - destruct (pmatch e1 pos rest) as [p1 r1 t1| |] eqn:E; try discriminate; eauto. injection H as <- <- <-. eauto.
  - eapply star_toks; eauto.
  - destruct (pmatch e pos rest) as [p1 r1 t1| |] eqn:E; try discriminate; injection H as <- <- <-; eauto.
  - destruct (pmatch e pos rest) as [p1 r1 t1| |] eqn:E; try discriminate; injection H as <- <- <-; auto.
  - destruct (pmatch e pos rest) as [p1 r1 t1| |] eqn:E; try discriminate; injection H as <- <- <-.
    apply IHe in E as [L F]. split; auto. apply Forall_app. split; auto. constructor; [cbn; lia|constructor].
  - injection H as <- <- <-. split; auto. constructor; cbn; auto.
Qed.
Lemma captures_in_range : forall buf toks b e, Parse buf = Val (Some toks) -> In (TText b e) toks -> b <= e <= List.length buf.
Proof.
  intros buf toks b e H I. unfold Parse, Parse_with in H. destruct (pmatch r_first 0 (runes_of buf)) as [p r t| |] eqn:E; try discriminate.
  injection H as <-. destruct (pmatch_advances _ _ _ _ _ _ E) as (u&U&->). apply pmatch_toks in E as [_ F].
  rewrite Forall_forall in F. specialize (F _ I). cbn in F. pose proof (runes_of_length buf) as L. rewrite U, app_length in L. lia.
Qed.

(* ---- rejection ---- *)
Lemma reject_one : forall buf, buf <> [] -> pmatch r_e 0 (runes_of buf) = PFail -> rejected buf.
Proof.
  intros buf Ne H. unfold rejected, Parse, Parse_with, r_first, r_first_of. fold r_e.
  assert (S : pmatch (PStar r_e) 0 (runes_of buf) = POk 0 (runes_of buf) []) by (cbn [pmatch]; rewrite star_loop_S, H; reflexivity).
  rewrite (seq_ok _ _ _ _ _ _ _ S). destruct buf as [|c buf]; [congruence|].
  assert (Ne' : c :: buf <> []) by discriminate. destruct (decode_rune (c :: buf)) as [x w] eqn:D.
  rewrite (runes_of_step _ _ _ Ne' D). reflexivity.
Qed.
Lemma e_stops : forall lead body pos p trail y T toks, blanksN lead -> ends_at blankN body -> blanksN trail -> blankN y = false -> y <> 10%N ->
  pmatch r_cmd (pos + List.length lead) body = POk p (trail ++ y :: T) toks -> pmatch r_e pos (lead ++ body) = PFail.
Proof.
  intros lead body pos p trail y T toks Bl Eb Bt By Ny H. unfold r_e, r_e_of.
  rewrite (seq_ok _ _ _ _ _ _ _ (sps_ok pos lead body Bl Eb)). fold r_cmd. rewrite (seq_ok _ _ _ _ _ _ _ H).
  rewrite (seq_ok _ _ _ _ _ _ _ (sps_ok p trail (y :: T) Bt By)). unfold r_newLine. rewrite seq_fail; auto.
  cbn [pmatch chr]. change (byte_val nl) with 10%N. now rewrite (proj2 (N.eqb_neq y 10) Ny).
Qed.
(* text that is not ended *)
Lemma text_to_the_end : forall U pos k, no_term U -> List.length U < k ->
  star_loop (pmatch (PSeq (PNot r_textTerm) PDot)) k pos U = POk (pos + List.length U) [] [].
Proof.
  induction U as [|c U IH]; intros pos k N L; (destruct k as [|k]; [cbn in L; lia|]); rewrite star_loop_S.
  - cbn [List.length]. rewrite Nat.add_0_r. reflexivity.
  - assert (E : pmatch (PSeq (PNot r_textTerm) PDot) pos (c :: U) = POk (S pos) U []).
    { cbn [pmatch r_textTerm chr]. change (byte_val nl) with 10%N. change (byte_val ".") with 46%N.
      destruct (N.eqb_spec c 10) as [->|]; auto. destruct U as [|d U]; auto.
      destruct (N.eqb_spec d 46) as [->|]; auto. exfalso. now apply (N [] U). }
    rewrite E. destruct (Nat.eqb_spec (S pos) pos); [lia|]. rewrite IH.
    + cbn [List.length app]. f_equal. lia.
    + intros a b ->. now apply (N (c :: a) b).
    + cbn in L. lia.
Qed.
Lemma text_fails : forall U pos, no_term U -> pmatch r_text pos U = PFail.
Proof.
  intros U pos N. unfold r_text.
  assert (S : pmatch (PText (PStar (PSeq (PNot r_textTerm) PDot))) pos U = POk (pos + List.length U) [] [TText pos (pos + List.length U)]).
  { replace [TText pos (pos + List.length U)] with ([] ++ [TText pos (pos + List.length U)]) by reflexivity. apply text_ok.
    change (pmatch (PStar (PSeq (PNot r_textTerm) PDot)) pos U) with
      (star_loop (pmatch (PSeq (PNot r_textTerm) PDot)) (S (List.length U)) pos U). apply text_to_the_end; auto. }
  rewrite (seq_ok _ _ _ _ _ _ _ S). reflexivity.
Qed.
Lemma open_text_cmd : forall pos r gap x U, wrange_ok r -> text_letter x -> blanksN gap -> (r = NoAddress -> gap = []) -> no_term U ->
  exists p y T toks, pmatch r_cmd pos (R (wrange_text r) ++ gap ++ byte_val x :: 10%N :: U) = POk p (y :: T) toks /\ blankN y = false /\ y <> 10%N.
Proof.
  intros pos r gap x U Hr Hx Hg N HU.
  assert (E : ends_at loud (byte_val x :: 10%N :: U)) by now apply loud_text.
  rewrite cmd_alts_ok. unfold cmd_alts.
  rewrite first_skip by (apply block_bare; auto; destruct Hx as [-> |[-> | ->]]; reflexivity).
  rewrite first_skip by (apply block_param; auto; destruct Hx as [-> |[-> | ->]]; reflexivity).
  rewrite first_skip by (apply block_range; auto; destruct Hx as [-> |[-> | ->]]; reflexivity).
  rewrite first_skip by (apply block_addr; auto; destruct Hx as [-> |[-> | ->]]; reflexivity).
  assert (Fc : pmatch (r_changeTextCmd_of r_range) pos (R (wrange_text r) ++ gap ++ byte_val x :: 10%N :: U) = PFail).
  { unfold r_changeTextCmd_of. apply range_block; auto.
    - intros p. destruct (Ascii.eqb_spec x "c") as [->|Nc].
      + unfold r_changeTextC, r_newLine. cbn [pmatch chr]. rewrite N.eqb_refl. change (10 =? byte_val nl)%N with true. cbn [app].
        now rewrite text_fails.
      + apply seq_fail, cannot_start; try reflexivity. destruct Hx as [-> |[-> | ->]]; (reflexivity || congruence).
    - intros c p t Bc. apply seq_fail, cannot_start; try reflexivity. apply blank_cases in Bc as [-> | ->]; reflexivity. }
  rewrite first_skip by exact Fc.
  assert (Fa : pmatch r_addTextCmd pos (R (wrange_text r) ++ gap ++ byte_val x :: 10%N :: U) = PFail).
  { unfold r_addTextCmd. apply opt_start_block; auto.
    - intros p. destruct (Ascii.eqb_spec x "c") as [->|Nc].
      + apply seq_fail, cannot_start; reflexivity.
      + assert (Ha : exists n, pmatch r_addTextC p (byte_val x :: 10%N :: U) = POk (S p) (10%N :: U) [TAct n])
          by (destruct Hx as [-> |[-> | ->]]; [eexists; reflexivity|eexists; reflexivity|congruence]).
        destruct Ha as [n Ha]. rewrite (seq_ok _ _ _ _ _ _ _ Ha). unfold r_newLine.
        rewrite (seq_ok _ _ _ _ _ _ _ (chr_ok nl _ U)). now rewrite text_fails.
    - intros s p t S. apply seq_fail, cannot_start; try reflexivity. destruct S as [-> | ->]; reflexivity. }
  rewrite first_skip by exact Fa.
  rewrite first_skip by (apply block_mark; auto; destruct Hx as [-> |[-> | ->]]; reflexivity).
  rewrite first_skip by (apply block_dest; auto; destruct Hx as [-> |[-> | ->]]; reflexivity).
  rewrite first_skip by (apply block_read; auto; destruct Hx as [-> |[-> | ->]]; reflexivity).
  rewrite first_skip by (apply block_write; auto; destruct Hx as [-> |[-> | ->]]; reflexivity).
  rewrite first_skip by (apply block_shell; auto; destruct Hx as [-> |[-> | ->]]; reflexivity).
  assert (Bx : blankN (byte_val x) = false /\ byte_val x <> 10%N) by (destruct Hx as [-> |[-> | ->]]; split; (reflexivity || discriminate)).
  destruct (start_rest r pos gap _ Hr N Hg E) as [F|(p&rest&toks&S&Q)].
  - assert (M : exists y T, R (wrange_text r) ++ gap ++ byte_val x :: 10%N :: U = y :: T /\ blankN y = false /\ y <> 10%N).
    { destruct r as [|a|a b1 s b2 b0|a b1 s|s b2 b0|s]; cbn [wrange_ok wrange_text] in *.
      - rewrite N by auto. eexists _, _. split; [reflexivity|auto].
      - rewrite start_ok in F by auto using loud_bds. discriminate.
      - exfalso. destruct Hr as (Ha&Hb1&Sp&_). revert F. rewrite !R_app, <- !app_assoc. cbn [R map app].
        rewrite start_ok by auto using blanks_N, sep_bds. discriminate.
      - exfalso. destruct Hr as (Ha&Hb1&Sp). revert F. rewrite !R_app, <- !app_assoc. cbn [R map app].
        rewrite start_ok by auto using blanks_N, sep_bds. discriminate.
      - destruct Hr as [Sp _]. eexists _, _. split; [reflexivity|]. destruct Sp as [-> | ->]; split; (reflexivity || discriminate).
      - eexists _, _. split; [reflexivity|]. destruct Hr as [-> | ->]; split; (reflexivity || discriminate). }
    destruct M as (y&T&M&By&Ny). exists pos, y, T, []. split; auto. rewrite M in *. apply first_take. apply opt_fail. exact F.
  - destruct Q as [->|(s&t&Sp&->)].
    + exists p, (byte_val x), (10%N :: U), toks. split; [apply first_take, opt_ok; exact S|exact Bx].
    + exists p, (byte_val s), t, toks. split; [apply first_take, opt_ok; exact S|]. destruct Sp as [-> | ->]; split; (reflexivity || discriminate).
Qed.
Lemma open_text_rejected : forall lead r gap x t, blanks lead -> wrange_ok r -> text_letter x -> blanks gap -> (r = NoAddress -> gap = []) ->
  no_term (runes_of t) -> rejected (lead ++ wrange_text r ++ gap ++ [x; nl] ++ t).
Proof.
  intros lead r gap x t Hl Hr Hx Hg N Ht. apply reject_one.
  { intros Q. apply app_eq_nil in Q as [_ Q]. apply app_eq_nil in Q as [_ Q]. apply app_eq_nil in Q as [_ Q]. discriminate. }
  assert (Ax : (byte_val x < 128)%N) by (destruct Hx as [-> |[-> | ->]]; reflexivity).
  assert (Hruns : runes_of (lead ++ wrange_text r ++ gap ++ [x; nl] ++ t) = R lead ++ (R (wrange_text r) ++ R gap ++ byte_val x :: 10%N :: runes_of t)).
  { replace (lead ++ wrange_text r ++ gap ++ [x; nl] ++ t) with ((lead ++ wrange_text r ++ gap ++ [x; nl]) ++ t) by now rewrite <- !app_assoc.
    rewrite runes_R; [now rewrite !R_app, <- !app_assoc|].
    repeat apply ascii_app; auto using ascii_blanks, ascii_wrange. apply ascii_B1; auto. apply ascii_B1; [reflexivity|constructor]. }
  rewrite Hruns. destruct (open_text_cmd (0 + List.length (R lead)) r (R gap) x (runes_of t)) as (p&y&T&toks&M&By&Ny); auto using blanks_N.
  { intros Q. now rewrite N. }
  eapply e_stops with (trail := []) (y := y); eauto using blanks_N; [|constructor].
  apply range_not_blank; auto. intros Q. rewrite N by auto. now apply loud_blank, loud_text.
Qed.
(* text followed by a line that begins with a dot and goes on *)
Lemma dotted_rejected : forall lead r gap x t c rest, blanks lead -> wrange_ok r -> text_letter x -> text_range x r ->
  blanks gap -> (~ closed r -> gap = []) -> no_term (runes_of t) -> c <> " "%char -> c <> tab -> c <> nl ->
  rejected (lead ++ wrange_text r ++ gap ++ [x; nl] ++ t ++ [nl; "."%char] ++ c :: rest).
Proof.
  intros lead r gap x t c rest Hl Hr Hx Tx Hg Ng Ht N1 N2 N3. apply reject_one.
  { intros Q. apply app_eq_nil in Q as [_ Q]. apply app_eq_nil in Q as [_ Q]. apply app_eq_nil in Q as [_ Q]. discriminate. }
  assert (Ax : (byte_val x < 128)%N) by (destruct Hx as [-> |[-> | ->]]; reflexivity).
  assert (N : r = NoAddress -> R gap = []) by (intros ->; rewrite Ng; auto).
  assert (Hc : exists y T, runes_of (c :: rest) = y :: T /\ blankN y = false /\ y <> 10%N).
  { assert (Ne : c :: rest <> []) by discriminate. destruct (decode_rune (c :: rest)) as [y w] eqn:D.
    pose proof (runes_of_step _ _ _ Ne D) as Q. exists y. eexists. split; [exact Q|]. split.
    - destruct (blankN y) eqn:By; auto. exfalso.
      apply blank_cases in By as [-> | ->]; apply runes_of_head_ascii in Q as (b'&Q'); try reflexivity; injection Q' as -> _; [now apply N1|now apply N2].
    - intros ->. apply runes_of_head_ascii in Q as (b'&Q'); try reflexivity; injection Q' as -> _. now apply N3. }
  destruct Hc as (y&T&Qc&By&Ny).
  assert (Hruns : runes_of (lead ++ wrange_text r ++ gap ++ [x; nl] ++ t ++ [nl; "."%char] ++ c :: rest) =
    R lead ++ (R (wrange_text r) ++ R gap ++ byte_val x :: 10%N :: runes_of t ++ 10%N :: 46%N :: (y :: T))).
  { replace (lead ++ wrange_text r ++ gap ++ [x; nl] ++ t ++ [nl; "."%char] ++ c :: rest)
      with ((lead ++ wrange_text r ++ gap ++ [x; nl]) ++ (t ++ nl :: ("."%char :: c :: rest))) by now rewrite <- !app_assoc.
    rewrite runes_R; [|repeat apply ascii_app; auto using ascii_blanks, ascii_wrange; apply ascii_B1; auto; apply ascii_B1; [reflexivity|constructor]].
    rewrite runes_of_cut by reflexivity. rewrite runes_of_ascii_cons by reflexivity. rewrite Qc.
    rewrite !R_app, <- !app_assoc. reflexivity. }
  destruct (text_cmd (0 + List.length (R lead)) r (R gap) x (runes_of t) (y :: T) Hr Hx Tx (blanks_N _ Hg)) as (toks&M&_); auto.
  { intros Q. now rewrite Ng. }
  rewrite Hruns. eapply e_stops with (trail := []) (y := y); eauto using blanks_N; [|constructor].
  apply range_not_blank; auto. intros Q. rewrite N by auto. now apply loud_blank, loud_text.
Qed.

(* ---- the grammar file and the generated parser ---- *)
Definition noblank (rest : list N) : Prop := Forall (fun c => blankN c = false) rest.
Definition agree (a b : pexp) : Prop := forall pos rest, noblank rest -> pmatch a pos rest = pmatch b pos rest.
Lemma noblank_left : forall e pos rest p r t, noblank rest -> pmatch e pos rest = POk p r t -> noblank r.
Proof. intros e pos rest p r t H E. destruct (pmatch_advances _ _ _ _ _ _ E) as (u&->&_). now apply Forall_app in H. Qed.
Lemma agree_refl : forall a, agree a a. Proof. now intros a pos rest. Qed.
Lemma agree_seq : forall a a' b b', agree a a' -> agree b b' -> agree (PSeq a b) (PSeq a' b').
Proof.
  intros a a' b b' A B pos rest H. cbn [pmatch]. rewrite <- (A pos rest H). destruct (pmatch a pos rest) as [p r t| |] eqn:E; auto.
  rewrite (B p r); auto. eapply noblank_left; eauto.
Qed.
Lemma agree_alt : forall a a' b b', agree a a' -> agree b b' -> agree (PAlt a b) (PAlt a' b').
Proof. intros a a' b b' A B pos rest H. cbn [pmatch]. rewrite <- (A pos rest H). destruct (pmatch a pos rest); auto. Qed.
Lemma agree_opt : forall a a', agree a a' -> agree (POpt a) (POpt a').
Proof. intros a a' A pos rest H. cbn [pmatch]. now rewrite <- (A pos rest H). Qed.
Lemma agree_star : forall a a', agree a a' -> agree (PStar a) (PStar a').
Proof.
  intros a a' A pos rest. cbn [pmatch]. generalize (S (List.length rest)). intros k. revert pos rest.
  induction k as [|k IH]; intros pos rest H; auto. rewrite !star_loop_S, <- (A pos rest H).
  destruct (pmatch a pos rest) as [p r t| |] eqn:E; auto. destruct (p =? pos); auto. rewrite IH; auto. eapply noblank_left; eauto.
Qed.
Lemma agree_sp : forall a, agree (PSeq (PStar r_sp) a) a.
Proof.
  intros a pos rest H. assert (E : ends_at blankN rest) by (destruct rest; cbn; auto; now inversion H).
  rewrite (seq_ok _ _ _ _ _ _ _ (sps_none pos rest E)). now destruct (pmatch a pos rest).
Qed.
Lemma agree_trans : forall a b c, agree a b -> agree b c -> agree a c.
Proof. intros a b c A B pos rest H. rewrite (A pos rest H). auto. Qed.
Lemma ranges_agree : agree src_range r_range.
Proof.
  unfold src_range, r_range.
  repeat match goal with
  | |- agree (PAlt _ _) (PAlt _ _) => apply agree_alt
  | |- agree ?a ?a => apply agree_refl
  | |- agree (PSeq (PStar r_sp) _) _ => eapply agree_trans; [apply agree_sp|]
  | |- agree (PSeq ?a _) (PSeq ?a _) => apply agree_seq
  end.
Qed.
Lemma grammars_agree : agree src_first r_first.
Proof.
  pose proof ranges_agree as A. unfold src_first, r_first, r_first_of, r_e_of, r_cmd_of, r_rangeCmd_of, r_changeTextCmd_of, r_destCmd_of, r_writeCmd_of.
  repeat match goal with
  | |- agree ?a ?a => apply agree_refl
  | |- agree src_range r_range => exact A
  | |- agree (PSeq _ _) (PSeq _ _) => apply agree_seq
  | |- agree (PAlt _ _) (PAlt _ _) => apply agree_alt
  | |- agree (PStar _) (PStar _) => apply agree_star
  | |- agree (POpt _) (POpt _) => apply agree_opt
  end.
Qed.
Lemma blank_free_runes : forall buf, ~ In " "%char buf -> ~ In tab buf -> noblank (runes_of buf).
Proof.
  intros buf N1 N2. apply Forall_forall. intros x I. destruct (blankN x) eqn:Bx; auto. exfalso.
  apply blank_cases in Bx as [-> | ->]; apply runes_of_in_ascii in I; try reflexivity; [now apply N1|now apply N2].
Qed.
Lemma same_grammar : forall buf, ~ In " "%char buf -> ~ In tab buf -> Parse_with src_first buf = Parse buf.
Proof.
  intros buf N1 N2. unfold Parse, Parse_with. now rewrite (grammars_agree 0 (runes_of buf) (blank_free_runes _ N1 N2)).
Qed.

(* ---- cutting the input ---- *)
Lemma seq_many_unfold : forall p r s, seq_match (Many p :: r) s = (seq_match r s || match s with c :: t => p c && seq_match (Many p :: r) t | [] => false end)%bool.
Proof. intros p r [|c s]; reflexivity. Qed.
Lemma seq_many : forall p r a s, Forall (fun c => p c = true) a -> seq_match r s = true -> seq_match (Many p :: r) (a ++ s) = true.
Proof.
  induction a as [|c a IH]; intros s F H; cbn [app]; rewrite seq_many_unfold.
  - now rewrite H.
  - inversion F; subst. rewrite H2, IH; auto. now rewrite orb_true_r.
Qed.
Lemma seq_skip : forall p r s, seq_match r s = true -> seq_match (Many p :: r) s = true.
Proof. intros. now apply (seq_many p r [] s). Qed.
Lemma seq_maybe_not : forall p r s, seq_match r s = true -> seq_match (Maybe p :: r) s = true.
Proof. intros p r s H. cbn [seq_match]. now rewrite H. Qed.
Lemma seq_maybe : forall p r c s, p c = true -> seq_match r s = true -> seq_match (Maybe p :: r) (c :: s) = true.
Proof. intros p r c s P H. cbn [seq_match]. now rewrite P, H, orb_true_r. Qed.
(* what a match consists of *)
Inductive fits : list item -> bytes -> Prop :=
| fits_nil : fits [] []
| fits_many p r a s : Forall (fun c => p c = true) a -> fits r s -> fits (Many p :: r) (a ++ s)
| fits_maybe_not p r s : fits r s -> fits (Maybe p :: r) s
| fits_maybe p r c s : p c = true -> fits r s -> fits (Maybe p :: r) (c :: s)
| fits_once p r c s : p c = true -> fits r s -> fits (Once p :: r) (c :: s).
Lemma seq_fits : forall l s, seq_match l s = true -> fits l s.
Proof.
  induction l as [|[p|p|p] l IH]; intros s H.
  - destruct s; [constructor|discriminate].
  - induction s as [|c s IHs].
    + rewrite seq_many_unfold in H. rewrite orb_false_r in H. apply (fits_many p l []); auto.
    + rewrite seq_many_unfold in H. apply orb_true_iff in H as [H|H].
      * apply (fits_many p l []); auto.
      * apply andb_true_iff in H as [P H]. specialize (IHs H). inversion IHs; subst.
        apply (fits_many p l (c :: a)); auto.
  - cbn [seq_match] in H. apply orb_true_iff in H as [H|H]; [now constructor; apply IH|].
    destruct s as [|c s]; [discriminate|]. apply andb_true_iff in H as [P H]. apply fits_maybe; auto.
  - destruct s as [|c s]; [discriminate|]. cbn [seq_match] in H. apply andb_true_iff in H as [P H]. apply fits_once; auto.
Qed.
Definition item_class (i : item) : ascii -> bool := match i with Many p | Maybe p | Once p => p end.
Lemma fits_chars : forall l s, fits l s -> forall c, In c s -> exists i, In i l /\ item_class i c = true.
Proof.
  intros l s H. induction H as [|p r a s F H IH|p r s H IH|p r c s P H IH|p r c s P H IH]; intros x I.
  - destruct I.
  - apply in_app_or in I as [I|I].
    + rewrite Forall_forall in F. exists (Many p). split; [now left|now apply F].
    + destruct (IH x I) as (i&Ii&E). exists i. split; auto. now right.
  - destruct (IH x I) as (i&Ii&E). exists i. split; auto. now right.
  - destruct I as [<-|I]; [exists (Maybe p); split; auto; now left|]. destruct (IH x I) as (i&Ii&E). exists i. split; auto. now right.
  - destruct I as [<-|I]; [exists (Once p); split; auto; now left|]. destruct (IH x I) as (i&Ii&E). exists i. split; auto. now right.
Qed.
(* a line that does not end in a, i, c or white space does not start text *)
Lemma fits_end : forall l q sp s, fits (l ++ [Once q; Many sp]) s -> exists pre c t, s = pre ++ c :: t /\ q c = true /\ Forall (fun c => sp c = true) t.
Proof.
  induction l as [|i l IH]; intros q sp s H.
  - cbn in H. inversion H as [| | | |p0 r0 c s0 P F]; subst. inversion F as [|p1 r1 a s1 A F1| | |]; subst. inversion F1; subst. exists [], c, (a ++ []). split; auto. split; auto. now rewrite List.app_nil_r.
  - cbn [app] in H. inversion H as [|p r a s0 A F|p r s0 F|p r c s0 P F|p r c s0 P F]; subst.
    + destruct (IH _ _ _ F) as (pre&c&t&->&Q). exists (a ++ pre), c, t. rewrite <- app_assoc. auto.
    + apply IH; auto.
    + destruct (IH _ _ _ F) as (pre&c'&t&->&Q). exists (c :: pre), c', t. auto.
    + destruct (IH _ _ _ F) as (pre&c'&t&->&Q). exists (c :: pre), c', t. auto.
Qed.
Lemma not_text_end : forall s x, re_space x = false -> (Ascii.eqb x "a" || Ascii.eqb x "i" || Ascii.eqb x "c")%bool = false ->
  multlineCmdStart (s ++ [x]) = false.
Proof.
  intros s x Sx Qx. destruct (multlineCmdStart (s ++ [x])) eqn:E; auto. exfalso.
  apply seq_fits in E.
  apply (fits_end [Many re_space; Many re_addr; Many re_space; Maybe (fun c => Ascii.eqb c ","); Many re_space; Many re_addr; Many re_space]) in E.
  destruct E as (pre&c&t&E&Q&F). destruct (exists_last (l := c :: t)) as (l'&z&Z); [discriminate|].
  rewrite Z, app_assoc in E. apply app_inj_tail in E as [_ <-].
  destruct t as [|d t].
  - change [c] with ([] ++ [c]) in Z. apply app_inj_tail in Z as [_ ->]. congruence.
  - assert (I : In x (d :: t)).
    { change (c :: d :: t) with ([c] ++ (d :: t)) in Z. destruct (exists_last (l := d :: t)) as (l2&z2&Z2); [discriminate|].
      rewrite Z2 in *. rewrite app_assoc in Z. apply app_inj_tail in Z as [_ ->]. apply in_or_app. right. now left. }
    rewrite Forall_forall in F. apply F in I. congruence.
Qed.
Lemma not_text_char : forall s x, In x s -> re_space x = false -> re_addr x = false -> Ascii.eqb x "," = false ->
  (Ascii.eqb x "a" || Ascii.eqb x "i" || Ascii.eqb x "c")%bool = false -> multlineCmdStart s = false.
Proof.
  intros s x I S1 S2 S3 S4. destruct (multlineCmdStart s) eqn:E; auto. exfalso. apply seq_fits in E.
  destruct (fits_chars _ _ E x I) as (i&Ii&C). cbn in Ii.
  repeat (destruct Ii as [<-|Ii]; [cbn [item_class] in C; congruence|]). destruct Ii.
Qed.
Lemma digits_addr : forall ds, digits ds -> Forall (fun c => re_addr c = true) ds.
Proof.
  intros ds H. eapply Forall_impl; [|exact H]. intros c D. unfold re_addr, in_range. unfold is_dec_digit in D.
  apply orb_true_iff. left. apply orb_true_iff. left. apply andb_true_iff. rewrite !N.leb_le. unfold byte_val. cbv beta in D. lia.
Qed.
(* ma, mi, mc and m,nc start text *)
Lemma text_line_one : forall ds x, digits ds -> text_letter x -> multlineCmdStart (ds ++ [x]) = true.
Proof.
  intros ds x D Hx. unfold multlineCmdStart. apply seq_skip. apply seq_many; [now apply digits_addr|].
  destruct Hx as [-> |[-> | ->]]; reflexivity.
Qed.
Lemma text_line_two : forall ds es x, digits ds -> digits es -> text_letter x -> multlineCmdStart (ds ++ B "," ++ es ++ [x]) = true.
Proof.
  intros ds es x D E Hx. unfold multlineCmdStart. apply seq_skip. apply seq_many; [now apply digits_addr|].
  apply seq_skip. apply seq_maybe; [reflexivity|]. apply seq_skip. apply seq_many; [now apply digits_addr|].
  destruct Hx as [-> |[-> | ->]]; reflexivity.
Qed.
(* the lines of text up to the dot *)
Lemma until_dot_ok : forall ls rest, (forall l, In l ls -> l <> B ".") -> until_dot (ls ++ B "." :: rest) = (ls ++ [B "."], rest).
Proof.
  induction ls as [|l ls IH]; intros rest H; cbn [app until_dot].
  - reflexivity.
  - assert (beqb l (B ".") = false) as ->.
    { destruct (beqb l (B ".")) eqn:E; auto. apply beqb_eq in E. exfalso. apply (H l); [now left|auto]. }
    rewrite IH; auto. intros x I. apply H. now right.
Qed.
Lemma until_dot_shorter : forall ls a b, until_dot ls = (a, b) -> List.length b <= List.length ls.
Proof.
  induction ls as [|l ls IH]; intros a b H; cbn [until_dot] in H; [injection H as <- <-; auto|].
  destruct (beqb l (B ".")); [injection H as <- <-; cbn; lia|]. destruct (until_dot ls) as [a' b']. injection H as <- <-.
  specialize (IH _ _ eq_refl). cbn. lia.
Qed.
Lemma buffers_fuel : forall k k' ls, List.length ls <= k -> List.length ls <= k' -> buffers_from k ls = buffers_from k' ls.
Proof.
  induction k as [|k IH]; intros k' ls L L'.
  - destruct ls; [|cbn in L; lia]. destruct k'; reflexivity.
  - destruct ls as [|l ls]; [destruct k'; reflexivity|]. destruct k' as [|k']; [cbn in L'; lia|]. cbn [buffers_from List.length] in *.
    destruct (multlineCmdStart l).
    + destruct (until_dot ls) as [a b] eqn:U. apply until_dot_shorter in U. f_equal. apply IH; lia.
    + f_equal. apply IH; lia.
Qed.
Lemma buffers_plain : forall l rest, multlineCmdStart l = false -> buffers (l :: rest) = (l ++ [nl]) :: buffers rest.
Proof. intros l rest H. unfold buffers. cbn [List.length buffers_from]. now rewrite H. Qed.
Lemma buffers_text : forall l ls rest, multlineCmdStart l = true -> (forall x, In x ls -> x <> B ".") ->
  buffers (l :: ls ++ B "." :: rest) = (join [nl] (l :: ls ++ [B "."]) ++ [nl]) :: buffers rest.
Proof.
  intros l ls rest H N. unfold buffers. cbn [List.length buffers_from]. rewrite H, until_dot_ok by auto. f_equal.
  apply buffers_fuel; auto. rewrite app_length. cbn [List.length]. lia.
Qed.
