(* Facts about the parser of ed: the commands without text, and the input as a whole. *)
From Verif Require Import GoBase GoFacts NumFacts Utf8Facts RuneFacts EdModel EdPegModel EdPegSpec EdPegProofs EdPegProofs2.
Local Open Scope nat_scope.

Lemma frame : forall lead body p trail toks buf b e c d, blanks lead -> blanks trail ->
  runes_of buf = R lead ++ body -> ends_at blankN body ->
  pmatch r_cmd (List.length lead) body = POk p (R trail ++ [10%N]) toks ->
  fold_left (exec1 buf) toks zero_pstate = st b e c d -> sent d = [] -> parsed buf [c].
Proof.
  intros lead body p trail toks buf b e c d Hl Ht Hb E M X D.
  eapply parsed_one; eauto. rewrite Hb. eapply e_ok; eauto using blanks_N. rewrite R_length. exact M.
Qed.
Lemma runes_ascii : forall s, ascii_only s -> runes_of s = R s.
Proof. intros s A. rewrite <- (List.app_nil_r s) at 1. rewrite runes_R by auto. now rewrite runes_of_nil, List.app_nil_r. Qed.

Ltac alpha := match goal with |- starts _ _ = false => reflexivity | |- Ascii.eqb _ _ = false => reflexivity | _ => auto end.

(* ---- w ---- *)
Lemma param_class : (forall p c t, pmatch (PSeq (PNot (chr nl)) PDot) p (c :: t) = if negb (c =? 10)%N then POk (S p) t [] else PFail) /\
  (forall p, pmatch (PSeq (PNot (chr nl)) PDot) p [] = PFail).
Proof. split; auto. intros p c t. cbn [pmatch chr]. change (byte_val nl) with 10%N. now destruct (c =? 10)%N. Qed.
Lemma param_ok : forall U pos T, ~ In 10%N U -> U <> [] -> pmatch r_param pos (U ++ 10%N :: T) = POk (pos + List.length U) (10%N :: T) [].
Proof.
  intros [|c U] pos T N Ne; [congruence|]. apply plus_class with (q := fun c => negb (c =? 10)%N); try apply param_class; [|reflexivity].
  apply Forall_forall. intros x I. destruct (N.eqb_spec x 10) as [->|]; auto.
Qed.
Lemma param_fails : forall pos T, pmatch r_param pos (10%N :: T) = PFail.
Proof. reflexivity. Qed.

Lemma sp_param_fails : forall X pos trail, blanks trail -> pmatch (PSeq r_sp (PSeq (PText r_param) X)) pos (R trail ++ [10%N]) = PFail.
Proof.
  intros X pos trail H. destruct trail as [|c trail].
  - reflexivity.
  - assert (S : pmatch r_sp pos (R (c :: trail) ++ [10%N]) = POk (pos + List.length (R (c :: trail))) [10%N] []).
    { apply (r_sp_ok pos (byte_val c) (R trail) [10%N]); [now apply (blanks_N (c :: trail))|reflexivity]. }
    rewrite (seq_ok _ _ _ _ _ _ _ S). reflexivity.
Qed.
Lemma write_command : forall lead r gap trail, blanks lead -> wrange_ok r -> blanks gap -> (~ closed r -> gap = []) -> blanks trail ->
  parsed (lead ++ wrange_text r ++ gap ++ B "w" ++ trail ++ [nl]) [the_command ctwrite (wrange_start r) (wrange_end r) [] []].
Proof.
  intros lead r gap trail Hl Hr Hg Ng Ht.
  set (body := R (wrange_text r) ++ R gap ++ byte_val "w" :: R trail ++ [10%N]).
  assert (N : r = NoAddress -> R gap = []) by (intros ->; rewrite Ng; auto).
  assert (E : ends_at loud (byte_val "w" :: R trail ++ [10%N])) by reflexivity.
  assert (Hx : exists b e, fold_left (exec1 (lead ++ wrange_text r ++ gap ++ B "w" ++ trail ++ [nl])) (range_toks (List.length lead) r ++ [TAct 6]) zero_pstate
    = st b e (the_command ctwrite (wrange_start r) (wrange_end r) [] []) []).
  { rewrite fold_left_app. change zero_pstate with (st 0 0 zero_command []).
    destruct (exec_range lead r (gap ++ B "w" ++ trail ++ [nl]) 0 0 [] Hr) as (b&e&->). eexists _, _. reflexivity. }
  destruct Hx as (b&e&Hx).
  eapply frame with (body := body) (d := []) (lead := lead) (trail := trail); eauto.
  - rewrite runes_ascii; [now rewrite !R_app|].
    repeat apply ascii_app; auto using ascii_blanks, ascii_wrange; apply ascii_B1; (reflexivity || constructor).
  - apply range_not_blank; auto. intros Q. rewrite N by auto. reflexivity.
  - rewrite cmd_alts_ok. unfold cmd_alts, body. pose proof (blanks_N _ Hg).
    rewrite first_skip by (apply block_bare; alpha). rewrite first_skip by (apply block_param; alpha).
    rewrite first_skip by (apply block_range; alpha). rewrite first_skip by (apply block_addr; alpha).
    rewrite first_skip by (apply block_change; alpha). rewrite first_skip by (apply block_add; alpha).
    rewrite first_skip by (apply block_mark; alpha). rewrite first_skip by (apply block_dest; alpha).
    rewrite first_skip by (apply block_read; alpha). apply first_take.
    unfold r_writeCmd_of. assert (Ng' : ~ closed r -> R gap = []) by (intros Q; now rewrite Ng).
    rewrite alt_fail.
    + rewrite range_then' by auto. rewrite (seq_ok _ _ _ _ _ _ _ (chr_ok "w" _ (R trail ++ [10%N]))). reflexivity.
    + rewrite range_then' by auto. rewrite (seq_ok _ _ _ _ _ _ _ (chr_ok "w" _ (R trail ++ [10%N]))). now rewrite sp_param_fails.
Qed.

(* a file name and the blanks before it *)
Lemma name_runes : forall f, file_name f -> ~ In 10%N (runes_of f) /\ runes_of f <> [] /\ (forall T, ends_at blankN (runes_of f ++ T)).
Proof.
  intros f (Nn&c&t&->&N1&N2). split; [now apply no_nl_runes|].
  assert (H : exists x y, runes_of (c :: t) = x :: y) by (assert (Ne : c :: t <> []) by discriminate; destruct (decode_rune (c :: t)) as [x w] eqn:D; eexists _, _; apply (runes_of_step _ _ _ Ne D)).
  destruct H as (x&y&Q). split; [rewrite Q; discriminate|].
  intros T. rewrite Q. cbn. destruct (blankN x) eqn:Bx; auto. exfalso.
  apply blank_cases in Bx as [-> | ->];
    apply runes_of_head_ascii in Q as (b'&Q'); try reflexivity; injection Q' as -> _; [now apply N1|now apply N2].
Qed.
Lemma sp_param_ok : forall X pos b1 U, blanks b1 -> b1 <> [] -> ~ In 10%N U -> U <> [] -> (forall T, ends_at blankN (U ++ T)) ->
  pmatch (PSeq r_sp (PSeq (PText r_param) X)) pos (R b1 ++ U ++ [10%N]) =
  match pmatch X (pos + List.length b1 + List.length U) [10%N] with
  | POk p q t => POk p q (TText (pos + List.length b1) (pos + List.length b1 + List.length U) :: t)
  | x => x
  end.
Proof.
  intros X pos b1 U Hb Ne N NU E. destruct b1 as [|c b1]; [congruence|].
  assert (S : pmatch r_sp pos (R (c :: b1) ++ U ++ [10%N]) = POk (pos + List.length (c :: b1)) (U ++ [10%N]) []).
  { rewrite <- (R_length (c :: b1)). apply (r_sp_ok pos (byte_val c) (R b1) (U ++ [10%N])); [now apply (blanks_N (c :: b1))|apply E]. }
  rewrite (seq_ok _ _ _ _ _ _ _ S). rewrite (seq_ok _ _ _ _ _ _ _ (text_ok _ _ _ _ _ _ (param_ok U _ [] N NU))).
  cbn [app]. destruct (pmatch X _ [10%N]); reflexivity.
Qed.
Lemma write_file_command : forall lead r gap b1 f, blanks lead -> wrange_ok r -> blanks gap -> (~ closed r -> gap = []) ->
  blanks b1 -> b1 <> [] -> file_name f ->
  parsed (lead ++ wrange_text r ++ gap ++ B "w" ++ b1 ++ f ++ [nl])
    [the_command ctwrite (wrange_start r) (wrange_end r) (firstn (List.length (runes_of f)) f) []].
Proof.
  intros lead r gap b1 f Hl Hr Hg Ng Hb Nb Hf. destruct (name_runes f Hf) as (Nf&NNf&Ef).
  set (buf := lead ++ wrange_text r ++ gap ++ B "w" ++ b1 ++ f ++ [nl]).
  set (pre := lead ++ wrange_text r ++ gap ++ B "w" ++ b1).
  set (body := R (wrange_text r) ++ R gap ++ byte_val "w" :: R b1 ++ runes_of f ++ [10%N]).
  assert (Hbuf : buf = pre ++ f ++ [nl]) by (unfold buf, pre; now rewrite <- !app_assoc).
  assert (N : r = NoAddress -> R gap = []) by (intros ->; rewrite Ng; auto).
  assert (E : ends_at loud (byte_val "w" :: R b1 ++ runes_of f ++ [10%N])) by reflexivity.
  set (p0 := List.length pre).
  assert (Hx : exists b e, fold_left (exec1 buf) (range_toks (List.length lead) r ++ [TText p0 (p0 + List.length (runes_of f)); TAct 5]) zero_pstate
    = st b e (the_command ctwrite (wrange_start r) (wrange_end r) (firstn (List.length (runes_of f)) f) []) []).
  { rewrite fold_left_app. change zero_pstate with (st 0 0 zero_command []).
    assert (X : exists b e, fold_left (exec1 buf) (range_toks (List.length lead) r) (st 0 0 zero_command []) = st b e (the_command ctnull (wrange_start r) (wrange_end r) [] []) [])
      by (unfold buf; now apply exec_range).
    destruct X as (b&e&->).
    assert (Sl : slice buf p0 (p0 + List.length (runes_of f)) = firstn (List.length (runes_of f)) f).
    { unfold slice. replace (p0 + List.length (runes_of f) - p0) with (List.length (runes_of f)) by lia.
      rewrite Hbuf. unfold p0. rewrite skipn_len_app. apply firstn_short, runes_of_length. }
    cbn [fold_left exec1 act st p_begin p_end p_cmd p_addr p_done]. rewrite Sl. eexists _, _. reflexivity. }
  destruct Hx as (b&e&Hx).
  eapply frame with (body := body) (d := []) (lead := lead) (trail := []); eauto; [constructor| | |].
  - rewrite Hbuf. unfold pre. rewrite runes_R.
    + rewrite runes_of_cut by reflexivity. rewrite runes_of_nil, !R_app, <- !app_assoc. reflexivity.
    + repeat apply ascii_app; auto using ascii_blanks, ascii_wrange; apply ascii_B1; (reflexivity || constructor).
  - apply range_not_blank; auto. intros Q. rewrite N by auto. reflexivity.
  - rewrite cmd_alts_ok. unfold cmd_alts, body. pose proof (blanks_N _ Hg).
    rewrite first_skip by (apply block_bare; alpha). rewrite first_skip by (apply block_param; alpha).
    rewrite first_skip by (apply block_range; alpha). rewrite first_skip by (apply block_addr; alpha).
    rewrite first_skip by (apply block_change; alpha). rewrite first_skip by (apply block_add; alpha).
    rewrite first_skip by (apply block_mark; alpha). rewrite first_skip by (apply block_dest; alpha).
    rewrite first_skip by (apply block_read; alpha). apply first_take.
    unfold r_writeCmd_of. assert (Ng' : ~ closed r -> R gap = []) by (intros Q; now rewrite Ng).
    eapply alt_ok. rewrite range_then' by auto. rewrite (seq_ok _ _ _ _ _ _ _ (chr_ok "w" _ (R b1 ++ runes_of f ++ [10%N]))).
    rewrite sp_param_ok by auto. cbn [pmatch app R map]. f_equal. f_equal.
    assert (Q : S (List.length lead + List.length (wrange_text r) + List.length (R gap)) + List.length b1 = p0).
    { unfold p0, pre. rewrite !app_length, R_length. cbn. lia. }
    rewrite Q. reflexivity.
Qed.

(* ---- the null command ---- *)
Lemma null_command : forall lead r trail, blanks lead -> wrange_ok r -> (r = NoAddress \/ exists a, r = OneAddress a) -> blanks trail ->
  (r = NoAddress -> trail = []) ->
  parsed (lead ++ wrange_text r ++ trail ++ [nl]) [the_command ctnull (wrange_start r) zero_address [] []].
Proof.
  intros lead r trail Hl Hr Hr2 Ht Nt.
  set (body := R (wrange_text r) ++ R trail ++ byte_val nl :: []).
  assert (N : r = NoAddress -> R trail = []) by (intros Q; now rewrite Nt).
  assert (E : ends_at loud (byte_val nl :: [])) by reflexivity.
  set (toks := match r with OneAddress a => addr_toks (List.length lead) a ++ [TAct 17] | _ => [] end).
  assert (Hx : exists b e, fold_left (exec1 (lead ++ wrange_text r ++ trail ++ [nl])) toks zero_pstate
    = st b e (the_command ctnull (wrange_start r) zero_address [] []) []).
  { change zero_pstate with (st 0 0 zero_command []). unfold toks. destruct Hr2 as [->|[a ->]]; [eexists _, _; reflexivity|].
    cbn [wrange_text]. rewrite exec_start. eexists _, _. reflexivity. }
  destruct Hx as (b&e&Hx).
  eapply frame with (body := body) (d := []) (lead := lead) (trail := []) (p := List.length lead + List.length (wrange_text r) + List.length (R trail)); eauto; [constructor| | |].
  - rewrite runes_ascii; [now rewrite !R_app|].
    repeat apply ascii_app; auto using ascii_blanks, ascii_wrange; apply ascii_B1; (reflexivity || constructor).
  - apply range_not_blank; auto. intros Q. rewrite N by auto. reflexivity.
  - rewrite cmd_alts_ok. unfold cmd_alts, body. pose proof (blanks_N _ Ht).
    rewrite first_skip by (apply block_bare; alpha). rewrite first_skip by (apply block_param; alpha).
    rewrite first_skip by (apply block_range; alpha). rewrite first_skip by (apply block_addr; alpha).
    rewrite first_skip by (apply block_change; alpha). rewrite first_skip by (apply block_add; alpha).
    rewrite first_skip by (apply block_mark; alpha). rewrite first_skip by (apply block_dest; alpha).
    rewrite first_skip by (apply block_read; alpha). rewrite first_skip by (apply block_write; alpha).
    rewrite first_skip by (apply block_shell; alpha). apply first_take. unfold r_nullCmd, toks.
    destruct Hr2 as [->|[a ->]].
    + rewrite N by auto. cbn [wrange_text List.length]. rewrite !Nat.add_0_r. apply opt_fail, start_fails; reflexivity.
    + apply opt_ok. cbn [wrange_text]. rewrite start_ok by auto using loud_bds. reflexivity.
Qed.

(* ---- = ---- *)
Lemma line_number_command : forall lead a gap trail, blanks lead -> waddr_ok a -> blanks gap -> blanks trail ->
  parsed (lead ++ waddr_text a ++ gap ++ B "=" ++ trail ++ [nl])
    [the_command ctlineNumber (retext (read_as a) (waddr_text a ++ gap)) zero_address [] []].
Proof.
  intros lead a gap trail Hl Ha Hg Ht.
  set (body := R (waddr_text a) ++ R gap ++ byte_val "=" :: R trail ++ [10%N]).
  assert (E : ends_at loud (byte_val "=" :: R trail ++ [10%N])) by reflexivity.
  set (p0 := List.length lead). set (n := List.length (waddr_text a) + List.length gap).
  set (buf := lead ++ waddr_text a ++ gap ++ B "=" ++ trail ++ [nl]).
  assert (Hx : fold_left (exec1 buf) ((addr_toks p0 a ++ [TAct 17]) ++ [TText p0 (p0 + n); TAct 36; TAct 16]) zero_pstate
    = st p0 (p0 + n) (the_command ctlineNumber (retext (read_as a) (waddr_text a ++ gap)) zero_address [] []) []).
  { rewrite fold_left_app. change zero_pstate with (st 0 0 zero_command []). unfold p0 at 1, buf at 2. rewrite exec_start. fold p0.
    cbn [fold_left exec1 act st p_begin p_end p_cmd p_addr p_done with_typ set_cmd with_start c_start]. fold p0. fold buf.
    replace (slice buf p0 (p0 + n)) with (waddr_text a ++ gap); [reflexivity|].
    unfold buf, p0, n. rewrite (app_assoc (waddr_text a)), <- app_length. symmetry. apply slice_mid. }
  eapply frame with (body := body) (d := []) (lead := lead) (trail := trail); eauto.
  - unfold buf. rewrite runes_ascii; [now rewrite !R_app|].
    apply ascii_app; [auto using ascii_blanks|]. apply ascii_app; [now apply ascii_waddr|].
    repeat apply ascii_app; auto using ascii_blanks; apply ascii_B1; (reflexivity || constructor).
  - apply (range_not_blank (OneAddress a)); auto. discriminate.
  - rewrite cmd_alts_ok. unfold cmd_alts, body. pose proof (blanks_N _ Hg). change (waddr_text a) with (wrange_text (OneAddress a)).
    assert (N : OneAddress a = NoAddress -> R gap = []) by discriminate.
    rewrite first_skip by (apply block_bare; alpha). rewrite first_skip by (apply block_param; alpha).
    rewrite first_skip by (apply block_range; alpha). apply first_take. cbn [wrange_text].
    unfold r_addrCmd. eapply alt_ok.
    assert (S : pmatch r_startAddr (List.length lead) (R (waddr_text a) ++ R gap ++ byte_val "=" :: R trail ++ [10%N]) =
      POk (p0 + n) (byte_val "=" :: R trail ++ [10%N]) (addr_toks p0 a ++ [TAct 17])).
    { rewrite start_ok by auto using loud_bds. rewrite R_length. unfold p0, n. f_equal. lia. }
    rewrite (seq_ok _ _ _ _ _ _ _ (text_ok _ _ _ _ _ _ S)). unfold r_addrC.
    cbn [pmatch chr]. rewrite N.eqb_refl. cbn [app]. f_equal. rewrite <- !app_assoc. reflexivity.
Qed.
Lemma last_line_command : forall lead trail, blanks lead -> blanks trail ->
  parsed (lead ++ B "=" ++ trail ++ [nl]) [the_command ctlineNumber zero_address zero_address [] []].
Proof.
  intros lead trail Hl Ht.
  assert (E : ends_at loud (byte_val "=" :: R trail ++ [10%N])) by reflexivity.
  eapply frame with (body := byte_val "=" :: R trail ++ [10%N]) (d := []) (lead := lead) (trail := trail) (toks := [TAct 36]) (b := 0) (e := 0); eauto.
  - rewrite runes_ascii; [now rewrite !R_app|].
    repeat apply ascii_app; auto using ascii_blanks; apply ascii_B1; (reflexivity || constructor).
  - reflexivity.
Qed.

(* ---- commands without an address ---- *)
Definition bare_act (t : cmdType) : nat :=
  match t with cthelp => 26 | cthelpMode => 27 | ctprompt => 28 | ctquit => 29 | ctquitForce => 30 | _ => 31 end.
Lemma bare_command : forall lead x t trail, blanks lead -> bare_letter x t -> blanks trail ->
  parsed (lead ++ [x] ++ trail ++ [nl]) [the_command t zero_address zero_address [] []].
Proof.
  intros lead x t trail Hl Hx Ht.
  eapply frame with (body := byte_val x :: R trail ++ [10%N]) (d := []) (lead := lead) (trail := trail) (toks := [TAct (bare_act t)]) (b := 0) (e := 0); eauto.
  - rewrite runes_ascii; [now rewrite !R_app|].
    repeat apply ascii_app; auto using ascii_blanks; apply ascii_B1; try (reflexivity || constructor).
    cbn [In bare_letter] in Hx. repeat (destruct Hx as [Hx|Hx]; [injection Hx as <- <-; reflexivity|]). destruct Hx.
  - cbn [In bare_letter] in Hx. repeat (destruct Hx as [Hx|Hx]; [injection Hx as <- <-; reflexivity|]). destruct Hx.
  - rewrite cmd_alts_ok. unfold cmd_alts. apply first_take.
    cbn [In bare_letter] in Hx. repeat (destruct Hx as [Hx|Hx]; [injection Hx as <- <-; reflexivity|]). destruct Hx.
  - cbn [In bare_letter] in Hx. repeat (destruct Hx as [Hx|Hx]; [injection Hx as <- <-; reflexivity|]). destruct Hx.
Qed.
Definition file_act (t : cmdType) : nat := match t with ctedit => 33 | cteditForce => 34 | _ => 35 end.
Lemma file_ok : forall x t pos T, file_letter x t -> pmatch r_paramC pos (byte_val x :: T) = POk (S pos) T [TAct (file_act t)].
Proof.
  intros x t pos T Hx. cbn [In file_letter] in Hx. repeat (destruct Hx as [Hx|Hx]; [injection Hx as <- <-; reflexivity|]). destruct Hx.
Qed.
Lemma file_bare : forall x t pos T, file_letter x t -> pmatch r_bareCmd pos (byte_val x :: T) = PFail.
Proof.
  intros x t pos T Hx. apply cannot_start; try reflexivity. cbn [In file_letter] in Hx. repeat (destruct Hx as [Hx|Hx]; [injection Hx as <- <-; reflexivity|]). destruct Hx.
Qed.
Lemma file_command : forall lead x t trail, blanks lead -> file_letter x t -> blanks trail ->
  parsed (lead ++ [x] ++ trail ++ [nl]) [the_command t zero_address zero_address [] []].
Proof.
  intros lead x t trail Hl Hx Ht.
  eapply frame with (body := byte_val x :: R trail ++ [10%N]) (d := []) (lead := lead) (trail := trail) (toks := [TAct (file_act t)]) (b := 0) (e := 0); eauto.
  - rewrite runes_ascii; [now rewrite !R_app|].
    repeat apply ascii_app; auto using ascii_blanks; apply ascii_B1; try (reflexivity || constructor).
    cbn [In file_letter] in Hx. repeat (destruct Hx as [Hx|Hx]; [injection Hx as <- <-; reflexivity|]). destruct Hx.
  - cbn [In file_letter] in Hx. repeat (destruct Hx as [Hx|Hx]; [injection Hx as <- <-; reflexivity|]). destruct Hx.
  - rewrite cmd_alts_ok. unfold cmd_alts. rewrite first_skip by (eapply file_bare; eauto). apply first_take.
    unfold r_paramCmd. rewrite alt_fail; [now apply file_ok|].
    rewrite (seq_ok _ _ _ _ _ _ _ (file_ok x t _ _ Hx)). now rewrite sp_param_fails.
  - cbn [In file_letter] in Hx. repeat (destruct Hx as [Hx|Hx]; [injection Hx as <- <-; reflexivity|]). destruct Hx.
Qed.
Lemma file_name_command : forall lead x t b1 f, blanks lead -> file_letter x t -> blanks b1 -> b1 <> [] -> file_name f ->
  parsed (lead ++ [x] ++ b1 ++ f ++ [nl]) [the_command t zero_address zero_address [] [firstn (List.length (runes_of f)) f]].
Proof.
  intros lead x t b1 f Hl Hx Hb Nb Hf. destruct (name_runes f Hf) as (Nf&NNf&Ef).
  set (pre := lead ++ [x] ++ b1). set (p0 := List.length pre).
  assert (Hbuf : lead ++ [x] ++ b1 ++ f ++ [nl] = pre ++ f ++ [nl]) by (unfold pre; now rewrite <- !app_assoc).
  assert (Ax : (byte_val x < 128)%N).
  { cbn [In file_letter] in Hx. repeat (destruct Hx as [Hx|Hx]; [injection Hx as <- <-; reflexivity|]). destruct Hx. }
  rewrite Hbuf.
  eapply frame with (body := byte_val x :: R b1 ++ runes_of f ++ [10%N]) (d := []) (lead := lead) (trail := [])
    (toks := [TAct (file_act t); TText p0 (p0 + List.length (runes_of f)); TAct 32]) (b := p0) (e := p0 + List.length (runes_of f)); eauto.
  - constructor.
  - unfold pre. rewrite runes_R.
    + rewrite runes_of_cut by reflexivity. rewrite runes_of_nil, !R_app, <- !app_assoc. reflexivity.
    + repeat apply ascii_app; auto using ascii_blanks; apply ascii_B1; (reflexivity || constructor || auto).
  - cbn [In file_letter] in Hx. repeat (destruct Hx as [Hx|Hx]; [injection Hx as <- <-; reflexivity|]). destruct Hx.
  - rewrite cmd_alts_ok. unfold cmd_alts. rewrite first_skip by (eapply file_bare; eauto). apply first_take.
    unfold r_paramCmd. eapply alt_ok. rewrite (seq_ok _ _ _ _ _ _ _ (file_ok x t _ _ Hx)).
    rewrite sp_param_ok by auto. cbn [pmatch app R map]. f_equal. f_equal.
    assert (Q : S (List.length lead) + List.length b1 = p0) by (unfold p0, pre; rewrite !app_length; cbn; lia).
    rewrite Q. reflexivity.
  - assert (Sl : slice (pre ++ f ++ [nl]) p0 (p0 + List.length (runes_of f)) = firstn (List.length (runes_of f)) f).
    { unfold slice. replace (p0 + List.length (runes_of f) - p0) with (List.length (runes_of f)) by lia.
      unfold p0. rewrite skipn_len_app. apply firstn_short, runes_of_length. }
    assert (Hact : forall s, exec1 (pre ++ f ++ [nl]) s (TAct (file_act t)) = with_typ s t).
    { intros s. cbn [In file_letter] in Hx. repeat (destruct Hx as [Hx|Hx]; [injection Hx as <- <-; reflexivity|]). destruct Hx. }
    cbn [fold_left]. rewrite Hact. cbn [exec1 act p_begin p_end p_cmd p_addr p_done with_typ set_cmd]. rewrite Sl. reflexivity.
Qed.
