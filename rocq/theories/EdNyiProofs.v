(* Facts about the parser of ed: the commands k, m, t, r and !. *)
From Verif Require Import GoBase GoFacts NumFacts Utf8Facts RuneFacts EdModel EdPegModel EdPegSpec EdPegProofs EdPegProofs2 EdPegProofs3 EdPegProofs4 EdNyiSpec.
Local Open Scope nat_scope.

(* one address at most, and what follows it *)
Definition one_toks (pos : nat) (r : wrange) : list token :=
  match r with OneAddress a => addr_toks pos a ++ [TAct 17] | _ => [] end.
Lemma opt_start_ok : forall r pos gap T, wrange_ok r -> at_most_one r -> (r = NoAddress -> gap = []) -> blanksN gap -> ends_at loud T ->
  pmatch (POpt r_startAddr) pos (R (wrange_text r) ++ gap ++ T) =
  POk (pos + List.length (wrange_text r) + List.length gap) T (one_toks pos r).
Proof.
  intros r pos gap T H M N G E. destruct r as [|a| | | |]; try destruct M.
  - rewrite N by auto. cbn [wrange_text R map app List.length]. rewrite !Nat.add_0_r. apply opt_fail, start_fails; auto using loud_addr, loud_blank.
  - apply opt_ok. cbn [wrange_text wrange_ok] in *. apply start_ok; auto using loud_bds.
Qed.
Lemma exec_one : forall pre r post, at_most_one r -> exists b e,
  fold_left (exec1 (pre ++ wrange_text r ++ post)) (one_toks (List.length pre) r) zero_pstate =
  st b e (the_command ctnull (wrange_start r) zero_address [] []) [].
Proof.
  intros pre r post M. change zero_pstate with (st 0 0 zero_command []). destruct r as [|a| | | |]; try destruct M.
  - eexists _, _. reflexivity.
  - unfold one_toks. cbn [wrange_text]. rewrite exec_start. eexists _, _. reflexivity.
Qed.
Lemma fold_st : forall buf l s, fold_left (exec1 buf) [l] s = exec1 buf s l.
Proof. reflexivity. Qed.

(* ---- k ---- *)
Lemma mark_command' : forall lead r gap c trail, blanks lead -> wrange_ok r -> at_most_one r -> blanks gap -> (r = NoAddress -> gap = []) ->
  mark_name c -> blanks trail ->
  parsed (lead ++ wrange_text r ++ gap ++ B "k" ++ [c] ++ trail ++ [nl]) [the_command ctmark (wrange_start r) zero_address [] [[c]]].
Proof.
  intros lead r gap c trail Hl Hr Mr Hg Ng Hc Ht. unfold mark_name in Hc.
  set (buf := lead ++ wrange_text r ++ gap ++ B "k" ++ [c] ++ trail ++ [nl]).
  set (body := R (wrange_text r) ++ R gap ++ byte_val "k" :: byte_val c :: R trail ++ [10%N]).
  set (p0 := List.length (lead ++ wrange_text r ++ gap ++ B "k")).
  assert (N : r = NoAddress -> R gap = []) by (intros Q; now rewrite Ng).
  assert (E : ends_at loud (byte_val "k" :: byte_val c :: R trail ++ [10%N])) by reflexivity.
  assert (Hx : exists b e, fold_left (exec1 buf) (one_toks (List.length lead) r ++ [TText p0 (S p0); TAct 2]) zero_pstate
    = st b e (the_command ctmark (wrange_start r) zero_address [] [[c]]) []).
  { rewrite fold_left_app. unfold buf. destruct (exec_one lead r (gap ++ B "k" ++ [c] ++ trail ++ [nl]) Mr) as (b&e&->).
    fold buf. cbn [fold_left exec1 act st p_begin p_end p_cmd p_addr p_done].
    assert (Sl : slice buf p0 (S p0) = [c]).
    { replace buf with ((lead ++ wrange_text r ++ gap ++ B "k") ++ [c] ++ trail ++ [nl]) by (unfold buf; now rewrite <- !app_assoc).
      replace (S p0) with (p0 + List.length [c]) by (cbn [List.length]; lia). apply slice_mid. }
    rewrite Sl. eexists _, _. reflexivity. }
  destruct Hx as (b&e&Hx).
  eapply frame with (body := body) (d := []) (lead := lead) (trail := trail); eauto.
  - unfold buf. rewrite runes_ascii; [now rewrite !R_app|].
    repeat apply ascii_app; auto using ascii_blanks, ascii_wrange; apply ascii_B1; (reflexivity || constructor || lia).
  - apply range_not_blank; auto. intros Q. rewrite N by auto. reflexivity.
  - rewrite cmd_alts_ok. unfold cmd_alts, body. pose proof (blanks_N _ Hg).
    rewrite first_skip by (apply block_bare; alpha). rewrite first_skip by (apply block_param; alpha).
    rewrite first_skip by (apply block_range; alpha). rewrite first_skip by (apply block_addr; alpha).
    rewrite first_skip by (apply block_change; alpha). rewrite first_skip by (apply block_add; alpha).
    apply first_take. unfold r_markCmd.
    rewrite (seq_ok _ _ _ _ _ _ _ (opt_start_ok r _ (R gap) _ Hr Mr N H E)).
    rewrite (seq_ok _ _ _ _ _ _ _ (chr_ok "k" _ (byte_val c :: R trail ++ [10%N]))).
    set (q := S (List.length lead + List.length (wrange_text r) + List.length (R gap))). assert (Eq : q = p0).
    { unfold q, p0. rewrite !app_length, R_length. cbn [List.length B list_ascii_of_string]. lia. }
    assert (Rg : pmatch (rng "a" "z") q (byte_val c :: R trail ++ [10%N]) = POk (S q) (R trail ++ [10%N]) []).
    { cbn [pmatch rng]. change (byte_val "a") with 97%N. change (byte_val "z") with 122%N.
      destruct (N.leb_spec 97 (byte_val c)); [|lia]. destruct (N.leb_spec (byte_val c) 122); [|lia]. reflexivity. }
    rewrite (seq_ok _ _ _ _ _ _ _ (text_ok _ _ _ _ _ _ Rg)). cbn [pmatch app]. rewrite Eq. reflexivity.
Qed.
Lemma mark_command : forall lead r gap c trail, blanks lead -> wrange_ok r -> at_most_one r -> blanks gap ->
  mark_name c -> blanks trail ->
  parsed (lead ++ wrange_text r ++ gap ++ B "k" ++ [c] ++ trail ++ [nl]) [the_command ctmark (wrange_start r) zero_address [] [[c]]].
Proof.
  intros lead r gap c trail Hl Hr Mr Hg Hc Ht. destruct (no_address_dec r) as [->|Ne]; [|now apply mark_command'].
  pose proof (mark_command' (lead ++ gap) NoAddress [] c trail (blanks_app _ _ Hl Hg) I I (Forall_nil _) (fun _ => eq_refl) Hc Ht) as H.
  cbn [wrange_text app] in *. rewrite <- app_assoc in H. exact H.
Qed.

(* ---- m and t ---- *)
Definition dest_act (t : cmdType) : nat := match t with ctmove => 45 | _ => 46 end.
Lemma dest_letter_facts : forall x t, dest_letter x t -> x = "m"%char /\ t = ctmove \/ x = "t"%char /\ t = ctcopy.
Proof. intros x t H. cbn [In dest_letter] in H. destruct H as [H|[H|[]]]; injection H as <- <-; auto. Qed.
Lemma destC_ok : forall x t pos T, dest_letter x t -> pmatch r_destC pos (byte_val x :: T) = POk (S pos) T [TAct (dest_act t)].
Proof. intros x t pos T H. destruct (dest_letter_facts x t H) as [[-> ->]|[-> ->]]; reflexivity. Qed.
Lemma dest_blocks : forall x t lead r gap T, dest_letter x t -> wrange_ok r -> blanksN gap -> (r = NoAddress -> gap = []) ->
  first_of cmd_alts lead (R (wrange_text r) ++ gap ++ byte_val x :: T) =
  first_of [r_destCmd_of r_range; r_readCmd; r_writeCmd_of r_range; r_shellCmd; r_nullCmd] lead (R (wrange_text r) ++ gap ++ byte_val x :: T).
Proof.
  intros x t lead r gap T H Hr G N. unfold cmd_alts. destruct (dest_letter_facts x t H) as [[-> ->]|[-> ->]];
  (match goal with |- context [byte_val ?c :: T] => assert (E : ends_at loud (byte_val c :: T)) by reflexivity end;
    rewrite first_skip by (apply block_bare; alpha); rewrite first_skip by (apply block_param; alpha);
    rewrite first_skip by (apply block_range; alpha); rewrite first_skip by (apply block_addr; alpha);
    rewrite first_skip by (apply block_change; alpha); rewrite first_skip by (apply block_add; alpha);
    rewrite first_skip by (apply block_mark; alpha); reflexivity).
Qed.
Lemma dest_command' : forall lead r gap x t a trail, blanks lead -> wrange_ok r -> blanks gap -> (~ closed r -> gap = []) ->
  dest_letter x t -> waddr_ok a -> blanks trail ->
  parsed (lead ++ wrange_text r ++ gap ++ [x] ++ waddr_text a ++ trail ++ [nl]) [to_command t (wrange_start r) (wrange_end r) (read_as a)].
Proof.
  intros lead r gap x t a trail Hl Hr Hg Ng Hx Ha Ht.
  set (pre := lead ++ wrange_text r ++ gap ++ [x]).
  set (buf := lead ++ wrange_text r ++ gap ++ [x] ++ waddr_text a ++ trail ++ [nl]).
  assert (Hbuf : buf = pre ++ waddr_text a ++ trail ++ [nl]) by (unfold buf, pre; now rewrite <- !app_assoc).
  set (T := R (waddr_text a) ++ R trail ++ [10%N]).
  set (body := R (wrange_text r) ++ R gap ++ byte_val x :: T).
  set (p0 := List.length pre).
  assert (N : r = NoAddress -> R gap = []) by (intros ->; rewrite Ng; auto).
  assert (Ax : (byte_val x < 128)%N) by (destruct (dest_letter_facts x t Hx) as [[-> _]|[-> _]]; reflexivity).
  assert (E : ends_at loud (byte_val x :: T)) by (destruct (dest_letter_facts x t Hx) as [[-> _]|[-> _]]; reflexivity).
  assert (Hx' : exists b e, fold_left (exec1 buf) (range_toks (List.length lead) r ++ TAct (dest_act t) ::
      (addr_toks p0 a ++ [TText p0 (p0 + List.length (waddr_text a)); TAct 3])) zero_pstate
    = st b e (to_command t (wrange_start r) (wrange_end r) (read_as a)) []).
  { rewrite fold_left_app. change zero_pstate with (st 0 0 zero_command []).
    assert (X : exists b e, fold_left (exec1 buf) (range_toks (List.length lead) r) (st 0 0 zero_command []) = st b e (the_command ctnull (wrange_start r) (wrange_end r) [] []) [])
      by (unfold buf; now apply exec_range).
    destruct X as (b&e&->).
    assert (Q : fold_left (exec1 buf) [TAct (dest_act t)] (st b e (the_command ctnull (wrange_start r) (wrange_end r) [] []) []) =
      st b e (the_command t (wrange_start r) (wrange_end r) [] []) []) by (destruct (dest_letter_facts x t Hx) as [[_ ->]|[_ ->]]; reflexivity).
    change (TAct (dest_act t) :: ?l) with ([TAct (dest_act t)] ++ l). rewrite fold_left_app, Q, Hbuf. unfold p0. rewrite exec_dest.
    eexists _, _. reflexivity. }
  destruct Hx' as (b&e&Hx').
  eapply frame with (body := body) (d := []) (lead := lead) (trail := trail); eauto.
  - rewrite runes_ascii; [unfold buf, body, T; now rewrite !R_app|].
    pose proof (ascii_waddr a Ha) as Aw. revert Aw. unfold buf. generalize (waddr_text a) as w. intros w Aw.
    repeat apply ascii_app; auto using ascii_blanks, ascii_wrange; apply ascii_B1; (assumption || reflexivity || constructor).
  - apply range_not_blank; auto. intros Q. rewrite N by auto. now apply loud_blank.
  - rewrite cmd_alts_ok. unfold body. rewrite (dest_blocks x t) by auto using blanks_N. apply first_take.
    unfold r_destCmd_of. assert (Ng' : ~ closed r -> R gap = []) by (intros Q; now rewrite Ng).
    rewrite range_then' by auto using blanks_N. rewrite (seq_ok _ _ _ _ _ _ _ (destC_ok x t _ T Hx)).
    set (q := S (List.length lead + List.length (wrange_text r) + List.length (R gap))). assert (Eq : q = p0).
    { unfold q, p0, pre. rewrite !app_length, R_length. cbn [List.length]. lia. }
    assert (Ad : pmatch r_addrO q T = POk (q + List.length (waddr_text a)) (R trail ++ [10%N]) (addr_toks q a)).
    { apply r_addrO_ok; auto. pose proof (blanks_N _ Ht) as Bt. destruct (R trail) as [|y l]; [reflexivity|]. inversion Bt; subst.
      cbn [app ends_at]. apply blank_cases in H1 as [-> | ->]; reflexivity. }
    rewrite (seq_ok _ _ _ _ _ _ _ (text_ok _ _ _ _ _ _ Ad)). cbn [pmatch app]. rewrite Eq, <- app_assoc. reflexivity.
Qed.
Lemma dest_command : forall lead r gap x t a trail, blanks lead -> wrange_ok r -> blanks gap -> (r <> NoAddress -> ~ closed r -> gap = []) ->
  dest_letter x t -> waddr_ok a -> blanks trail ->
  parsed (lead ++ wrange_text r ++ gap ++ [x] ++ waddr_text a ++ trail ++ [nl]) [to_command t (wrange_start r) (wrange_end r) (read_as a)].
Proof.
  intros lead r gap x t a trail Hl Hr Hg Ng Hx Ha Ht. destruct (no_address_dec r) as [->|Ne].
  - pose proof (dest_command' (lead ++ gap) NoAddress [] x t a trail (blanks_app _ _ Hl Hg) I (Forall_nil _) (fun _ => eq_refl) Hx Ha Ht) as H.
    cbn [wrange_text app] in *. rewrite <- app_assoc in H. exact H.
  - apply dest_command'; auto.
Qed.

(* ---- r ---- *)
Lemma read_command' : forall lead r gap b1 f, blanks lead -> wrange_ok r -> at_most_one r -> blanks gap -> (r = NoAddress -> gap = []) ->
  blanks b1 -> b1 <> [] -> file_name f ->
  parsed (lead ++ wrange_text r ++ gap ++ B "r" ++ b1 ++ f ++ [nl]) [the_command ctread (wrange_start r) zero_address (first_bytes f) []].
Proof.
  intros lead r gap b1 f Hl Hr Mr Hg Ng Hb Nb Hf. destruct (name_runes f Hf) as (Nf&NNf&Ef).
  set (buf := lead ++ wrange_text r ++ gap ++ B "r" ++ b1 ++ f ++ [nl]).
  set (pre := lead ++ wrange_text r ++ gap ++ B "r" ++ b1).
  set (body := R (wrange_text r) ++ R gap ++ byte_val "r" :: R b1 ++ runes_of f ++ [10%N]).
  assert (Hbuf : buf = pre ++ f ++ [nl]) by (unfold buf, pre; now rewrite <- !app_assoc).
  assert (N : r = NoAddress -> R gap = []) by (intros Q; now rewrite Ng).
  assert (E : ends_at loud (byte_val "r" :: R b1 ++ runes_of f ++ [10%N])) by reflexivity.
  set (p0 := List.length pre).
  assert (Hx : exists b e, fold_left (exec1 buf) (one_toks (List.length lead) r ++ [TText p0 (p0 + List.length (runes_of f)); TAct 4]) zero_pstate
    = st b e (the_command ctread (wrange_start r) zero_address (first_bytes f) []) []).
  { rewrite fold_left_app. unfold buf. destruct (exec_one lead r (gap ++ B "r" ++ b1 ++ f ++ [nl]) Mr) as (b&e&->). fold buf.
    assert (Sl : slice buf p0 (p0 + List.length (runes_of f)) = first_bytes f).
    { unfold slice. replace (p0 + List.length (runes_of f) - p0) with (List.length (runes_of f)) by lia.
      rewrite Hbuf. unfold p0. rewrite skipn_len_app. apply firstn_short, runes_of_length. }
    cbn [fold_left exec1 act st p_begin p_end p_cmd p_addr p_done]. rewrite Sl. eexists _, _. reflexivity. }
  destruct Hx as (b&e&Hx).
  eapply frame with (body := body) (d := []) (lead := lead) (trail := []); eauto; [constructor| | |].
  - rewrite Hbuf. unfold pre. rewrite runes_R.
    + rewrite runes_of_cut by reflexivity. rewrite runes_of_nil, !R_app, <- !app_assoc. reflexivity.
    + repeat apply ascii_app; auto using ascii_blanks, ascii_wrange; apply ascii_B1; (reflexivity || constructor).
  - apply range_not_blank; auto. intros Q. rewrite N by auto. reflexivity.
  - rewrite cmd_alts_ok. unfold cmd_alts, body. pose proof (blanks_N _ Hg).
    rewrite first_skip by (apply block_bare; alpha). rewrite first_skip by (apply block_param; alpha).
    rewrite first_skip by (apply block_range; alpha). rewrite first_skip by (apply block_addr; alpha).
    rewrite first_skip by (apply block_change; alpha). rewrite first_skip by (apply block_add; alpha).
    rewrite first_skip by (apply block_mark; alpha). rewrite first_skip by (apply block_dest; alpha).
    apply first_take. unfold r_readCmd.
    rewrite (seq_ok _ _ _ _ _ _ _ (opt_start_ok r _ (R gap) _ Hr Mr N H E)).
    rewrite (seq_ok _ _ _ _ _ _ _ (chr_ok "r" _ (R b1 ++ runes_of f ++ [10%N]))).
    rewrite sp_param_ok by auto. cbn [pmatch app R map]. f_equal.
    assert (Q : S (List.length lead + List.length (wrange_text r) + List.length (R gap)) + List.length b1 = p0).
    { unfold p0, pre. rewrite !app_length, R_length. cbn. lia. }
    rewrite Q. reflexivity.
Qed.
Lemma read_command : forall lead r gap b1 f, blanks lead -> wrange_ok r -> at_most_one r -> blanks gap ->
  blanks b1 -> b1 <> [] -> file_name f ->
  parsed (lead ++ wrange_text r ++ gap ++ B "r" ++ b1 ++ f ++ [nl]) [the_command ctread (wrange_start r) zero_address (first_bytes f) []].
Proof.
  intros lead r gap b1 f Hl Hr Mr Hg Hb Nb Hf. destruct (no_address_dec r) as [->|Ne]; [|now apply read_command'].
  pose proof (read_command' (lead ++ gap) NoAddress [] b1 f (blanks_app _ _ Hl Hg) I I (Forall_nil _) (fun _ => eq_refl) Hb Nb Hf) as H.
  cbn [wrange_text app] in *. rewrite <- app_assoc in H. exact H.
Qed.

(* ---- ! ---- *)
Lemma shell_command : forall lead s, blanks lead -> one_line s ->
  parsed (lead ++ B "!" ++ s ++ [nl]) [the_command ctshell zero_address zero_address (first_bytes s) []].
Proof.
  intros lead s Hl [Ne Nn].
  set (buf := lead ++ B "!" ++ s ++ [nl]). set (pre := lead ++ B "!").
  set (body := byte_val "!" :: runes_of s ++ [10%N]).
  assert (Hbuf : buf = pre ++ s ++ [nl]) by (unfold buf, pre; now rewrite <- !app_assoc).
  assert (NU : ~ In 10%N (runes_of s)) by now apply no_nl_runes.
  assert (NeU : runes_of s <> []).
  { destruct (decode_rune s) as [x w] eqn:D. rewrite (runes_of_step _ _ _ Ne D). discriminate. }
  set (p0 := List.length pre).
  assert (E : ends_at loud (byte_val "!" :: runes_of s ++ [10%N])) by reflexivity.
  assert (Sl : slice buf p0 (p0 + List.length (runes_of s)) = first_bytes s).
  { unfold slice. replace (p0 + List.length (runes_of s) - p0) with (List.length (runes_of s)) by lia.
    rewrite Hbuf. unfold p0. rewrite skipn_len_app. apply firstn_short, runes_of_length. }
  eapply frame with (body := body) (d := []) (lead := lead) (trail := []) (toks := [TText p0 (p0 + List.length (runes_of s)); TAct 7]) (b := p0) (e := p0 + List.length (runes_of s)); auto; [apply Forall_nil| | |].
  - rewrite Hbuf. unfold pre. rewrite runes_R.
    + rewrite runes_of_cut by reflexivity. rewrite runes_of_nil, !R_app, <- !app_assoc. reflexivity.
    + apply ascii_app; auto using ascii_blanks. apply ascii_B1; (reflexivity || constructor).
  - rewrite cmd_alts_ok. change body with (R (wrange_text NoAddress) ++ [] ++ body). unfold cmd_alts, body.
    assert (W : wrange_ok NoAddress) by exact I. assert (N : NoAddress = NoAddress -> @nil N = []) by auto. assert (G : blanksN []) by constructor.
    rewrite first_skip by (apply block_bare; alpha). rewrite first_skip by (apply block_param; alpha).
    rewrite first_skip by (apply block_range; alpha). rewrite first_skip by (apply block_addr; alpha).
    rewrite first_skip by (apply block_change; alpha). rewrite first_skip by (apply block_add; alpha).
    rewrite first_skip by (apply block_mark; alpha). rewrite first_skip by (apply block_dest; alpha).
    rewrite first_skip by (apply block_read; alpha). rewrite first_skip by (apply block_write; alpha).
    apply first_take. cbn [R map wrange_text app]. unfold r_shellCmd.
    rewrite (seq_ok _ _ _ _ _ _ _ (chr_ok "!" _ (runes_of s ++ [10%N]))).
    assert (Q : S (List.length lead) = p0) by (unfold p0, pre; rewrite app_length; cbn; lia).
    rewrite Q. rewrite (seq_ok _ _ _ _ _ _ _ (text_ok _ _ _ _ _ _ (param_ok _ p0 [] NU NeU))). reflexivity.
  - cbn [fold_left exec1 act zero_pstate p_begin p_end p_cmd p_addr p_done]. rewrite Sl. reflexivity.
Qed.

(* ---- what is not read ---- *)
(* after the alternatives before the last have failed, what follows the range stops the line *)
Lemma null_stops : forall lead r gap x T, blanks lead -> wrange_ok r -> blanks gap -> (r = NoAddress -> gap = []) ->
  ends_at loud (byte_val x :: T) -> byte_val x <> 10%N ->
  let body := R (wrange_text r) ++ R gap ++ byte_val x :: T in
  pmatch r_cmd (List.length lead) body = pmatch r_nullCmd (List.length lead) body -> pmatch r_e 0 (R lead ++ body) = PFail.
Proof.
  intros lead r gap x T Hl Hr Hg Ng E Nx body M.
  assert (N : r = NoAddress -> R gap = []) by (intros Q; now rewrite Ng).
  assert (Hb : ends_at blankN body) by (apply range_not_blank; auto; intros Q; rewrite N by auto; now apply loud_blank).
  assert (Bx : blankN (byte_val x) = false) by (apply loud_blank in E; exact E).
  assert (S1 : exists p y U toks, pmatch r_nullCmd (List.length lead) body = POk p (y :: U) toks /\ blankN y = false /\ y <> 10%N).
  { destruct (start_rest r (List.length lead) (R gap) _ Hr N (blanks_N _ Hg) E) as [F|(p&rest&toks&S&Q)].
    - exists (List.length lead). unfold r_nullCmd. fold body in F. rewrite (opt_fail _ _ _ F).
      destruct r as [|a|a b1 s b2 b0|a b1 s|s b2 b0|s]; cbn [wrange_ok wrange_text] in *; unfold body in *; cbn [wrange_text] in *.
      + rewrite N by auto. eexists _, _, _. split; [reflexivity|auto].
      + rewrite start_ok in F by auto using blanks_N, loud_bds. discriminate.
      + exfalso. destruct Hr as (Ha&Hb1&Sp&_). revert F. rewrite !R_app, <- !app_assoc. cbn [R map app].
        rewrite start_ok by auto using blanks_N, sep_bds. discriminate.
      + exfalso. destruct Hr as (Ha&Hb1&Sp). revert F. rewrite !R_app, <- !app_assoc. cbn [R map app].
        rewrite start_ok by auto using blanks_N, sep_bds. discriminate.
      + destruct Hr as [Sp _]. eexists _, _, _. split; [reflexivity|]. destruct Sp as [-> | ->]; split; (reflexivity || discriminate).
      + eexists _, _, _. split; [reflexivity|]. destruct Hr as [-> | ->]; split; (reflexivity || discriminate).
    - unfold r_nullCmd. fold body in S. rewrite (opt_ok _ _ _ _ _ _ S). destruct Q as [->|(s&t&Sp&->)].
      + eexists _, _, _, _. split; [reflexivity|auto].
      + eexists _, _, _, _. split; [reflexivity|]. destruct Sp as [-> | ->]; split; (reflexivity || discriminate). }
  destruct S1 as (p&y&U&toks&S1&By&Ny).
  eapply e_stops with (trail := []) (y := y) (T := U) (p := p) (toks := toks); eauto using blanks_N; [constructor|].
  rewrite R_length. cbn [Nat.add app]. now rewrite M.
Qed.
(* m and t followed by something that is no address *)
Lemma dest_rejected : forall lead r gap x t rest, blanks lead -> wrange_ok r -> blanks gap -> (r = NoAddress -> gap = []) -> dest_letter x t ->
  ends_at addr_start (runes_of rest) -> rejected (lead ++ wrange_text r ++ gap ++ [x] ++ rest).
Proof.
  intros lead r gap x t rest Hl Hr Hg Ng Hx Hs. apply reject_one.
  { intros Q. apply app_eq_nil in Q as [_ Q]. apply app_eq_nil in Q as [_ Q]. apply app_eq_nil in Q as [_ Q]. discriminate. }
  assert (Ax : (byte_val x < 128)%N) by (destruct (dest_letter_facts x t Hx) as [[-> _]|[-> _]]; reflexivity).
  assert (N : r = NoAddress -> R gap = []) by (intros Q; now rewrite Ng).
  set (T := runes_of rest) in *.
  assert (E : ends_at loud (byte_val x :: T)) by (destruct (dest_letter_facts x t Hx) as [[-> _]|[-> _]]; reflexivity).
  assert (Hruns : runes_of (lead ++ wrange_text r ++ gap ++ [x] ++ rest) = R lead ++ (R (wrange_text r) ++ R gap ++ byte_val x :: T)).
  { replace (lead ++ wrange_text r ++ gap ++ [x] ++ rest) with ((lead ++ wrange_text r ++ gap ++ [x]) ++ rest) by now rewrite <- !app_assoc.
    rewrite runes_R; [now rewrite !R_app, <- !app_assoc|].
    repeat apply ascii_app; auto using ascii_blanks, ascii_wrange. apply ascii_B1; [auto|constructor]. }
  rewrite Hruns. apply null_stops; auto; [destruct (dest_letter_facts x t Hx) as [[-> _]|[-> _]]; discriminate|].
  pose proof (blanks_N _ Hg) as G.
  rewrite cmd_alts_ok, (dest_blocks x t) by auto.
  assert (F : pmatch (r_destCmd_of r_range) (List.length lead) (R (wrange_text r) ++ R gap ++ byte_val x :: T) = PFail).
  { unfold r_destCmd_of. apply range_block; auto.
    - intros p. rewrite (seq_ok _ _ _ _ _ _ _ (destC_ok x t p T Hx)).
      assert (Z : pmatch (PText r_addrO) (S p) T = PFail) by (cbn [pmatch]; now rewrite r_addrO_fails).
      rewrite (seq_fail _ _ _ _ Z). reflexivity.
    - intros c p u Bc. apply seq_fail, cannot_start; try reflexivity. apply blank_cases in Bc as [-> | ->]; reflexivity. }
  rewrite first_skip by exact F.
  destruct (dest_letter_facts x t Hx) as [[-> ->]|[-> ->]];
  (rewrite first_skip by (apply block_read; alpha); rewrite first_skip by (apply block_write; alpha);
   rewrite first_skip by (apply block_shell; alpha); cbn [first_of]; destruct (pmatch r_nullCmd _ _); reflexivity).
Qed.
(* r without a file name *)
Lemma read_rejected : forall lead r gap trail, blanks lead -> wrange_ok r -> blanks gap -> (r = NoAddress -> gap = []) -> blanks trail ->
  rejected (lead ++ wrange_text r ++ gap ++ B "r" ++ trail ++ [nl]).
Proof.
  intros lead r gap trail Hl Hr Hg Ng Ht. apply reject_one.
  { intros Q. apply app_eq_nil in Q as [_ Q]. apply app_eq_nil in Q as [_ Q]. apply app_eq_nil in Q as [_ Q]. discriminate. }
  assert (N : r = NoAddress -> R gap = []) by (intros Q; now rewrite Ng).
  set (T := R trail ++ [10%N]) in *.
  assert (E : ends_at loud (byte_val "r" :: T)) by reflexivity.
  assert (Hruns : runes_of (lead ++ wrange_text r ++ gap ++ B "r" ++ trail ++ [nl]) = R lead ++ (R (wrange_text r) ++ R gap ++ byte_val "r" :: T)).
  { rewrite runes_ascii; [unfold T; now rewrite !R_app|].
    repeat apply ascii_app; auto using ascii_blanks, ascii_wrange; apply ascii_B1; (reflexivity || constructor). }
  rewrite Hruns. apply null_stops; auto; [discriminate|].
  pose proof (blanks_N _ Hg) as G. rewrite cmd_alts_ok. unfold cmd_alts.
  rewrite first_skip by (apply block_bare; alpha). rewrite first_skip by (apply block_param; alpha).
  rewrite first_skip by (apply block_range; alpha). rewrite first_skip by (apply block_addr; alpha).
  rewrite first_skip by (apply block_change; alpha). rewrite first_skip by (apply block_add; alpha).
  rewrite first_skip by (apply block_mark; alpha). rewrite first_skip by (apply block_dest; alpha).
  assert (F : pmatch r_readCmd (List.length lead) (R (wrange_text r) ++ R gap ++ byte_val "r" :: T) = PFail).
  { unfold r_readCmd. apply opt_start_block; auto.
    - intros p. rewrite (seq_ok _ _ _ _ _ _ _ (chr_ok "r" p T)). unfold T. now rewrite sp_param_fails.
    - intros s p u [-> | ->]; reflexivity. }
  rewrite first_skip by exact F. rewrite first_skip by (apply block_write; alpha). rewrite first_skip by (apply block_shell; alpha).
  cbn [first_of]. destruct (pmatch r_nullCmd _ _); reflexivity.
Qed.

(* s, g, G, v and V *)
Lemma edit_letter_rejected : forall lead r gap x rest, blanks lead -> wrange_ok r -> blanks gap -> (r = NoAddress -> gap = []) -> edit_letter x ->
  rejected (lead ++ wrange_text r ++ gap ++ [x] ++ rest).
Proof.
  intros lead r gap x rest Hl Hr Hg Ng Hx. apply reject_one.
  { intros Q. apply app_eq_nil in Q as [_ Q]. apply app_eq_nil in Q as [_ Q]. apply app_eq_nil in Q as [_ Q]. discriminate. }
  assert (N : r = NoAddress -> R gap = []) by (intros Q; now rewrite Ng).
  set (T := runes_of rest) in *.
  assert (Ax : (byte_val x < 128)%N) by (cbn in Hx; repeat (destruct Hx as [<-|Hx]; [reflexivity|]); destruct Hx).
  assert (Hruns : runes_of (lead ++ wrange_text r ++ gap ++ [x] ++ rest) = R lead ++ (R (wrange_text r) ++ R gap ++ byte_val x :: T)).
  { replace (lead ++ wrange_text r ++ gap ++ [x] ++ rest) with ((lead ++ wrange_text r ++ gap ++ [x]) ++ rest) by now rewrite <- !app_assoc.
    rewrite runes_R; [now rewrite !R_app, <- !app_assoc|].
    repeat apply ascii_app; auto using ascii_blanks, ascii_wrange. apply ascii_B1; [auto|constructor]. }
  rewrite Hruns. clear Hruns. pose proof (blanks_N _ Hg) as G.
  cbn [edit_letter In] in Hx. repeat (destruct Hx as [<-|Hx]; [
    match goal with |- context [byte_val ?c :: T] => assert (E : ends_at loud (byte_val c :: T)) by reflexivity end;
    apply null_stops; auto; [discriminate|]; rewrite cmd_alts_ok; unfold cmd_alts;
    rewrite first_skip by (apply block_bare; alpha); rewrite first_skip by (apply block_param; alpha);
    rewrite first_skip by (apply block_range; alpha); rewrite first_skip by (apply block_addr; alpha);
    rewrite first_skip by (apply block_change; alpha); rewrite first_skip by (apply block_add; alpha);
    rewrite first_skip by (apply block_mark; alpha); rewrite first_skip by (apply block_dest; alpha);
    rewrite first_skip by (apply block_read; alpha); rewrite first_skip by (apply block_write; alpha);
    rewrite first_skip by (apply block_shell; alpha); cbn [first_of]; destruct (pmatch r_nullCmd _ _); reflexivity|]). destruct Hx.
Qed.

(* ---- all of them ---- *)
Lemma unserved_parsed : forall l c, unserved l c -> parsed (l ++ [nl]) [c].
Proof.
  intros l c H. destruct H; rewrite <- ?app_assoc; cbn [app].
  - now apply bare_command.
  - now apply file_command.
  - now apply file_name_command.
  - now apply range_command.
  - now apply mark_command.
  - now apply dest_command.
  - now apply read_command.
  - now apply shell_command.
Qed.
