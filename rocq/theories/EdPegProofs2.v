(* Facts about the parser of ed: commands and what they are read as. *)
From Verif Require Import GoBase GoFacts NumFacts Utf8Facts RuneFacts EdModel EdPegModel EdPegSpec EdPegProofs.
Local Open Scope nat_scope.

(* ---- Execute on addresses and ranges ---- *)
Lemma slice_mid : forall {A} (pre x post : list A), slice (pre ++ x ++ post) (List.length pre) (List.length pre + List.length x) = x.
Proof.
  intros. unfold slice. replace (List.length pre + List.length x - List.length pre) with (List.length x) by lia.
  rewrite skipn_len_app. rewrite firstn_app, firstn_all, Nat.sub_diag. cbn. apply List.app_nil_r.
Qed.
Definition st (b e : nat) (c : command) (d : list pevent) : pstate :=
  {| p_begin := b; p_end := e; p_cmd := c; p_addr := zero_address; p_done := d |}.
Lemma exec_addr : forall pre a post b e c d,
  fold_left (exec1 (pre ++ waddr_text a ++ post)) (addr_toks (List.length pre) a) (st b e c d) =
  {| p_begin := List.length pre; p_end := List.length pre + List.length (waddr_text a); p_cmd := c; p_addr := read_as a; p_done := d |}.
Proof.
  intros pre a post b e c d. unfold addr_toks. rewrite fold_left_app.
  set (buf := pre ++ waddr_text a ++ post).
  assert (S1 : exists b' e', fold_left (exec1 buf) (base_toks (List.length pre) (w_base a)) (st b e c d) =
    {| p_begin := b'; p_end := e'; p_cmd := c;
       p_addr := {| a_typ := base_typ (w_base a); a_text := []; a_offset := 0 |}; p_done := d |}).
  { destruct (w_base a); cbn [base_toks fold_left exec1 act base_typ]; eexists _, _; reflexivity. }
  destruct S1 as (b'&e'&->). cbn [fold_left exec1 act p_begin p_end p_cmd p_addr p_done].
  unfold buf. rewrite slice_mid. reflexivity.
Qed.
(* an address becomes the first one of the command, or the second *)
Lemma exec_start : forall pre a post b e c d,
  fold_left (exec1 (pre ++ waddr_text a ++ post)) (addr_toks (List.length pre) a ++ [TAct 17]) (st b e c d) =
  st (List.length pre) (List.length pre + List.length (waddr_text a))
     {| c_typ := c_typ c; c_start := read_as a; c_end := c_end c; c_dest := c_dest c; c_text := c_text c; c_params := c_params c |} d.
Proof. intros. rewrite fold_left_app, exec_addr. reflexivity. Qed.
Lemma exec_end : forall pre a post b e c d,
  fold_left (exec1 (pre ++ waddr_text a ++ post)) (addr_toks (List.length pre) a ++ [TAct 18]) (st b e c d) =
  st (List.length pre) (List.length pre + List.length (waddr_text a))
     {| c_typ := c_typ c; c_start := c_start c; c_end := read_as a; c_dest := c_dest c; c_text := c_text c; c_params := c_params c |} d.
Proof. intros. rewrite fold_left_app, exec_addr. reflexivity. Qed.
Lemma exec_dest : forall pre a post b e c d,
  fold_left (exec1 (pre ++ waddr_text a ++ post)) (addr_toks (List.length pre) a ++ [TText (List.length pre) (List.length pre + List.length (waddr_text a)); TAct 3]) (st b e c d) =
  st (List.length pre) (List.length pre + List.length (waddr_text a))
     {| c_typ := c_typ c; c_start := c_start c; c_end := c_end c; c_dest := read_as a; c_text := c_text c; c_params := c_params c |} d.
Proof. intros. rewrite fold_left_app, exec_addr. reflexivity. Qed.
Lemma exec_range : forall pre r post b e d, wrange_ok r -> exists b' e',
  fold_left (exec1 (pre ++ wrange_text r ++ post)) (range_toks (List.length pre) r) (st b e zero_command d) =
  st b' e' (the_command ctnull (wrange_start r) (wrange_end r) [] []) d.
Proof.
  intros pre r post b e d H. destruct r as [|a|a b1 s b2 b0|a b1 s|s b2 b0|s]; cbn [wrange_text range_toks wrange_start wrange_end wrange_ok] in *.
  - exists b, e. reflexivity.
  - change [TAct 17; TAct 13] with ([TAct 17] ++ [TAct 13]). rewrite (app_assoc (addr_toks _ a)), fold_left_app, exec_start.
    eexists _, _. reflexivity.
  - rewrite (app_assoc (addr_toks _ a)), fold_left_app.
    rewrite <- (app_assoc (waddr_text a)), exec_start.
    replace (List.length pre + List.length (waddr_text a) + List.length b1 + 1 + List.length b2)
      with (List.length (pre ++ waddr_text a ++ b1 ++ [s] ++ b2)) by (rewrite !app_length; cbn; lia).
    replace (pre ++ waddr_text a ++ (b1 ++ [s] ++ b2 ++ waddr_text b0) ++ post)
      with ((pre ++ waddr_text a ++ b1 ++ [s] ++ b2) ++ waddr_text b0 ++ post) by now rewrite <- !app_assoc.
    rewrite exec_end. eexists _, _. reflexivity.
  - rewrite <- (app_assoc (waddr_text a)).
    change [TAct 17; TAct (if comma s then 9 else 11)] with ([TAct 17] ++ [TAct (if comma s then 9 else 11)]).
    rewrite (app_assoc (addr_toks _ a)), fold_left_app, exec_start. destruct (comma s); eexists _, _; reflexivity.
  - replace (pre ++ ([s] ++ b2 ++ waddr_text b0) ++ post) with ((pre ++ [s] ++ b2) ++ waddr_text b0 ++ post) by now rewrite <- !app_assoc.
    replace (List.length pre + 1 + List.length b2) with (List.length (pre ++ [s] ++ b2)) by (rewrite !app_length; cbn; lia).
    change [TAct 18; TAct (if comma s then 10 else 12)] with ([TAct 18] ++ [TAct (if comma s then 10 else 12)]).
    rewrite (app_assoc (addr_toks _ b0)), fold_left_app, exec_end. unfold implied. unfold comma. destruct (Ascii.eqb s ","); eexists _, _; reflexivity.
  - unfold implied, comma. destruct (Ascii.eqb s ","); eexists _, _; reflexivity.
Qed.

(* ---- the frame of a command line ---- *)
Definition r_cmd := r_cmd_of r_range.
Definition r_e := r_e_of r_range.
Definition cmd_alts : list pexp :=
  [r_bareCmd; r_paramCmd; r_rangeCmd_of r_range; r_addrCmd; r_changeTextCmd_of r_range; r_addTextCmd;
   r_markCmd; r_destCmd_of r_range; r_readCmd; r_writeCmd_of r_range; r_shellCmd; r_nullCmd].
Lemma cmd_alts_ok : forall pos rest, pmatch r_cmd pos rest = first_of cmd_alts pos rest.
Proof. intros. exact (spine_ok 11 r_cmd pos rest). Qed.
Lemma e_ok : forall lead body pos p trail T toks, blanksN lead -> ends_at blankN body -> blanksN trail ->
  pmatch r_cmd (pos + List.length lead) body = POk p (trail ++ byte_val nl :: T) toks ->
  pmatch r_e pos (lead ++ body) = POk (p + List.length trail + 1) T (toks ++ [TAct 1]).
Proof.
  intros lead body pos p trail T toks Bl Eb Bt H. unfold r_e, r_e_of.
  rewrite (seq_ok _ _ _ _ _ _ _ (sps_ok pos lead body Bl Eb)).
  fold r_cmd. rewrite (seq_ok _ _ _ _ _ _ _ H).
  rewrite (seq_ok _ _ _ _ _ _ _ (sps_ok p trail (byte_val nl :: T) Bt eq_refl)).
  unfold r_newLine. rewrite (seq_ok _ _ _ _ _ _ _ (chr_ok nl _ T)). cbn [pmatch app]. f_equal. lia.
Qed.
Lemma first_one : forall rest p toks, pmatch r_e 0 rest = POk p [] toks ->
  pmatch r_first 0 rest = POk p [] (toks ++ [TAct 0]).
Proof.
  intros rest p toks H. unfold r_first, r_first_of. fold r_e.
  assert (M : 0 < p) by (eapply nonnullable_moves; [|exact H]; reflexivity).
  assert (F : forall q, pmatch r_e q [] = PFail) by (intros; apply cannot_start_nil; reflexivity).
  assert (S : pmatch (PStar r_e) 0 rest = POk p [] toks).
  { cbn [pmatch]. rewrite star_loop_S, H. destruct (Nat.eqb_spec p 0); [lia|].
    destruct rest as [|x rest]; [rewrite F in H; discriminate|]. cbn [List.length]. rewrite star_loop_S, F.
    now rewrite List.app_nil_r. }
  rewrite (seq_ok _ _ _ _ _ _ _ S). reflexivity.
Qed.
Lemma parse_one : forall buf toks p, pmatch r_e 0 (runes_of buf) = POk p [] (toks ++ [TAct 1]) ->
  Parse buf = Val (Some (toks ++ [TAct 1; TAct 0])).
Proof.
  intros buf toks p H. unfold Parse, Parse_with. rewrite (first_one _ _ _ H), <- app_assoc. reflexivity.
Qed.
Lemma execute_one : forall buf toks b e c d, fold_left (exec1 buf) toks zero_pstate = st b e c d ->
  Execute buf (toks ++ [TAct 1; TAct 0]) = rev d ++ [ESend c].
Proof. intros. unfold Execute. rewrite fold_left_app, H. reflexivity. Qed.
Lemma sent_app : forall a b, sent (a ++ b) = sent a ++ sent b.
Proof. induction a as [|[c|s] a IH]; intros; cbn; auto. now rewrite IH. Qed.
Lemma events_one : forall buf toks p b e c d, pmatch r_e 0 (runes_of buf) = POk p [] (toks ++ [TAct 1]) ->
  fold_left (exec1 buf) toks zero_pstate = st b e c d -> exists toks', Parse buf = Val (Some toks') /\ Execute buf toks' = rev d ++ [ESend c].
Proof.
  intros buf toks p b e c d H X. exists (toks ++ [TAct 1; TAct 0]). split; [eapply parse_one; eauto|]. now apply (execute_one _ _ _ _ _ _ X).
Qed.
Lemma parsed_one : forall buf toks p b e c d, pmatch r_e 0 (runes_of buf) = POk p [] (toks ++ [TAct 1]) ->
  fold_left (exec1 buf) toks zero_pstate = st b e c d -> sent d = [] -> parsed buf [c].
Proof.
  intros buf toks p b e c d H X D. exists (toks ++ [TAct 1; TAct 0]). split; [eapply parse_one; eauto|].
  rewrite (execute_one _ _ _ _ _ _ X), sent_app. replace (sent (rev d)) with (@nil command); [reflexivity|].
  symmetry. clear -D. induction d as [|[c|s] d IH]; cbn in *; auto; [discriminate|]. now rewrite sent_app, IH.
Qed.

(* a line that starts with an address or a separator is not one of these commands *)
Lemma addr_heads : forall c, (starts r_addr (byte_val c) = true \/ separator c) ->
  starts r_bareCmd (byte_val c) = false /\ starts r_paramCmd (byte_val c) = false /\ starts r_shellCmd (byte_val c) = false.
Proof.
  intros c [H|[-> | ->]]; try (repeat split; reflexivity).
  revert H. destruct c as [[] [] [] [] [] [] [] []]; vm_compute; intros H; try discriminate H; repeat split.
Qed.
Lemma range_head : forall r, wrange_ok r -> r <> NoAddress -> exists c t, wrange_text r = c :: t /\
  (starts r_addr (byte_val c) = true \/ separator c).
Proof.
  intros r H Ne. destruct r as [|a|a b1 s b2 b0|a b1 s|s b2 b0|s]; [congruence| | | | |]; cbn [wrange_ok wrange_text] in *.
  - destruct (waddr_head_addr a H) as (c&t&->&E). exists c, t. auto.
  - destruct H as (Ha&_). destruct (waddr_head_addr a Ha) as (c&t&->&E). exists c. eexists. split; [reflexivity|auto].
  - destruct H as (Ha&_). destruct (waddr_head_addr a Ha) as (c&t&->&E). exists c. eexists. split; [reflexivity|auto].
  - destruct H as (S&_). exists s. eexists. split; [reflexivity|auto].
  - exists s. eexists. split; [reflexivity|auto].
Qed.
Lemma range_blocks : forall r pos T, wrange_ok r -> r <> NoAddress ->
  pmatch r_bareCmd pos (R (wrange_text r) ++ T) = PFail /\ pmatch r_paramCmd pos (R (wrange_text r) ++ T) = PFail /\
  pmatch r_shellCmd pos (R (wrange_text r) ++ T) = PFail.
Proof.
  intros r pos T H Ne. destruct (range_head r H Ne) as (c&t&->&E). destruct (addr_heads c E) as (E1&E2&E3).
  repeat split; apply cannot_start; auto.
Qed.
Lemma addr_not_blank : forall c, starts r_addr (byte_val c) = true -> blankN (byte_val c) = false.
Proof. intros c. destruct c as [[] [] [] [] [] [] [] []]; vm_compute; intros H; try discriminate H; reflexivity. Qed.
Lemma range_not_blank : forall r T, wrange_ok r -> (r = NoAddress -> ends_at blankN T) -> ends_at blankN (R (wrange_text r) ++ T).
Proof.
  intros r T H N. destruct r eqn:Er; [cbn; auto| | | | |]; rewrite <- Er in *; clear N;
    (destruct (range_head r H) as (c&t&->&E); [congruence|]); cbn;
    (destruct E as [E|[-> | ->]]; [now apply addr_not_blank|reflexivity|reflexivity]).
Qed.
(* the part of the blanks after a range that the range takes, and what it leaves *)
Lemma range_then : forall r pos gap T X, wrange_ok r -> (r = NoAddress -> gap = []) -> blanksN gap -> ends_at loud T ->
  pmatch (PSeq (POpt r_range) (PSeq (PStar r_sp) X)) pos (R (wrange_text r) ++ gap ++ T) =
  match pmatch X (pos + List.length (wrange_text r) + List.length gap) T with
  | POk p q t => POk p q (range_toks pos r ++ t)
  | x => x
  end.
Proof.
  intros r pos gap T X H N G E. rewrite (seq_ok _ _ _ _ _ _ _ (opt_range_ok r pos gap T H N G E)).
  assert (S : pmatch (PStar r_sp) (pos + List.length (wrange_text r) + used r gap) (if closedb r then T else gap ++ T) =
    POk (pos + List.length (wrange_text r) + List.length gap) T []).
  { unfold used. destruct (closedb r); [apply sps_none, loud_blank, E|]. rewrite sps_ok by auto using loud_blank. f_equal. lia. }
  rewrite (seq_ok _ _ _ _ _ _ _ S). destruct (pmatch X _ T); reflexivity.
Qed.
(* without the blanks: the range must end in an address or the command follow at once *)
Lemma range_then' : forall r pos gap T X, wrange_ok r -> (~ closed r -> gap = []) -> blanksN gap -> ends_at loud T ->
  pmatch (PSeq (POpt r_range) X) pos (R (wrange_text r) ++ gap ++ T) =
  match pmatch X (pos + List.length (wrange_text r) + List.length gap) T with
  | POk p q t => POk p q (range_toks pos r ++ t)
  | x => x
  end.
Proof.
  intros r pos gap T X H N G E.
  assert (N' : r = NoAddress -> gap = []) by (intros ->; apply N; intros []).
  rewrite (seq_ok _ _ _ _ _ _ _ (opt_range_ok r pos gap T H N' G E)).
  assert (S : (pos + List.length (wrange_text r) + used r gap = pos + List.length (wrange_text r) + List.length gap) /\
              (if closedb r then T else gap ++ T) = T).
  { unfold used. destruct (closedb r) eqn:C; auto. assert (gap = []) as -> by (apply N; destruct r; cbn in *; (discriminate || tauto)).
    split; reflexivity. }
  destruct S as [-> ->]. destruct (pmatch X _ T); reflexivity.
Qed.

(* ---- everything written is ASCII ---- *)
Lemma ascii_app : forall a b, ascii_only a -> ascii_only b -> ascii_only (a ++ b).
Proof. intros. now apply Forall_app. Qed.
Lemma ascii_blanks : forall b, blanks b -> ascii_only b.
Proof. intros b H. eapply Forall_impl; [|exact H]. intros c [-> | ->]; reflexivity. Qed.
Lemma ascii_digits : forall b, digits b -> ascii_only b.
Proof. intros b H. eapply Forall_impl; [|exact H]. intros c D. unfold is_dec_digit in D. unfold byte_val. cbv beta. lia. Qed.
Lemma ascii_B1 : forall c b, (byte_val c < 128)%N -> ascii_only b -> ascii_only (c :: b).
Proof. intros. now constructor. Qed.
Lemma ascii_waddr : forall a, waddr_ok a -> ascii_only (waddr_text a).
Proof.
  intros [b o] [Hb Ho]. unfold waddr_text. cbn [w_base w_off] in *. apply ascii_app.
  - destruct b as [ds| | |re|m|re]; cbn [base_text base_ok] in *.
    + now apply ascii_digits.
    + apply ascii_B1; [reflexivity|constructor].
    + apply ascii_B1; [reflexivity|constructor].
    + apply ascii_B1; [reflexivity|]. apply ascii_app; [tauto|]. apply ascii_B1; [reflexivity|constructor].
    + apply ascii_B1; [reflexivity|]. apply ascii_B1; [lia|constructor].
    + apply ascii_B1; [reflexivity|]. apply ascii_app; [tauto|]. apply ascii_B1; [reflexivity|constructor].
  - destruct Ho as [->|(s&ks&->&S&D)]; [constructor|]. apply ascii_B1; [destruct S as [-> | ->]; reflexivity|now apply ascii_digits].
Qed.
Lemma ascii_sep : forall s, separator s -> (byte_val s < 128)%N.
Proof. intros s [-> | ->]; reflexivity. Qed.
Lemma ascii_wrange : forall r, wrange_ok r -> ascii_only (wrange_text r).
Proof.
  intros r H. destruct r as [|a|a b1 s b2 b|a b1 s|s b2 b|s]; cbn [wrange_ok wrange_text] in *.
  - constructor.
  - now apply ascii_waddr.
  - destruct H as (?&?&?&?&?). apply ascii_app; [now apply ascii_waddr|]. apply ascii_app; [now apply ascii_blanks|].
    apply ascii_B1; [now apply ascii_sep|]. apply ascii_app; [now apply ascii_blanks|now apply ascii_waddr].
  - destruct H as (?&?&?). apply ascii_app; [now apply ascii_waddr|]. apply ascii_app; [now apply ascii_blanks|].
    apply ascii_B1; [now apply ascii_sep|constructor].
  - destruct H as (?&?&?). apply ascii_B1; [now apply ascii_sep|]. apply ascii_app; [now apply ascii_blanks|now apply ascii_waddr].
  - apply ascii_B1; [now apply ascii_sep|constructor].
Qed.
Lemma blanks_app : forall a b, blanks a -> blanks b -> blanks (a ++ b).
Proof. intros. now apply Forall_app. Qed.

Lemma no_address_dec : forall r, r = NoAddress \/ r <> NoAddress.
Proof. intros []; (now left) || (right; discriminate). Qed.

(* ---- the commands d, j, l, n and p ---- *)
Definition range_act (t : cmdType) : nat :=
  match t with ctdelete => 40 | ctjoin => 41 | ctlist => 42 | ctnumber => 43 | _ => 44 end.
Lemma rangeC_ok : forall x t pos T, range_letter x t -> pmatch r_rangeC pos (byte_val x :: T) = POk (S pos) T [TAct (range_act t)].
Proof.
  intros x t pos T H. cbn [In range_letter] in H.
  repeat (destruct H as [H|H]; [injection H as <- <-; reflexivity|]). destruct H.
Qed.
Lemma range_letter_facts : forall x t T, range_letter x t -> ends_at loud (byte_val x :: T) /\
  (byte_val x < 128)%N /\ starts r_bareCmd (byte_val x) = false /\ starts r_paramCmd (byte_val x) = false.
Proof.
  intros x t T H. cbn [In range_letter] in H.
  repeat (destruct H as [H|H]; [injection H as <- <-; repeat split|]). destruct H.
Qed.
Lemma range_command' : forall lead r gap x t trail, blanks lead -> wrange_ok r -> blanks gap -> (r = NoAddress -> gap = []) ->
  range_letter x t -> blanks trail ->
  parsed (lead ++ wrange_text r ++ gap ++ [x] ++ trail ++ [nl]) [the_command t (wrange_start r) (wrange_end r) [] []].
Proof.
  intros lead r gap x t trail Hl Hr Hg Ng Hx Ht.
  destruct (range_letter_facts x t (R trail ++ [byte_val nl]) Hx) as (Lx&Ax&F1&F2).
  set (body := R (wrange_text r) ++ R gap ++ byte_val x :: R trail ++ [byte_val nl]).
  assert (Hruns : runes_of (lead ++ wrange_text r ++ gap ++ [x] ++ trail ++ [nl]) = R lead ++ body).
  { rewrite <- (List.app_nil_r (_ ++ _)). rewrite runes_R.
    - rewrite runes_of_nil, List.app_nil_r, !R_app. reflexivity.
    - repeat apply ascii_app; auto using ascii_blanks, ascii_wrange; apply ascii_B1; auto; try constructor. }
  assert (Hb : ends_at blankN body).
  { apply range_not_blank; auto. intros Q. rewrite (Ng Q). cbn [R map app]. now apply loud_blank. }
  assert (Hc : pmatch r_cmd (0 + List.length (R lead)) body =
    POk (List.length lead + List.length (wrange_text r) + List.length gap + 1) (R trail ++ byte_val nl :: [])
      (range_toks (List.length lead) r ++ [TAct (range_act t)])).
  { rewrite cmd_alts_ok. unfold cmd_alts. rewrite R_length. cbn [Nat.add].
    assert (F : pmatch r_bareCmd (List.length lead) body = PFail /\ pmatch r_paramCmd (List.length lead) body = PFail).
    { destruct (no_address_dec r) as [Er|Er].
      - unfold body. rewrite (Ng Er), Er. cbn [wrange_text R map app]. split; apply cannot_start; auto.
      - destruct (range_blocks r (List.length lead) (R gap ++ byte_val x :: R trail ++ [byte_val nl]) Hr Er) as (?&?&_); auto. }
    rewrite first_skip by apply F. rewrite first_skip by apply F. apply first_take.
    unfold r_rangeCmd_of, body.
    rewrite range_then; auto using blanks_N; [|intros Q; now rewrite (Ng Q)].
    rewrite (rangeC_ok x t) by auto. rewrite R_length. f_equal. lia. }
  destruct (exec_range lead r (gap ++ [x] ++ trail ++ [nl]) 0 0 [] Hr) as (b'&e'&X).
  eapply parsed_one with (toks := range_toks (List.length lead) r ++ [TAct (range_act t)]) (d := []); [|rewrite fold_left_app; change zero_pstate with (st 0 0 zero_command []); rewrite X|reflexivity].
  - rewrite Hruns. eapply e_ok; eauto using blanks_N.
  - cbn [fold_left exec1]. cbn [In range_letter] in Hx.
    repeat (destruct Hx as [Hx|Hx]; [injection Hx as <- <-; reflexivity|]). destruct Hx.
Qed.
Theorem range_command : forall lead r gap x t trail, blanks lead -> wrange_ok r -> blanks gap ->
  range_letter x t -> blanks trail ->
  parsed (lead ++ wrange_text r ++ gap ++ [x] ++ trail ++ [nl]) [the_command t (wrange_start r) (wrange_end r) [] []].
Proof.
  intros lead r gap x t trail Hl Hr Hg Hx Ht. destruct r eqn:Er; try (apply range_command'; auto; congruence).
  cbn [wrange_text app]. pose proof (range_command' (lead ++ gap) NoAddress [] x t trail (blanks_app _ _ Hl Hg) I (Forall_nil _) (fun _ => eq_refl) Hx Ht) as H.
  cbn [wrange_text app] in H. rewrite <- app_assoc in H. exact H.
Qed.

(* ---- text ---- *)
(* no newline followed by a dot *)
Definition no_term (U : list N) : Prop := forall a b, U <> a ++ 10%N :: 46%N :: b.
Lemma text_chars : forall U pos k T, no_term U -> List.length U < k ->
  star_loop (pmatch (PSeq (PNot r_textTerm) PDot)) k pos (U ++ 10%N :: 46%N :: T) = POk (pos + List.length U) (10%N :: 46%N :: T) [].
Proof.
  induction U as [|c U IH]; intros pos k T N L; (destruct k as [|k]; [cbn in L; lia|]); rewrite star_loop_S.
  - cbn [app List.length]. rewrite Nat.add_0_r. reflexivity.
  - assert (E : pmatch (PSeq (PNot r_textTerm) PDot) pos ((c :: U) ++ 10%N :: 46%N :: T) = POk (S pos) (U ++ 10%N :: 46%N :: T) []).
    { cbn [pmatch r_textTerm chr app]. change (byte_val nl) with 10%N. change (byte_val ".") with 46%N.
      destruct (N.eqb_spec c 10) as [->|]; auto.
      destruct U as [|d U]; cbn [app]; auto.
      destruct (N.eqb_spec d 46) as [->|]; auto. exfalso. now apply (N [] U). }
    rewrite E. destruct (Nat.eqb_spec (S pos) pos); [lia|]. rewrite IH.
    + cbn [List.length app]. f_equal. lia.
    + intros a b ->. now apply (N (c :: a) b).
    + cbn in L. lia.
Qed.
Lemma text_rule : forall U pos T, no_term U ->
  pmatch r_text pos (U ++ 10%N :: 46%N :: T) = POk (pos + List.length U + 2) T [TText pos (pos + List.length U); TAct 8].
Proof.
  intros U pos T N. unfold r_text.
  assert (S : pmatch (PText (PStar (PSeq (PNot r_textTerm) PDot))) pos (U ++ 10%N :: 46%N :: T) =
    POk (pos + List.length U) (10%N :: 46%N :: T) [TText pos (pos + List.length U)]).
  { replace [TText pos (pos + List.length U)] with ([] ++ [TText pos (pos + List.length U)]) by reflexivity. apply text_ok.
    change (pmatch (PStar (PSeq (PNot r_textTerm) PDot)) pos (U ++ 10%N :: 46%N :: T)) with
      (star_loop (pmatch (PSeq (PNot r_textTerm) PDot)) (S (List.length (U ++ 10%N :: 46%N :: T))) pos (U ++ 10%N :: 46%N :: T)).
    apply text_chars; auto. rewrite app_length. lia. }
  rewrite (seq_ok _ _ _ _ _ _ _ S). unfold r_textTerm. cbn [pmatch chr].
  change (byte_val nl) with 10%N. change (byte_val ".") with 46%N. cbn [N.eqb Pos.eqb app]. f_equal. lia.
Qed.

(* ---- what fails before a command is reached ---- *)
Lemma start_rest : forall r pos gap T, wrange_ok r -> (r = NoAddress -> gap = []) -> blanksN gap -> ends_at loud T ->
  pmatch r_startAddr pos (R (wrange_text r) ++ gap ++ T) = PFail \/
  exists p rest toks, pmatch r_startAddr pos (R (wrange_text r) ++ gap ++ T) = POk p rest toks /\
    (rest = T \/ exists s t, separator s /\ rest = byte_val s :: t).
Proof.
  intros r pos gap T H N G E. destruct r as [|a|a b1 s b2 b0|a b1 s|s b2 b0|s]; cbn [wrange_ok wrange_text] in *.
  - left. rewrite N by auto. apply start_fails; auto using loud_addr, loud_blank.
  - right. rewrite start_ok by auto using loud_bds. eexists _, _, _. split; [reflexivity|auto].
  - destruct H as (Ha&Hb1&S&_). right. rewrite !R_app, <- !app_assoc.
    cbn [R map app]. rewrite start_ok by auto using blanks_N, sep_bds. eexists _, _, _. split; [reflexivity|]. right. eexists _, _. eauto.
  - destruct H as (Ha&Hb1&S). right. rewrite !R_app, <- !app_assoc.
    cbn [R map app]. rewrite start_ok by auto using blanks_N, sep_bds. eexists _, _, _. split; [reflexivity|]. right. eexists _, _. eauto.
  - left. destruct H as (S&_). apply sep_start_fails; auto.
  - left. apply sep_start_fails; auto.
Qed.
(* a rule that begins with startAddr or startAddr? fails when what follows the range does not fit *)
Lemma start_block : forall r pos gap T X, wrange_ok r -> (r = NoAddress -> gap = []) -> blanksN gap -> ends_at loud T ->
  (forall p, pmatch X p T = PFail) -> (forall s p t, separator s -> pmatch X p (byte_val s :: t) = PFail) ->
  pmatch (PSeq r_startAddr X) pos (R (wrange_text r) ++ gap ++ T) = PFail.
Proof.
  intros r pos gap T X H N G E F1 F2. destruct (start_rest r pos gap T H N G E) as [S|(p&rest&toks&S&Q)].
  - now apply seq_fail.
  - rewrite (seq_ok _ _ _ _ _ _ _ S). destruct Q as [->|(s&t&S'&->)]; [now rewrite F1|now rewrite F2].
Qed.
Lemma text_of_start_block : forall r pos gap T X, wrange_ok r -> (r = NoAddress -> gap = []) -> blanksN gap -> ends_at loud T ->
  (forall p, pmatch X p T = PFail) -> (forall s p t, separator s -> pmatch X p (byte_val s :: t) = PFail) ->
  pmatch (PSeq (PText r_startAddr) X) pos (R (wrange_text r) ++ gap ++ T) = PFail.
Proof.
  intros r pos gap T X H N G E F1 F2. destruct (start_rest r pos gap T H N G E) as [S|(p&rest&toks&S&Q)].
  - apply seq_fail. cbn [pmatch]. now rewrite S.
  - rewrite (seq_ok _ _ _ _ _ _ _ (text_ok _ _ _ _ _ _ S)). destruct Q as [->|(s&t&S'&->)]; [now rewrite F1|now rewrite F2].
Qed.
Lemma opt_start_block : forall r pos gap T X, wrange_ok r -> (r = NoAddress -> gap = []) -> blanksN gap -> ends_at loud T ->
  (forall p, pmatch X p T = PFail) -> (forall s p t, separator s -> pmatch X p (byte_val s :: t) = PFail) ->
  pmatch (PSeq (POpt r_startAddr) X) pos (R (wrange_text r) ++ gap ++ T) = PFail.
Proof.
  intros r pos gap T X H N G E F1 F2. destruct (start_rest r pos gap T H N G E) as [S|(p&rest&toks&S&Q)].
  - rewrite (seq_ok _ _ _ _ _ _ _ (opt_fail _ _ _ S)).
    assert (F : pmatch X pos (R (wrange_text r) ++ gap ++ T) = PFail).
    { destruct (no_address_dec r) as [->|Nr]; [rewrite N by auto; apply F1|].
      destruct r as [|a|a b1 s b2 b0|a b1 s|s b2 b0|s]; [congruence| | | | |]; cbn [wrange_ok wrange_text] in *.
      - exfalso. rewrite start_ok in S by auto using loud_bds. discriminate.
      - exfalso. destruct H as (Ha&Hb1&Sp&_). revert S. rewrite !R_app, <- !app_assoc. cbn [R map app].
        rewrite start_ok by auto using blanks_N, sep_bds. discriminate.
      - exfalso. destruct H as (Ha&Hb1&Sp). revert S. rewrite !R_app, <- !app_assoc. cbn [R map app].
        rewrite start_ok by auto using blanks_N, sep_bds. discriminate.
      - apply F2. tauto.
      - apply F2. tauto. }
    now rewrite F.
  - rewrite (seq_ok _ _ _ _ _ _ _ (opt_ok _ _ _ _ _ _ S)). destruct Q as [->|(s&t&S'&->)]; [now rewrite F1|now rewrite F2].
Qed.
(* the same for rules that begin with range? *)
Lemma range_block : forall r pos gap T X, wrange_ok r -> (r = NoAddress -> gap = []) -> blanksN gap -> ends_at loud T ->
  (forall p, pmatch X p T = PFail) -> (forall c p t, blankN c = true -> pmatch X p (c :: t) = PFail) ->
  pmatch (PSeq (POpt r_range) X) pos (R (wrange_text r) ++ gap ++ T) = PFail.
Proof.
  intros r pos gap T X H N G E F1 F2. rewrite (seq_ok _ _ _ _ _ _ _ (opt_range_ok r pos gap T H N G E)).
  destruct (closedb r); [now rewrite F1|]. destruct gap as [|c gap]; [cbn [app]; now rewrite F1|].
  inversion G; subst. cbn [app]. now rewrite F2.
Qed.
Lemma head_block : forall r pos gap T X, wrange_ok r -> (r = NoAddress -> gap = []) ->
  (forall p, pmatch X p T = PFail) ->
  (forall c p t, starts r_addr (byte_val c) = true \/ separator c -> pmatch X p (byte_val c :: t) = PFail) ->
  pmatch X pos (R (wrange_text r) ++ gap ++ T) = PFail.
Proof.
  intros r pos gap T X H N F1 F2. destruct (no_address_dec r) as [->|Nr]; [rewrite N by auto; apply F1|].
  destruct (range_head r H Nr) as (c&t&->&E). apply F2; auto.
Qed.
Lemma blank_cases : forall c, blankN c = true -> c = 32%N \/ c = 9%N.
Proof. intros c H. apply orb_true_iff in H as [H|H]; apply N.eqb_eq in H; auto. Qed.

(* The alternatives before the k-th fail on a range followed by a character none of them can go on with. *)
Section Blocks.
  Variables (r : wrange) (pos : nat) (gap T : list N) (x : ascii).
  Hypotheses (H : wrange_ok r) (N : r = NoAddress -> gap = []) (G : blanksN gap) (E : ends_at loud (byte_val x :: T)).
  Let body := R (wrange_text r) ++ gap ++ byte_val x :: T.
  Lemma block_bare : starts r_bareCmd (byte_val x) = false -> pmatch r_bareCmd pos body = PFail.
  Proof.
    intros F. apply head_block; auto; intros; apply cannot_start; auto. now apply addr_heads.
  Qed.
  Lemma block_param : starts r_paramCmd (byte_val x) = false -> pmatch r_paramCmd pos body = PFail.
  Proof.
    intros F. apply head_block; auto; intros; apply cannot_start; auto. now apply addr_heads.
  Qed.
  Lemma block_shell : starts r_shellCmd (byte_val x) = false -> pmatch r_shellCmd pos body = PFail.
  Proof.
    intros F. apply head_block; auto; intros; apply cannot_start; auto. now apply addr_heads.
  Qed.
  Lemma block_range : starts r_rangeC (byte_val x) = false -> pmatch (r_rangeCmd_of r_range) pos body = PFail.
  Proof.
    intros F. unfold r_rangeCmd_of, body. rewrite range_then by auto. rewrite cannot_start; auto.
  Qed.
  Lemma block_addr : Ascii.eqb x "=" = false -> pmatch r_addrCmd pos body = PFail.
  Proof.
    intros F. assert (F' : starts r_addrC (byte_val x) = false).
    { change (starts r_addrC (byte_val x)) with ((byte_val x =? byte_val "=")%N || false)%bool. now rewrite byte_eqb, F. }
    unfold r_addrCmd. rewrite alt_fail.
    - apply head_block; auto; intros; apply cannot_start; auto.
      destruct H0 as [H0|[-> | ->]]; try reflexivity.
      revert H0. destruct c as [[] [] [] [] [] [] [] []]; vm_compute; intros Q; (discriminate Q || reflexivity).
    - apply text_of_start_block; auto; intros; apply seq_fail, cannot_start; auto. destruct H0 as [-> | ->]; reflexivity.
  Qed.
  Lemma block_change : Ascii.eqb x "c" = false -> pmatch (r_changeTextCmd_of r_range) pos body = PFail.
  Proof.
    intros F. assert (F' : starts r_changeTextC (byte_val x) = false).
    { change (starts r_changeTextC (byte_val x)) with ((byte_val x =? byte_val "c")%N || false)%bool. now rewrite byte_eqb, F. }
    unfold r_changeTextCmd_of. apply range_block; auto; intros; apply seq_fail, cannot_start; auto.
    apply blank_cases in H0 as [-> | ->]; reflexivity.
  Qed.
  Lemma block_add : starts r_addTextC (byte_val x) = false -> pmatch r_addTextCmd pos body = PFail.
  Proof.
    intros F. unfold r_addTextCmd. apply opt_start_block; auto; intros; apply seq_fail, cannot_start; auto.
    destruct H0 as [-> | ->]; reflexivity.
  Qed.
  Lemma block_mark : Ascii.eqb x "k" = false -> pmatch r_markCmd pos body = PFail.
  Proof.
    intros F. unfold r_markCmd. apply opt_start_block; auto; intros; apply seq_fail.
    - cbn [pmatch chr]. now rewrite byte_eqb, F.
    - destruct H0 as [-> | ->]; reflexivity.
  Qed.
  Lemma block_dest : starts r_destC (byte_val x) = false -> pmatch (r_destCmd_of r_range) pos body = PFail.
  Proof.
    intros F. unfold r_destCmd_of. apply range_block; auto; intros; apply seq_fail, cannot_start; auto.
    apply blank_cases in H0 as [-> | ->]; reflexivity.
  Qed.
  Lemma block_read : Ascii.eqb x "r" = false -> pmatch r_readCmd pos body = PFail.
  Proof.
    intros F. unfold r_readCmd. apply opt_start_block; auto; intros; apply seq_fail.
    - cbn [pmatch chr]. now rewrite byte_eqb, F.
    - destruct H0 as [-> | ->]; reflexivity.
  Qed.
  Lemma block_write : Ascii.eqb x "w" = false -> pmatch (r_writeCmd_of r_range) pos body = PFail.
  Proof.
    intros F. unfold r_writeCmd_of. rewrite alt_fail; (apply range_block; auto; intros; apply seq_fail;
      [cbn [pmatch chr]; now rewrite byte_eqb, F|apply blank_cases in H0 as [-> | ->]; reflexivity]).
  Qed.
End Blocks.

(* ---- a, i and c ---- *)
Lemma runes_text : forall pre t post, ascii_only pre -> ascii_only post ->
  runes_of (pre ++ t ++ [nl; "."%char] ++ post) = R pre ++ runes_of t ++ 10%N :: 46%N :: R post.
Proof.
  intros pre t post A P. rewrite runes_R by auto. f_equal.
  change (t ++ [nl; "."%char] ++ post) with (t ++ nl :: ("."%char :: post)).
  rewrite runes_of_cut by reflexivity. f_equal. change (byte_val nl) with 10%N. f_equal.
  rewrite runes_of_ascii_cons by reflexivity. change (byte_val ".") with 46%N. f_equal.
  rewrite <- (List.app_nil_r post) at 1. rewrite runes_R by auto. now rewrite runes_of_nil, List.app_nil_r.
Qed.
Definition text_act (x : ascii) : nat := if Ascii.eqb x "a" then 38 else if Ascii.eqb x "i" then 39 else 37.
Lemma loud_text : forall x T, text_letter x -> ends_at loud (byte_val x :: T).
Proof. intros x T [-> |[-> | ->]]; reflexivity. Qed.

Lemma text_cmd : forall pos r gap x U trail, wrange_ok r -> text_letter x -> text_range x r -> blanksN gap -> (~ closed r -> gap = []) ->
  no_term U ->
  exists toks,
  pmatch r_cmd pos (R (wrange_text r) ++ gap ++ byte_val x :: 10%N :: U ++ 10%N :: 46%N :: trail) =
  POk (pos + List.length (wrange_text r) + List.length gap + 2 + List.length U + 2) trail
    (toks ++ [TAct (text_act x); TText (pos + List.length (wrange_text r) + List.length gap + 2)
                                       (pos + List.length (wrange_text r) + List.length gap + 2 + List.length U); TAct 8]) /\
  (x = "c"%char -> toks = range_toks pos r) /\
  (x <> "c"%char -> toks = match r with OneAddress a => addr_toks pos a ++ [TAct 17] | _ => [] end).
Proof.
  intros pos r gap x U trail Hr Hx Tx Hg Ng HU.
  assert (N : r = NoAddress -> gap = []) by (intros ->; apply Ng; intros []).
  assert (E : ends_at loud (byte_val x :: 10%N :: U ++ 10%N :: 46%N :: trail)) by now apply loud_text.
  rewrite cmd_alts_ok. unfold cmd_alts.
  rewrite first_skip by (apply block_bare; auto; destruct Hx as [-> |[-> | ->]]; reflexivity).
  rewrite first_skip by (apply block_param; auto; destruct Hx as [-> |[-> | ->]]; reflexivity).
  rewrite first_skip by (apply block_range; auto; destruct Hx as [-> |[-> | ->]]; reflexivity).
  rewrite first_skip by (apply block_addr; auto; destruct Hx as [-> |[-> | ->]]; reflexivity).
  destruct (Ascii.eqb_spec x "c") as [->|Nc].
  - exists (range_toks pos r). split; [|split; congruence].
    apply first_take. unfold r_changeTextCmd_of. rewrite range_then' by auto.
    unfold r_changeTextC, r_newLine. cbn [pmatch chr]. rewrite !N.eqb_refl.
    change (byte_val nl =? byte_val nl)%N with true. change (10 =? byte_val nl)%N with true. cbn [app].
    rewrite text_rule by auto. cbn [app]. f_equal; [lia|]. f_equal. change (text_act "c") with 37. f_equal. f_equal. f_equal; lia.
  - exists (match r with OneAddress a => addr_toks pos a ++ [TAct 17] | _ => [] end). split; [|split; congruence].
    rewrite first_skip by (apply block_change; auto; destruct Hx as [-> |[-> | ->]]; (reflexivity || congruence)).
    apply first_take. unfold r_addTextCmd.
    assert (Hs : pmatch (POpt r_startAddr) pos (R (wrange_text r) ++ gap ++ byte_val x :: 10%N :: U ++ 10%N :: 46%N :: trail) =
      POk (pos + List.length (wrange_text r) + List.length gap) (byte_val x :: 10%N :: U ++ 10%N :: 46%N :: trail)
        (match r with OneAddress a => addr_toks pos a ++ [TAct 17] | _ => [] end)).
    { assert (Hr2 : r = NoAddress \/ exists a, r = OneAddress a).
      { destruct Hx as [-> |[-> | ->]]; [| |congruence]; cbn in Tx; destruct r; try tauto; eauto. }
      destruct Hr2 as [->|[a ->]].
      - rewrite N by auto. cbn [wrange_text R map app List.length]. rewrite !Nat.add_0_r. apply opt_fail, start_fails; auto using loud_addr, loud_blank.
      - apply opt_ok. cbn [wrange_text] in *. apply start_ok; auto using loud_bds. }
    rewrite (seq_ok _ _ _ _ _ _ _ Hs).
    assert (Ha : pmatch r_addTextC (pos + List.length (wrange_text r) + List.length gap) (byte_val x :: 10%N :: U ++ 10%N :: 46%N :: trail) =
      POk (S (pos + List.length (wrange_text r) + List.length gap)) (10%N :: U ++ 10%N :: 46%N :: trail) [TAct (text_act x)]).
    { destruct Hx as [-> |[-> | ->]]; [reflexivity|reflexivity|congruence]. }
    rewrite (seq_ok _ _ _ _ _ _ _ Ha). unfold r_newLine.
    rewrite (seq_ok _ _ _ _ _ _ _ (chr_ok nl _ (U ++ 10%N :: 46%N :: trail))).
    rewrite text_rule by auto. cbn [app]. f_equal; [lia|]. f_equal. f_equal. f_equal. f_equal; lia.
Qed.

Lemma firstn_short : forall {A} n (a b : list A), n <= List.length a -> firstn n (a ++ b) = firstn n a.
Proof. intros. rewrite firstn_app. replace (n - List.length a) with 0 by lia. cbn. apply List.app_nil_r. Qed.

(* what is printed and sent *)
Lemma text_command_events : forall lead r gap x t trail, blanks lead -> wrange_ok r -> text_letter x -> text_range x r ->
  blanks gap -> (~ closed r -> gap = []) -> no_term (runes_of t) -> blanks trail ->
  exists toks, Parse (lead ++ wrange_text r ++ gap ++ [x; nl] ++ t ++ [nl; "."%char] ++ trail ++ [nl]) = Val (Some toks) /\
    Execute (lead ++ wrange_text r ++ gap ++ [x; nl] ++ t ++ [nl; "."%char] ++ trail ++ [nl]) toks =
    [EPrint (B "t " ++ firstn (List.length (runes_of t)) t ++ [nl]);
     ESend (the_command (text_typ x) (wrange_start r) (text_end x r) (firstn (List.length (runes_of t)) t) [])].
Proof.
  intros lead r gap x t trail Hl Hr Hx Tx Hg Ng Ht Htr.
  set (pre := lead ++ wrange_text r ++ gap ++ [x; nl]).
  assert (Ax : (byte_val x < 128)%N) by (destruct Hx as [-> |[-> | ->]]; reflexivity).
  assert (Ap : ascii_only pre).
  { unfold pre. repeat apply ascii_app; auto using ascii_blanks, ascii_wrange. apply ascii_B1; auto. apply ascii_B1; [reflexivity|constructor]. }
  set (buf := lead ++ wrange_text r ++ gap ++ [x; nl] ++ t ++ [nl; "."%char] ++ trail ++ [nl]).
  assert (Hbuf : buf = pre ++ t ++ [nl; "."%char] ++ trail ++ [nl]) by (unfold buf, pre; now rewrite <- !app_assoc).
  assert (Hruns : runes_of buf = R lead ++ (R (wrange_text r) ++ R gap ++ byte_val x :: 10%N :: runes_of t ++ 10%N :: 46%N :: (R trail ++ [10%N]))).
  { rewrite Hbuf, runes_text; auto.
    - unfold pre. rewrite !R_app, <- !app_assoc. reflexivity.
    - apply ascii_app; auto using ascii_blanks. apply ascii_B1; [reflexivity|constructor]. }
  assert (N : r = NoAddress -> gap = []) by (intros ->; apply Ng; intros []).
  destruct (text_cmd (List.length lead) r (R gap) x (runes_of t) (R trail ++ [10%N]) Hr Hx Tx (blanks_N _ Hg)) as (toks&Hc&Tc&Ta); auto.
  { intros Q. now rewrite (Ng Q). }
  set (p0 := List.length lead + List.length (wrange_text r) + List.length (R gap) + 2) in *.
  assert (Hp0 : p0 = List.length pre) by (unfold p0, pre; rewrite !app_length, R_length; cbn; lia).
  assert (X1 : exists b e, fold_left (exec1 buf) toks zero_pstate = st b e (the_command ctnull (wrange_start r) (text_end x r) [] []) []).
  { change zero_pstate with (st 0 0 zero_command []). destruct (Ascii.eqb_spec x "c") as [->|Nc].
    - rewrite Tc by auto. unfold buf. apply (exec_range lead r _ 0 0 [] Hr).
    - rewrite Ta by auto. unfold text_end. destruct (Ascii.eqb_spec x "c") as [|_]; [congruence|].
      assert (Hr2 : r = NoAddress \/ exists a, r = OneAddress a).
      { destruct Hx as [-> |[-> | ->]]; [| |congruence]; cbn in Tx; destruct r; try tauto; eauto. }
      destruct Hr2 as [->|[a ->]]; [eexists _, _; reflexivity|]. unfold buf. cbn [wrange_text]. rewrite exec_start. eexists _, _. reflexivity. }
  destruct X1 as (b&e&X1).
  eapply events_one with (toks := toks ++ [TAct (text_act x); TText p0 (p0 + List.length (runes_of t)); TAct 8])
    (d := [EPrint (B "t " ++ firstn (List.length (runes_of t)) t ++ [nl])]).
  - rewrite Hruns. eapply e_ok; eauto using blanks_N.
    + apply range_not_blank; auto. intros Q. rewrite (N Q). cbn [R map app]. now apply loud_blank, loud_text.
    + rewrite R_length. cbn [Nat.add]. exact Hc.
  - rewrite fold_left_app, X1.
    assert (Sl : slice buf p0 (p0 + List.length (runes_of t)) = firstn (List.length (runes_of t)) t).
    { unfold slice. replace (p0 + List.length (runes_of t) - p0) with (List.length (runes_of t)) by lia.
      rewrite Hbuf, Hp0, skipn_len_app. apply firstn_short. apply runes_of_length. }
    assert (Hact : forall s, exec1 buf s (TAct (text_act x)) = with_typ s (text_typ x)).
    { intros s. destruct Hx as [-> |[-> | ->]]; reflexivity. }
    cbn [fold_left]. rewrite Hact. cbn [exec1 act st p_begin p_end p_cmd p_addr p_done with_typ set_cmd]. rewrite Sl. reflexivity.
Qed.

Lemma text_command : forall lead r gap x t trail, blanks lead -> wrange_ok r -> text_letter x -> text_range x r ->
  blanks gap -> (~ closed r -> gap = []) -> no_term (runes_of t) -> blanks trail ->
  parsed (lead ++ wrange_text r ++ gap ++ [x; nl] ++ t ++ [nl; "."%char] ++ trail ++ [nl])
    [the_command (text_typ x) (wrange_start r) (text_end x r) (firstn (List.length (runes_of t)) t) []].
Proof.
  intros lead r gap x t trail Hl Hr Hx Tx Hg Ng Ht Htr.
  destruct (text_command_events lead r gap x t trail Hl Hr Hx Tx Hg Ng Ht Htr) as (toks&P&E). exists toks. split; [exact P|]. now rewrite E.
Qed.

(* lines of which none after the first starts with a dot, as runes *)
Lemma no_nl_runes : forall l, ~ In nl l -> ~ In 10%N (runes_of l).
Proof. intros l H I. apply H. apply (runes_of_in_ascii l 10%N) in I; [exact I|reflexivity]. Qed.
Lemma no_term_line : forall U, ~ In 10%N U -> no_term U.
Proof. intros U H a b ->. apply H. apply in_or_app. right. now left. Qed.
Lemma no_term_app : forall U V, ~ In 10%N U -> no_term V -> (forall t, V <> 46%N :: t) -> no_term (U ++ 10%N :: V).
Proof.
  induction U as [|c U IH]; intros V NU NV NH a b Q.
  - destruct a as [|x a]; cbn in Q.
    + injection Q as Q. now apply (NH b).
    + injection Q as _ Q. now apply (NV a b).
  - destruct a as [|x a]; cbn in Q.
    + injection Q as -> _. apply NU. now left.
    + injection Q as _ Q. revert Q. apply IH; auto. intros I. apply NU. now right.
Qed.
Lemma no_term_lines : forall ls, ls <> [] -> (forall l, In l ls -> ~ In nl l) -> dotless ls -> no_term (runes_of (join [nl] ls)).
Proof.
  induction ls as [|l ls IH]; intros Ne NL D; [congruence|].
  destruct ls as [|l2 ls].
  - cbn [join]. apply no_term_line, no_nl_runes, NL. now left.
  - change (join [nl] (l :: l2 :: ls)) with (l ++ nl :: join [nl] (l2 :: ls)).
    rewrite runes_of_cut by reflexivity. apply no_term_app.
    + apply no_nl_runes, NL. now left.
    + apply IH; [discriminate|intros x I; apply NL; now right|]. intros x q I. apply D. now right.
    + intros t Q. destruct (runes_of_head_ascii _ 46%N t ltac:(reflexivity) Q) as (b'&Q').
      assert (l2 <> "."%char :: tl b' /\ True) as [_ _] by (split; auto; apply D; now left).
      destruct ls as [|l3 ls]; cbn [join] in Q'.
      * revert Q'. apply (D l2 b'). now left.
      * destruct l2 as [|c l2]; [discriminate|]. injection Q' as -> _. apply (D (ascii_of_N 46 :: l2) l2); [now left|reflexivity].
Qed.
