(* Facts about the parser of ed: several commands in one Buffer. *)
From Verif Require Import GoBase GoFacts NumFacts Utf8Facts RuneFacts EdModel EdPegModel EdPegSpec EdPegProofs EdPegProofs2 EdPegProofs3 EdPegProofs4 EdPegProofs5.
Local Open Scope nat_scope.

(* [chunk] is read as the command c wherever it stands *)
Definition reads_as (chunk : bytes) (c : command) : Prop :=
  ascii_only chunk /\ forall pre rest, exists toks,
    pmatch r_e (List.length pre) (R chunk ++ rest) = POk (List.length pre + List.length chunk) rest (toks ++ [TAct 1]) /\
    forall post b e d, exists b' e' d', fold_left (exec1 (pre ++ chunk ++ post)) toks (st b e zero_command d) = st b' e' c (d' ++ d) /\ sent d' = [].
Lemma reads_as_moves : forall chunk c, reads_as chunk c -> chunk <> [].
Proof.
  intros chunk c (_&H) ->. destruct (H [] []) as (toks&M&_). cbn [R map app List.length] in M.
  assert (F : pmatch r_e 0 [] = PFail) by (apply cannot_start_nil; reflexivity). congruence.
Qed.
Lemma sent_rev : forall d, sent (rev d) = rev (sent d).
Proof. induction d as [|[c|s] d IH]; cbn [rev sent]; auto; rewrite sent_app, IH; cbn [sent]; auto. now rewrite List.app_nil_r. Qed.
Lemma reads_star : forall chunks cmds, Forall2 reads_as chunks cmds -> forall pre k, List.length (concat chunks) < k -> exists toks,
  star_loop (pmatch r_e) k (List.length pre) (R (concat chunks)) = POk (List.length pre + List.length (concat chunks)) [] toks /\
  forall b e d, exists b' e' d', fold_left (exec1 (pre ++ concat chunks)) toks (st b e zero_command d) = st b' e' zero_command (d' ++ d) /\
    sent (rev d') = cmds.
Proof.
  induction 1 as [|chunk c chunks cmds Hc Hr IH]; intros pre k L; (destruct k as [|k]; [lia|]); rewrite star_loop_S; cbn [concat] in *.
  - cbn [R map]. assert (F : pmatch r_e (List.length pre) [] = PFail) by (apply cannot_start_nil; reflexivity). rewrite F.
    exists []. split; [cbn [List.length]; f_equal; lia|]. intros b e d. exists b, e, []. auto.
  - pose proof (reads_as_moves _ _ Hc) as Ne. destruct Hc as (Ac&Hc). rewrite R_app. destruct (Hc pre (R (concat chunks))) as (toks&M&X). rewrite M.
    assert (Lc : 0 < List.length chunk) by (destruct chunk; [congruence|cbn; lia]). rewrite app_length in *.
    destruct (Nat.eqb_spec (List.length pre + List.length chunk) (List.length pre)); [lia|].
    destruct (IH (pre ++ chunk) k) as (toks2&M2&X2); [lia|]. rewrite app_length in M2. rewrite M2.
    eexists. split; [f_equal; lia|]. intros b e d. rewrite <- app_assoc, fold_left_app.
    destruct (X (concat chunks) b e d) as (b1&e1&d1&E1&S1). rewrite E1. cbn [app fold_left exec1 act].
    change (set_cmd (did (st b1 e1 c (d1 ++ d)) (ESend (p_cmd (st b1 e1 c (d1 ++ d))))) zero_command) with (st b1 e1 zero_command (ESend c :: d1 ++ d)).
    destruct (X2 b1 e1 (ESend c :: d1 ++ d)) as (b2&e2&d2&E2&S2). rewrite <- app_assoc in E2. rewrite E2.
    exists b2, e2, (d2 ++ ESend c :: d1). split; [now rewrite <- app_assoc|].
    rewrite rev_app_distr, sent_app, S2. cbn [rev]. rewrite sent_app, sent_rev, S1. reflexivity.
Qed.
Lemma reads_ascii : forall chunks cmds, Forall2 reads_as chunks cmds -> ascii_only (concat chunks).
Proof. induction 1 as [|chunk c chunks cmds [A _] Hr IH]; cbn [concat]; [constructor|]. now apply ascii_app. Qed.
Theorem parsed_chunks : forall chunks cmds, Forall2 reads_as chunks cmds -> parsed (concat chunks) cmds.
Proof.
  intros chunks cmds H. destruct (reads_star chunks cmds H [] (S (List.length (R (concat chunks))))) as (toks&M&X); [rewrite R_length; lia|].
  cbn [List.length app Nat.add] in *. exists (toks ++ [TAct 0]). split.
  - unfold Parse, Parse_with. rewrite runes_ascii by (eapply reads_ascii; eauto). unfold r_first, r_first_of. fold r_e.
    assert (S1 : pmatch (PStar r_e) 0 (R (concat chunks)) = POk (List.length (concat chunks)) [] toks) by exact M.
    rewrite (seq_ok _ _ _ _ _ _ _ S1). reflexivity.
  - unfold Execute. rewrite fold_left_app. change zero_pstate with (st 0 0 zero_command []).
    destruct (X 0 0 []) as (b&e&d&E&Q). cbn [app] in E. rewrite E. cbn [fold_left exec1 act st p_done]. rewrite List.app_nil_r. exact Q.
Qed.

(* the chunks: a line with its newline *)
Lemma chunk_range : forall lead r gap x t trail, blanks lead -> wrange_ok r -> blanks gap -> (r = NoAddress -> gap = []) ->
  range_letter x t -> blanks trail ->
  reads_as (lead ++ wrange_text r ++ gap ++ [x] ++ trail ++ [nl]) (the_command t (wrange_start r) (wrange_end r) [] []).
Proof.
  intros lead r gap x t trail Hl Hr Hg Ng Hx Ht. split.
  { destruct (range_letter_facts x t [] Hx) as (_&Ax&_).
    repeat apply ascii_app; auto using ascii_blanks, ascii_wrange; apply ascii_B1; auto; try constructor. }
  intros pre rest.
  destruct (range_letter_facts x t (R trail ++ byte_val nl :: rest) Hx) as (Lx&Ax&F1&F2).
  set (body := R (wrange_text r) ++ R gap ++ byte_val x :: R trail ++ byte_val nl :: rest).
  assert (Hruns : R (lead ++ wrange_text r ++ gap ++ [x] ++ trail ++ [nl]) ++ rest = R lead ++ body).
  { rewrite !R_app, <- !app_assoc. reflexivity. }
  assert (Hb : ends_at blankN body).
  { apply range_not_blank; auto. intros Q. rewrite (Ng Q). cbn [R map app]. now apply loud_blank. }
  set (p := List.length pre + List.length lead).
  assert (Hc : pmatch r_cmd (List.length pre + List.length (R lead)) body =
    POk (p + List.length (wrange_text r) + List.length gap + 1) (R trail ++ byte_val nl :: rest)
      (range_toks p r ++ [TAct (range_act t)])).
  { rewrite cmd_alts_ok. unfold cmd_alts. rewrite R_length. fold p.
    assert (F : pmatch r_bareCmd p body = PFail /\ pmatch r_paramCmd p body = PFail).
    { destruct (no_address_dec r) as [Er|Er].
      - unfold body. rewrite (Ng Er), Er. cbn [wrange_text R map app]. split; apply cannot_start; auto.
      - destruct (range_blocks r p (R gap ++ byte_val x :: R trail ++ byte_val nl :: rest) Hr Er) as (?&?&_); auto. }
    rewrite first_skip by apply F. rewrite first_skip by apply F. apply first_take.
    unfold r_rangeCmd_of, body.
    rewrite range_then; auto using blanks_N; [|intros Q; now rewrite (Ng Q)].
    rewrite (rangeC_ok x t) by auto. rewrite R_length. f_equal. lia. }
  exists (range_toks p r ++ [TAct (range_act t)]). split.
  - rewrite Hruns, (e_ok (R lead) body _ _ (R trail) rest _ (blanks_N _ Hl) Hb (blanks_N _ Ht) Hc). rewrite R_length. f_equal.
    unfold p. rewrite !app_length. cbn [List.length]. lia.
  - intros post b e d. destruct (exec_range (pre ++ lead) r (gap ++ [x] ++ trail ++ [nl] ++ post) b e d Hr) as (b'&e'&X).
    rewrite app_length in X. fold p in X. rewrite fold_left_app.
    replace (pre ++ (lead ++ wrange_text r ++ gap ++ [x] ++ trail ++ [nl]) ++ post)
      with ((pre ++ lead) ++ wrange_text r ++ gap ++ [x] ++ trail ++ [nl] ++ post) by now rewrite <- !app_assoc.
    rewrite X. exists b', e', []. split; [|reflexivity]. cbn [fold_left exec1]. cbn [In range_letter] in Hx.
    repeat (destruct Hx as [Hx|Hx]; [injection Hx as <- <-; reflexivity|]). destruct Hx.
Qed.
Lemma chunk_write : forall lead r gap trail, blanks lead -> wrange_ok r -> blanks gap -> (~ closed r -> gap = []) -> blanks trail ->
  reads_as (lead ++ wrange_text r ++ gap ++ B "w" ++ trail ++ [nl]) (the_command ctwrite (wrange_start r) (wrange_end r) [] []).
Proof.
  intros lead r gap trail Hl Hr Hg Ng Ht. split.
  { repeat apply ascii_app; auto using ascii_blanks, ascii_wrange; apply ascii_B1; (reflexivity || constructor). }
  intros pre rest.
  set (T := R trail ++ byte_val nl :: rest).
  set (body := R (wrange_text r) ++ R gap ++ byte_val "w" :: T).
  assert (Hruns : R (lead ++ wrange_text r ++ gap ++ B "w" ++ trail ++ [nl]) ++ rest = R lead ++ body).
  { unfold body, T. rewrite !R_app, <- !app_assoc. reflexivity. }
  assert (N : r = NoAddress -> R gap = []) by (intros ->; rewrite Ng; auto).
  assert (E : ends_at loud (byte_val "w" :: T)) by reflexivity.
  set (p := List.length pre + List.length lead).
  assert (Hc : pmatch r_cmd (List.length pre + List.length (R lead)) body =
    POk (p + List.length (wrange_text r) + List.length gap + 1) T (range_toks p r ++ [TAct 6])).
  { rewrite cmd_alts_ok. unfold cmd_alts, body. rewrite R_length. fold p. pose proof (blanks_N _ Hg).
    rewrite first_skip by (apply block_bare; alpha). rewrite first_skip by (apply block_param; alpha).
    rewrite first_skip by (apply block_range; alpha). rewrite first_skip by (apply block_addr; alpha).
    rewrite first_skip by (apply block_change; alpha). rewrite first_skip by (apply block_add; alpha).
    rewrite first_skip by (apply block_mark; alpha). rewrite first_skip by (apply block_dest; alpha).
    rewrite first_skip by (apply block_read; alpha). apply first_take.
    unfold r_writeCmd_of. assert (Ng' : ~ closed r -> R gap = []) by (intros Q; now rewrite Ng).
    rewrite alt_fail.
    + rewrite range_then' by auto. rewrite (seq_ok _ _ _ _ _ _ _ (chr_ok "w" _ T)). cbn [pmatch app]. rewrite R_length. f_equal. lia.
    + rewrite range_then' by auto. rewrite (seq_ok _ _ _ _ _ _ _ (chr_ok "w" _ T)).
      assert (Q : forall X q, pmatch (PSeq r_sp (PSeq (PText r_param) X)) q T = PFail); [|now rewrite Q].
      intros X q. unfold T. destruct trail as [|y trail].
      * apply seq_fail, r_sp_fails. reflexivity.
      * apply blanks_N in Ht. cbn [R map app] in *. rewrite app_comm_cons.
        rewrite (seq_ok _ _ _ _ _ _ _ (r_sp_ok q (byte_val y) (R trail) (byte_val nl :: rest) Ht eq_refl)).
        rewrite seq_fail; auto. }
  exists (range_toks p r ++ [TAct 6]). split.
  - assert (Hb : ends_at blankN body).
    { apply range_not_blank; auto. intros Q. rewrite N by auto. reflexivity. }
    rewrite Hruns, (e_ok (R lead) body _ _ (R trail) rest _ (blanks_N _ Hl) Hb (blanks_N _ Ht) Hc). rewrite R_length. f_equal.
    unfold p. rewrite !app_length. cbn [List.length B list_ascii_of_string]. lia.
  - intros post b e d. destruct (exec_range (pre ++ lead) r (gap ++ B "w" ++ trail ++ [nl] ++ post) b e d Hr) as (b'&e'&X).
    rewrite app_length in X. fold p in X. rewrite fold_left_app.
    replace (pre ++ (lead ++ wrange_text r ++ gap ++ B "w" ++ trail ++ [nl]) ++ post)
      with ((pre ++ lead) ++ wrange_text r ++ gap ++ B "w" ++ trail ++ [nl] ++ post) by now rewrite <- !app_assoc.
    rewrite X. exists b', e', []. split; reflexivity.
Qed.
(* the line "." alone, as a command *)
Lemma chunk_dot : reads_as (B "." ++ [nl]) (the_command ctnull aCur zero_address [] []).
Proof.
  split; [repeat constructor|]. intros pre rest. set (p := List.length pre).
  assert (Hr : wrange_ok (OneAddress (plain Dot))) by (split; [exact I|now left]).
  assert (N : OneAddress (plain Dot) = NoAddress -> (@nil N) = []) by discriminate.
  assert (Hc : pmatch r_cmd (p + List.length (R [])) (R (wrange_text (OneAddress (plain Dot))) ++ [] ++ byte_val nl :: rest) =
    POk (p + 1) ([] ++ byte_val nl :: rest) (addr_toks p (plain Dot) ++ [TAct 17])).
  { rewrite cmd_alts_ok. unfold cmd_alts. cbn [R map List.length]. rewrite Nat.add_0_r.
    assert (E : ends_at loud (byte_val nl :: rest)) by reflexivity. assert (G : blanksN []) by constructor.
    rewrite first_skip by (apply block_bare; alpha). rewrite first_skip by (apply block_param; alpha).
    rewrite first_skip by (apply block_range; alpha). rewrite first_skip by (apply block_addr; alpha).
    rewrite first_skip by (apply block_change; alpha). rewrite first_skip by (apply block_add; alpha).
    rewrite first_skip by (apply block_mark; alpha). rewrite first_skip by (apply block_dest; alpha).
    rewrite first_skip by (apply block_read; alpha). rewrite first_skip by (apply block_write; alpha).
    rewrite first_skip by (apply block_shell; alpha). apply first_take. unfold r_nullCmd.
    apply opt_ok. cbn [wrange_text]. rewrite start_ok by auto using loud_bds. cbn [List.length]. f_equal. cbn. lia. }
  exists (addr_toks p (plain Dot) ++ [TAct 17]). split.
  - change (R (B "." ++ [nl]) ++ rest) with (R [] ++ R (wrange_text (OneAddress (plain Dot))) ++ [] ++ byte_val nl :: rest).
    fold p. assert (Hb : ends_at blankN (R (wrange_text (OneAddress (plain Dot))) ++ [] ++ byte_val nl :: rest)) by reflexivity.
    rewrite (e_ok (R []) _ p (p + 1) [] rest _ (Forall_nil _) Hb (Forall_nil _) Hc). cbn. f_equal. lia.
  - intros post b e d. pose proof (exec_start pre (plain Dot) (nl :: post) b e zero_command d) as X.
    change (pre ++ (B "." ++ [nl]) ++ post) with (pre ++ waddr_text (plain Dot) ++ nl :: post). fold p in X. rewrite X.
    eexists _, _, []. split; reflexivity.
Qed.
(* text of ASCII characters ended by a dot and blanks *)
Lemma chunk_text : forall lead r gap x t trail, blanks lead -> wrange_ok r -> text_letter x -> text_range x r ->
  blanks gap -> (~ closed r -> gap = []) -> ascii_only t -> no_term (R t) -> blanks trail ->
  reads_as (lead ++ wrange_text r ++ gap ++ [x; nl] ++ t ++ [nl; "."%char] ++ trail ++ [nl])
    (the_command (text_typ x) (wrange_start r) (text_end x r) t []).
Proof.
  intros lead r gap x t trail Hl Hr Hx Tx Hg Ng At Ht Htr.
  assert (Ax : (byte_val x < 128)%N) by (destruct Hx as [-> |[-> | ->]]; reflexivity).
  split.
  { repeat apply ascii_app; auto using ascii_blanks, ascii_wrange; repeat (apply ascii_B1; [(auto || reflexivity)|]); constructor. }
  intros pre0 rest. set (buf0 := lead ++ wrange_text r ++ gap ++ [x; nl] ++ t ++ [nl; "."%char] ++ trail ++ [nl]).
  assert (N : r = NoAddress -> gap = []) by (intros ->; apply Ng; intros []).
  set (p := List.length pre0 + List.length lead).
  destruct (text_cmd p r (R gap) x (R t) (R trail ++ byte_val nl :: rest) Hr Hx Tx (blanks_N _ Hg)) as (toks&Hc&Tc&Ta); auto.
  { intros Q. now rewrite (Ng Q). }
  set (body := R (wrange_text r) ++ R gap ++ byte_val x :: 10%N :: R t ++ 10%N :: 46%N :: R trail ++ byte_val nl :: rest) in *.
  assert (Hruns : R buf0 ++ rest = R lead ++ body) by (unfold buf0, body; rewrite !R_app, <- !app_assoc; reflexivity).
  set (p0 := p + List.length (wrange_text r) + List.length (R gap) + 2) in *.
  exists (toks ++ [TAct (text_act x); TText p0 (p0 + List.length (R t)); TAct 8]). split.
  - assert (Hb : ends_at blankN body).
    { apply range_not_blank; auto. intros Q. rewrite (N Q). cbn [R map app]. now apply loud_blank, loud_text. }
    rewrite Hruns. replace p with (List.length pre0 + List.length (R lead)) in Hc by (unfold p; now rewrite R_length).
    rewrite (e_ok (R lead) body _ _ (R trail) rest _ (blanks_N _ Hl) Hb (blanks_N _ Htr) Hc). f_equal.
    unfold p0, p, buf0. rewrite !app_length, !R_length. cbn [List.length]. lia.
  - intros post b e d. set (buf := pre0 ++ buf0 ++ post).
    set (pre := (pre0 ++ lead) ++ wrange_text r ++ gap ++ [x; nl]).
    assert (Hbuf : buf = pre ++ t ++ [nl; "."%char] ++ trail ++ [nl] ++ post) by (unfold buf, buf0, pre; now rewrite <- !app_assoc).
    assert (Hp0 : p0 = List.length pre) by (unfold p0, p, pre; rewrite !app_length, R_length; cbn; lia).
    assert (X1 : exists b' e', fold_left (exec1 buf) toks (st b e zero_command d) = st b' e' (the_command ctnull (wrange_start r) (text_end x r) [] []) d).
    { assert (Hb2 : buf = (pre0 ++ lead) ++ wrange_text r ++ (gap ++ [x; nl] ++ t ++ [nl; "."%char] ++ trail ++ [nl] ++ post))
        by (unfold buf, buf0; now rewrite <- !app_assoc).
      assert (Lp : p = List.length (pre0 ++ lead)) by (unfold p; now rewrite app_length).
      destruct (Ascii.eqb_spec x "c") as [->|Nc].
      - rewrite Tc by auto. rewrite Hb2, Lp. destruct (exec_range (pre0 ++ lead) r (gap ++ ["c"%char; nl] ++ t ++ [nl; "."%char] ++ trail ++ [nl] ++ post) b e d Hr) as (b'&e'&X).
        exists b', e'. exact X.
      - rewrite Ta by auto. unfold text_end. destruct (Ascii.eqb_spec x "c") as [|_]; [congruence|].
        assert (Hr2 : r = NoAddress \/ exists a, r = OneAddress a).
        { destruct Hx as [-> |[-> | ->]]; [| |congruence]; cbn in Tx; destruct r; try tauto; eauto. }
        destruct Hr2 as [->|[a ->]]; [eexists _, _; reflexivity|]. rewrite Hb2, Lp. cbn [wrange_text]. rewrite exec_start. eexists _, _. reflexivity. }
    destruct X1 as (b1&e1&X1). rewrite fold_left_app, X1.
    assert (Sl : slice buf p0 (p0 + List.length (R t)) = t).
    { rewrite Hbuf, Hp0, R_length. apply slice_mid. }
    assert (Hact : forall s, exec1 buf s (TAct (text_act x)) = with_typ s (text_typ x)).
    { intros s. destruct Hx as [-> |[-> | ->]]; reflexivity. }
    cbn [fold_left]. rewrite Hact. cbn [exec1 act st p_begin p_end p_cmd p_addr p_done with_typ set_cmd]. rewrite Sl.
    exists p0, (p0 + List.length (R t)), [EPrint (B "t " ++ t ++ [nl])]. split; reflexivity.
Qed.

Lemma chunk_line : forall l c, command_line l c -> reads_as (l ++ [nl]) c.
Proof.
  intros l c [lead r gap x t trail Hl Hr Hg Ng Hx Ht|lead r gap trail Hl Hr Hg Ng Ht]; rewrite <- !app_assoc.
  - now apply chunk_range.
  - now apply chunk_write.
Qed.
Lemma command_line_dot : forall l c, command_line l c -> l <> B ".".
Proof.
  intros l c H E. assert (I : exists x, In x l /\ x <> "."%char).
  { destruct H as [lead r gap x t trail Hl Hr Hg Ng Hx Ht|lead r gap trail Hl Hr Hg Ng Ht].
    - exists x. split; [rewrite !in_app_iff; cbn; tauto|]. destruct (range_letter_facts x t [] Hx) as (Lx&_). intros ->. discriminate Lx.
    - exists "w"%char. split; [rewrite !in_app_iff; cbn; tauto|discriminate]. }
  destruct I as (x&I&Nx). rewrite E in I. destruct I as [<-|[]]. congruence.
Qed.
Lemma join_lines : forall ls (r : bytes), ls <> [] -> join [nl] (ls ++ [r]) = concat (map (fun l => l ++ [nl]) ls) ++ r.
Proof.
  induction ls as [|l ls IH]; intros r H; [congruence|]. destruct ls as [|l2 ls].
  - cbn [app map concat join]. now rewrite <- ?app_assoc, ?List.app_nil_r, <- ?app_assoc.
  - change (join [nl] ((l :: l2 :: ls) ++ [r])) with (l ++ [nl] ++ join [nl] ((l2 :: ls) ++ [r])). rewrite IH by discriminate.
    change (concat (map (fun l => l ++ [nl]) (l :: l2 :: ls))) with ((l ++ [nl]) ++ concat (map (fun l => l ++ [nl]) (l2 :: ls))).
    now rewrite <- !app_assoc.
Qed.
Theorem text_then_commands : forall lead r gap x ls b lines cmds, blanks lead -> wrange_ok r -> text_letter x -> text_range x r ->
  blanks gap -> (~ closed r -> gap = []) -> multlineCmdStart (lead ++ wrange_text r ++ gap ++ [x]) = true ->
  typed_lines ls -> dotless ls -> Forall ascii_only ls -> blanks b -> b <> [] -> Forall2 command_line lines cmds ->
  exists buf, (forall more, buffers ((lead ++ wrange_text r ++ gap ++ [x]) :: (ls ++ ("."%char :: b) :: lines) ++ B "." :: more) = buf :: buffers more) /\
    parsed buf (the_command (text_typ x) (wrange_start r) (text_end x r) (join [nl] ls) [] :: cmds ++ [the_command ctnull aCur zero_address [] []]).
Proof.
  intros lead r gap x ls b lines cmds Hl Hr Hx Tx Hg Ng M [Ne Ty] D As Hb Nb F.
  eexists. split; [intros more; apply buffers_text; auto|].
  - intros l I. apply in_app_iff in I. destruct I as [I|[<-|I]].
    + now apply Ty.
    + intros Q. apply Nb. now injection Q.
    + clear - F I. induction F as [|l0 c0 lines cmds H F IH]; [destruct I|destruct I as [<-|I]; eauto using command_line_dot].
  - set (chunks := (lead ++ wrange_text r ++ gap ++ [x; nl] ++ join [nl] ls ++ [nl; "."%char] ++ b ++ [nl])
                   :: map (fun l => l ++ [nl]) lines ++ [B "." ++ [nl]]).
    assert (E : join [nl] ((lead ++ wrange_text r ++ gap ++ [x]) :: (ls ++ ("."%char :: b) :: lines) ++ [B "."]) ++ [nl] = concat chunks).
    { rewrite app_comm_cons, join_lines by discriminate. unfold chunks. cbn [concat map]. rewrite concat_app, map_app, concat_app.
      cbn [map concat]. rewrite List.app_nil_r.
      assert (J : concat (map (fun l => l ++ [nl]) ls) = join [nl] ls ++ [nl]).
      { destruct (exists_last Ne) as (ls'&l&->). rewrite map_app, concat_app. cbn [map concat]. rewrite List.app_nil_r.
        destruct ls' as [|l' ls']; [reflexivity|]. rewrite join_lines by discriminate. now rewrite <- app_assoc. }
      unfold bytes in *. rewrite J, <- !app_assoc. reflexivity. }
    match goal with |- parsed ?B _ => replace B with (concat chunks) by (symmetry; exact E) end. apply parsed_chunks. unfold chunks. constructor.
    + apply chunk_text; auto.
      * clear - As. induction As as [|l ls A F IH]; [constructor|]. destruct ls; [exact A|]. 
        change (join [nl] (l :: b :: ls)) with (l ++ [nl] ++ join [nl] (b :: ls)). apply ascii_app; auto. apply ascii_app; auto. repeat constructor.
      * rewrite <- runes_ascii; [apply no_term_lines; auto; intros l I; now apply Ty|].
        clear - As. induction As as [|l ls A F IH]; [constructor|]. destruct ls; [exact A|]. 
        change (join [nl] (l :: b :: ls)) with (l ++ [nl] ++ join [nl] (b :: ls)). apply ascii_app; auto. apply ascii_app; auto. repeat constructor.
    + apply Forall2_app; [|repeat constructor; apply chunk_dot]. clear - F. induction F; cbn [map]; constructor; auto using chunk_line.
Qed.
