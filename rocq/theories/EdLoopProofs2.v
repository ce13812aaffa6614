(* Facts about whole runs of ed. *)
From Verif Require Import GoBase GoFacts NumFacts PieceTableModel PieceTableSpec PieceTableProofs EdModel EdSpec EdProofs EdProofs2 RuneFacts
  EdPegModel EdPegSpec EdPegProofs EdPegProofs2 EdPegProofs3 EdPegProofs4 EdPegProofs5 EdLoopModel EdLoopSpec EdLoopProofs.
Local Open Scope nat_scope.

(* ---- events ---- *)
Fixpoint sends (l : list revent) : list command :=
  match l with [] => [] | RSend c :: r => c :: sends r | _ :: r => sends r end.
Lemma sends_app : forall a b, sends (a ++ b) = sends a ++ sends b.
Proof. induction a as [|[m|c|m] a IH]; intros b; cbn [app sends]; auto. now rewrite IH. Qed.
Lemma sends_commands : forall evs, commands evs = sends evs.
Proof.
  induction evs as [|[m|c|m] evs IH]; auto; unfold commands in *; cbn [segments sends].
  - destruct (segments evs). exact IH.
  - destruct (segments evs) as [e l]. cbn [snd map fst] in *. now rewrite IH.
Qed.
Lemma sends_sent : forall l, sends (map of_pevent l) = sent l.
Proof. induction l as [|[c|s] l IH]; auto. cbn [map of_pevent sends sent]. now rewrite IH. Qed.
Definition is_error (e : revent) : Prop := match e with RError _ => True | _ => False end.
Lemma no_errors : forall evs, Forall (fun e => ~ is_error e) evs -> segments evs = ([], map (fun c => (c, [])) (sends evs)).
Proof.
  induction evs as [|[m|c|m] evs IH]; intros F; auto; inversion F; subst; cbn [segments sends].
  - now elim H1.
  - now rewrite IH.
  - auto.
Qed.
Lemma handle_parsed : forall perr buf cs, parsed buf cs ->
  exists evs, handle perr buf = Val evs /\ sends evs = cs /\ Forall (fun e => ~ is_error e) evs.
Proof.
  intros perr buf cs (toks&P&S). exists (map of_pevent (Execute buf toks)). split; [unfold handle; now rewrite P|].
  split; [now rewrite sends_sent|]. apply Forall_forall. intros e I. apply in_map_iff in I as ([c|s]&<-&_); cbn; auto.
Qed.
(* what is read from lines whose buffers parse *)
Definition read_bufs (perr : bytes -> bytes) (bs : list bytes) : list revent :=
  flat_map (fun b => match handle perr b with Val l => l | _ => [] end) bs.
Lemma read_parsed : forall perr bs cs, Forall2 (fun b c => parsed b [c]) bs cs ->
  sends (read_bufs perr bs) = cs /\ Forall (fun e => ~ is_error e) (read_bufs perr bs).
Proof.
  induction 1 as [|b c bs cs P F [IH1 IH2]]; [split; constructor|]. cbn [read_bufs flat_map].
  destruct (handle_parsed perr b [c] P) as (evs&->&S&N). split; [rewrite sends_app, S; fold (read_bufs perr bs); now rewrite IH1|].
  apply Forall_app. split; auto.
Qed.

(* ---- numbers are short ---- *)
Lemma little_double : forall d, Decimal.nb_digits (Decimal.Little.double d) <= S (Decimal.nb_digits d) /\
  Decimal.nb_digits (Decimal.Little.succ_double d) <= S (Decimal.nb_digits d).
Proof. induction d; cbn [Decimal.Little.double Decimal.Little.succ_double Decimal.nb_digits]; lia. Qed.
Lemma little_size : forall p, Decimal.nb_digits (Pos.to_little_uint p) <= Pos.size_nat p.
Proof.
  induction p as [p IH|p IH|]; cbn [Pos.to_little_uint Pos.size_nat]; [| |cbn; lia];
    pose proof (little_double (Pos.to_little_uint p)); lia.
Qed.
Lemma revapp_size : forall a b, Decimal.nb_digits (Decimal.revapp a b) = Decimal.nb_digits a + Decimal.nb_digits b.
Proof. induction a; intros b; cbn [Decimal.revapp Decimal.nb_digits]; auto; rewrite IHa; cbn [Decimal.nb_digits]; lia. Qed.
Lemma uint_bytes_size : forall u, List.length (uint_bytes u) = Decimal.nb_digits u.
Proof. induction u; cbn [uint_bytes Decimal.nb_digits List.length]; auto. Qed.
Lemma size_nat_bound : forall k p, (Npos p < 2 ^ N.of_nat k)%N -> Pos.size_nat p <= k.
Proof.
  induction k as [|k IH]; intros p H; [change (2 ^ N.of_nat 0)%N with 1%N in H; lia|].
  rewrite Nat2N.inj_succ, N.pow_succ_r' in H. destruct p as [p|p|]; cbn [Pos.size_nat]; [| |lia]; apply le_n_S, IH; lia.
Qed.
Lemma itoa_short : forall n, (0 <= n <= max_int64)%Z -> List.length (itoa n) <= 64.
Proof.
  intros n H. unfold itoa. replace (n <? 0)%Z with false by lia. unfold utoa. rewrite uint_bytes_size.
  assert (B : (Z.to_N n < 2 ^ 64)%N) by (unfold max_int64 in H; change (2 ^ 64)%N with 18446744073709551616%N; lia).
  destruct (Z.to_N n) as [|p]; [cbn; lia|]. unfold N.to_uint, Pos.to_uint, Decimal.rev. rewrite revapp_size.
  pose proof (little_size p). pose proof (size_nat_bound 64 p B). cbn [Decimal.nb_digits]. lia.
Qed.

(* ---- a session ---- *)
Lemma join_last : forall ls d, ls <> [] -> join [nl] (ls ++ [d]) = join [nl] ls ++ nl :: d.
Proof.
  induction ls as [|l ls IH]; intros d N; [congruence|]. destruct ls as [|l2 ls]; [reflexivity|].
  change (join [nl] ((l :: l2 :: ls) ++ [d])) with (l ++ nl :: join [nl] ((l2 :: ls) ++ [d])). rewrite IH by discriminate.
  change (join [nl] (l :: l2 :: ls)) with (l ++ nl :: join [nl] (l2 :: ls)). now rewrite <- app_assoc.
Qed.
Lemma join_block : forall l ls d, ls <> [] -> join [nl] (l :: ls ++ [d]) = l ++ nl :: join [nl] ls ++ nl :: d.
Proof.
  intros l ls d N. rewrite <- join_last by auto. destruct ls as [|a ls]; [congruence|]. reflexivity.
Qed.
Definition doable (c : acmd) : Prop :=
  match c with
  | Append n t | Insert_ n t => (0 <= n <= max_int64)%Z /\ typable t
  | Change m n t => (0 <= m <= max_int64)%Z /\ (0 <= n <= max_int64)%Z /\ typable t
  | Delete_ m n | Print_ m n | Number_ m n => (0 <= m <= max_int64)%Z /\ (0 <= n <= max_int64)%Z
  | LineNo n => (0 <= n <= max_int64)%Z
  end.
(* the same for texts of any characters *)
Definition can_type (c : acmd) : Prop :=
  match c with
  | Append n t | Insert_ n t => (0 <= n <= max_int64)%Z /\ typed_text t
  | Change m n t => (0 <= m <= max_int64)%Z /\ (0 <= n <= max_int64)%Z /\ typed_text t
  | Delete_ m n | Print_ m n | Number_ m n => (0 <= m <= max_int64)%Z /\ (0 <= n <= max_int64)%Z
  | LineNo n => (0 <= n <= max_int64)%Z
  end.
Lemma typable_cut : forall t, typable t -> typed_text t /\ cut t = t.
Proof. intros t (A&T&D&L). split; [now split|]. unfold cut. now rewrite L, firstn_all. Qed.
Lemma doable_cut : forall c, doable c -> can_type c /\ cut_text c = c.
Proof.
  intros [n t|n t|m n t|m n|m n|m n|n]; cbn [doable can_type cut_text]; auto; intros H; decompose [and] H;
    match goal with T : typable _ |- _ => destruct (typable_cut _ T) as [T1 T2] end; rewrite T2; auto.
Qed.
Lemma digits_no : forall ds x, digits ds -> ~ is_dec_digit x -> ~ In x ds.
Proof. intros ds x D N I. unfold digits in D. rewrite Forall_forall in D. auto. Qed.
Lemma cmd_line_ed : forall l x, List.length l <= 200 -> ~ In nl l -> x <> nl -> x <> cr -> ed_line (l ++ [x]).
Proof.
  intros l x L N1 N2 N3. split; [intros I; apply in_app_or in I as [I|[I|[]]]; auto|]. split.
  - intros p Q. apply app_inj_tail in Q as [_ Q]. auto.
  - unfold len. rewrite app_length. cbn. lia.
Qed.
Lemma itoa_no_nl : forall n, (0 <= n)%Z -> ~ In nl (itoa n).
Proof.
  intros n H. apply digits_no; [now apply itoa_digits|]. unfold is_dec_digit. change (N_of_ascii nl) with 10%N. lia.
Qed.
Lemma ed_line_one : forall n x, (0 <= n <= max_int64)%Z -> x <> nl -> x <> cr -> ed_line (itoa n ++ [x]).
Proof.
  intros n x H N1 N2. apply cmd_line_ed; auto; [pose proof (itoa_short n H); lia|]. now apply itoa_no_nl.
Qed.
Lemma ed_line_two : forall m n x, (0 <= m <= max_int64)%Z -> (0 <= n <= max_int64)%Z -> x <> nl -> x <> cr -> ed_line (itoa m ++ B "," ++ itoa n ++ [x]).
Proof.
  intros m n x H1 H2 N1 N2. replace (itoa m ++ B "," ++ itoa n ++ [x]) with ((itoa m ++ B "," ++ itoa n) ++ [x]) by now rewrite <- !app_assoc.
  apply cmd_line_ed; auto.
  - rewrite !app_length. pose proof (itoa_short m H1). pose proof (itoa_short n H2). cbn [List.length B list_ascii_of_string]. lia.
  - intros I. apply in_app_or in I as [I|I]; [now apply (itoa_no_nl m) in I|]. apply in_app_or in I as [[I|[]]|I]; [discriminate|].
    now apply (itoa_no_nl n) in I.
Qed.
Lemma script_lines : forall c, can_type c -> Forall ed_line (script c).
Proof.
  assert (Dot : ed_line (B ".")) by (apply (cmd_line_ed [] "."); [cbn; lia|intros []|discriminate|discriminate]).
  intros [n t|n t|m n t|m n|m n|m n|n]; cbn [can_type script]; intros H.
  - destruct H as [H (T&_)]. apply Forall_app. split; [constructor; [apply ed_line_one; auto; discriminate|constructor]|]. apply Forall_app. auto.
  - destruct H as [H (T&_)]. apply Forall_app. split; [constructor; [apply ed_line_one; auto; discriminate|constructor]|]. apply Forall_app. auto.
  - destruct H as (H1&H2&T&_). apply Forall_app. split; [constructor; [apply ed_line_two; auto; discriminate|constructor]|]. apply Forall_app. auto.
  - destruct H. constructor; [apply ed_line_two; auto; discriminate|constructor].
  - destruct H. constructor; [apply ed_line_two; auto; discriminate|constructor].
  - destruct H. constructor; [apply ed_line_two; auto; discriminate|constructor].
  - constructor; [apply ed_line_one; auto; discriminate|constructor].
Qed.
Lemma blanks_nil : blanks []. Proof. constructor. Qed.
Lemma text_buffer : forall l t rest, multlineCmdStart l = true -> typed_lines (typed t) ->
  buffers ([l] ++ typed t ++ [B "."] ++ rest) = (l ++ nl :: t ++ [nl; "."%char; nl]) :: buffers rest.
Proof.
  intros l t rest M [Ne NL]. change ([l] ++ typed t ++ [B "."] ++ rest) with (l :: typed t ++ B "." :: rest).
  rewrite buffers_text by (auto; intros x I; now apply NL). f_equal. rewrite join_block by auto.
  unfold typed. rewrite join_split. rewrite <- app_assoc. cbn [app]. f_equal. f_equal. now rewrite <- app_assoc.
Qed.
Lemma text_parsed : forall r x t, wrange_ok r -> text_letter x -> text_range x r -> typed_text t ->
  parsed (wrange_text r ++ [x] ++ nl :: t ++ [nl; "."%char; nl]) [the_command (text_typ x) (wrange_start r) (text_end x r) (cut t) []].
Proof.
  intros r x t Hr Hx Tx (_&T&D).
  assert (J : join [nl] (typed t) = t) by apply join_split.
  pose proof (text_lines_command [] r [] x (typed t) [] blanks_nil Hr Hx Tx blanks_nil (fun _ => eq_refl) T D blanks_nil) as P.
  rewrite J in P. exact P.
Qed.
Lemma script_buffer_cut : forall c rest, can_type c -> exists b, buffers (script c ++ rest) = b :: buffers rest /\ parsed b [concrete (cut_text c)].
Proof.
  assert (Cm : separator ",") by now left.
  assert (Two : forall m n x t, (0 <= m)%Z -> (0 <= n)%Z -> range_letter x t ->
    parsed ((itoa m ++ B "," ++ itoa n ++ [x]) ++ [nl]) [the_command t (num_addr m) (num_addr n) [] []]).
  { intros m n x t Hm Hn X.
    pose proof (range_command' [] (Both (plain (Num (itoa m))) [] "," [] (plain (Num (itoa n)))) [] x t [] blanks_nil) as P.
    cbn [wrange_ok wrange_text wrange_start wrange_end app] in P. rewrite !read_num, !num_text, <- !app_assoc in P.
    rewrite <- !app_assoc. cbn [app] in *. apply P; auto using blanks_nil; try discriminate.
    pose proof (num_ok m Hm). pose proof (num_ok n Hn). auto using blanks_nil. }
  intros [n t|n t|m n t|m n|m n|m n|n] rest; cbn [can_type script concrete cut_text]; intros H.
  - destruct H as [H T]. eexists. split.
    + rewrite <- !app_assoc. apply text_buffer; [apply text_line_one; [apply itoa_digits; lia|now left]|apply T].
    + pose proof (text_parsed (OneAddress (plain (Num (itoa n)))) "a" t (num_ok n (proj1 H)) (or_introl eq_refl) I T) as P.
      cbn [wrange_text wrange_start] in P. rewrite read_num, num_text in P. rewrite <- app_assoc. exact P.
  - destruct H as [H T]. eexists. split.
    + rewrite <- !app_assoc. apply text_buffer; [apply text_line_one; [apply itoa_digits; lia|right; now left]|apply T].
    + pose proof (text_parsed (OneAddress (plain (Num (itoa n)))) "i" t (num_ok n (proj1 H)) (or_intror (or_introl eq_refl)) I T) as P.
      cbn [wrange_text wrange_start] in P. rewrite read_num, num_text in P. rewrite <- app_assoc. exact P.
  - destruct H as (Hm&Hn&T). eexists. split.
    + rewrite <- !app_assoc. apply text_buffer; [|apply T]. apply (text_line_two (itoa m) (itoa n) "c"); [apply itoa_digits; lia|apply itoa_digits; lia|right; now right].
    + assert (R : wrange_ok (Both (plain (Num (itoa m))) [] "," [] (plain (Num (itoa n))))).
      { cbn. pose proof (num_ok m (proj1 Hm)). pose proof (num_ok n (proj1 Hn)). auto using blanks_nil. }
      pose proof (text_parsed _ "c" t R (or_intror (or_intror eq_refl)) I T) as P.
      change (text_end "c") with wrange_end in P.
      cbn [wrange_text wrange_start wrange_end] in P. rewrite !read_num, !num_text in P. rewrite <- !app_assoc in P. rewrite <- !app_assoc. exact P.
  - eexists. split; [|apply (Two m n "d"%char ctdelete); try tauto; now left]. cbn [app]. rewrite buffers_plain; auto.
    replace (itoa m ++ B "," ++ itoa n ++ B "d") with ((itoa m ++ B "," ++ itoa n) ++ ["d"%char]) by now rewrite <- !app_assoc. now apply not_text_end.
  - eexists. split; [|apply (Two m n "p"%char ctprint); try tauto; right; right; right; right; now left]. cbn [app]. rewrite buffers_plain; auto.
    replace (itoa m ++ B "," ++ itoa n ++ B "p") with ((itoa m ++ B "," ++ itoa n) ++ ["p"%char]) by now rewrite <- !app_assoc. now apply not_text_end.
  - eexists. split; [|apply (Two m n "n"%char ctnumber); try tauto; right; right; right; now left]. cbn [app]. rewrite buffers_plain; auto.
    replace (itoa m ++ B "," ++ itoa n ++ B "n") with ((itoa m ++ B "," ++ itoa n) ++ ["n"%char]) by now rewrite <- !app_assoc. now apply not_text_end.
  - eexists. split; [cbn [app]; rewrite buffers_plain; [reflexivity|now apply not_text_end]|].
    pose proof (line_number_command [] (plain (Num (itoa n))) [] [] blanks_nil (num_ok n (proj1 H)) blanks_nil blanks_nil) as P.
    rewrite num_text, List.app_nil_r in P. rewrite <- app_assoc. exact P.
Qed.
Lemma script_buffer : forall c rest, doable c -> exists b, buffers (script c ++ rest) = b :: buffers rest /\ parsed b [concrete c].
Proof. intros c rest H. destruct (doable_cut c H) as [D E]. pose proof (script_buffer_cut c rest D) as P. now rewrite E in P. Qed.
Lemma session_buffers : forall h, Forall can_type h -> exists bs, buffers (concat (map script h)) = bs /\
  Forall2 (fun b c => parsed b [c]) bs (map concrete (map cut_text h)).
Proof.
  induction 1 as [|c h D F (bs&E&IH)]; [exists []; split; [reflexivity|constructor]|].
  cbn [map concat]. destruct (script_buffer_cut c (concat (map script h)) D) as (b&Q&P). exists (b :: bs). split; [now rewrite Q, E|]. constructor; auto.
Qed.
Lemma concat_lines : forall h, Forall can_type h -> Forall ed_line (concat (map script h)).
Proof. induction 1; cbn [map concat]; [constructor|]. apply Forall_app. split; auto using script_lines. Qed.
Lemma session_reads_cut : forall perr h, Forall can_type h ->
  segments (reads perr (session h)) = ([], map (fun c => (c, [])) (map concrete (map cut_text h))).
Proof.
  intros perr h D. unfold reads, session. rewrite scan_ed_lines by now apply concat_lines. rewrite List.app_nil_r.
  destruct (session_buffers h D) as (bs&E&F). rewrite E. fold (read_bufs perr bs). destruct (read_parsed perr bs _ F) as [S N].
  now rewrite no_errors, S.
Qed.
Lemma session_reads : forall perr h, Forall doable h ->
  segments (reads perr (session h)) = ([], map (fun c => (c, [])) (map concrete h)).
Proof.
  intros perr h D. rewrite session_reads_cut.
  - f_equal. f_equal. f_equal. induction D as [|c h Dc D IH]; [reflexivity|]. cbn [map]. rewrite IH. f_equal. now apply doable_cut.
  - eapply Forall_impl; [|exact D]. intros c Dc. now apply doable_cut.
Qed.
Lemma skip_skip : forall {A} x y (l : list A), skipn x (skipn y l) = skipn (x + y) l.
Proof.
  intros A x y. revert x. induction y as [|y IH]; intros x l; [now rewrite Nat.add_0_r|].
  destruct l as [|a l]; [now rewrite !skipn_nil|]. rewrite Nat.add_succ_r. cbn [skipn]. apply IH.
Qed.
Lemma cut_len : forall ls m n, (1 <= m <= n)%Z -> (len (unlines (upto ls (m - 1) ++ after ls n)) <= len (unlines ls))%Z.
Proof.
  intros ls m n H. unfold upto, after. rewrite <- (firstn_skipn (Z.to_nat (m - 1)) ls) at 3. rewrite !unlines_app, !len_app.
  replace (Z.to_nat n) with ((Z.to_nat n - Z.to_nat (m - 1)) + Z.to_nat (m - 1)) by lia. rewrite <- skip_skip.
  set (r := skipn (Z.to_nat (m - 1)) ls). rewrite <- (firstn_skipn (Z.to_nat n - Z.to_nat (m - 1)) r) at 2.
  rewrite unlines_app, len_app. unfold len. lia.
Qed.
Lemma valid_doable : forall h ls ed, buffer ed ls -> valid_history ls h -> session_ok h -> Forall doable h.
Proof.
  assert (Z : forall ls, (len (unlines ls) <= max_int64)%Z -> (lines_count ls <= max_int64)%Z) by (intros ls L; pose proof (lines_le_len ls); lia).
  assert (G : forall h ls, (len (unlines ls) <= max_int64)%Z -> valid_history ls h -> session_ok h -> Forall doable h).
  { induction h as [|c h IH]; intros ls L V S; constructor.
    - destruct V as (_&V&_). specialize (S c (or_introl eq_refl)). apply Z in L.
      destruct c; cbn [valid doable] in *; repeat match goal with |- _ /\ _ => split end; auto; try lia.
    - destruct V as (_&Vc&F&V). apply (IH (aedit ls c)); auto.
      + destruct c; cbn [aedit text_of] in *; auto.
        * rewrite typed_len. unfold upto, after. rewrite firstn_skipn. lia.
        * rewrite typed_len. unfold upto, after. rewrite firstn_skipn. lia.
        * rewrite typed_len. cbn [valid] in Vc. pose proof (cut_len ls m n). lia.
        * cbn [valid] in Vc. pose proof (cut_len ls m n). lia.
      + intros x Ix. apply S. now right. }
  intros h ls ed H V S. apply (G h ls); auto. exact (holds_len _ _ H).
Qed.
Lemma valid_can_type : forall h ls ed, buffer ed ls -> valid_history ls (map cut_text h) -> session_typed h -> Forall can_type h.
Proof.
  assert (Z : forall ls, (len (unlines ls) <= max_int64)%Z -> (lines_count ls <= max_int64)%Z) by (intros ls L; pose proof (lines_le_len ls); lia).
  assert (G : forall h ls, (len (unlines ls) <= max_int64)%Z -> valid_history ls (map cut_text h) -> session_typed h -> Forall can_type h).
  { induction h as [|c h IH]; intros ls L V S; constructor.
    - destruct V as (_&V&_). specialize (S c (or_introl eq_refl)). apply Z in L.
      destruct c; cbn [valid can_type cut_text takes_text text_of] in *; repeat match goal with |- _ /\ _ => split end; auto; try lia.
    - destruct V as (_&Vc&F&V). apply (IH (aedit ls (cut_text c))); auto.
      + destruct c; cbn [aedit text_of cut_text] in *; auto.
        * rewrite typed_len. unfold upto, after. rewrite firstn_skipn. lia.
        * rewrite typed_len. unfold upto, after. rewrite firstn_skipn. lia.
        * rewrite typed_len. cbn [valid] in Vc. pose proof (cut_len ls m n). lia.
        * cbn [valid] in Vc. pose proof (cut_len ls m n). lia.
      + intros x Ix. apply S. now right. }
  intros h ls ed H V S. apply (G h ls); auto. exact (holds_len _ _ H).
Qed.
