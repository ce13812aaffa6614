From Verif Require Import GoBase GoFacts HeadModel HeadSpec.

Lemma beqb_false : forall a b, a <> b -> beqb a b = false.
Proof. intros. now apply beqb_neq. Qed.

Lemma parse_args_render : forall l s, Forall item_ok l ->
  parse_args (render l) s =
  Ok {| numLines := fold_left (fun acc i => match i with Count k => k | Operand _ => acc end) l (numLines s);
        filenames := filenames s ++ operands l |}.
Proof.
  induction l as [|i l IH]; intros s H.
  - cbn. rewrite app_nil_r. now destruct s.
  - inversion H as [|? ? Hi Hl]; subst. destruct i as [k|f].
    + change (render (Count k :: l)) with (B "-n" :: itoa k :: render l).
      cbn [parse_args]. rewrite beqb_refl, atoi_itoa by exact Hi. rewrite IH by auto. reflexivity.
    + change (render (Operand f :: l)) with (f :: render l).
      cbn [parse_args]. rewrite (beqb_false f) by exact Hi. rewrite IH by auto.
      cbn [fold_left operands flat_map numLines filenames]. now rewrite <- app_assoc.
Qed.

Lemma render_nil : forall l, render l = [] -> l = [].
Proof. destruct l as [|[|]]; simpl; auto; discriminate. Qed.

Lemma parse_settings_render : forall l, Forall item_ok l -> l <> [] ->
  parse_settings (render l) = Ok {| numLines := count l;
    filenames := match operands l with [] => [B "-"] | o => o end |}.
Proof.
  intros l H Hne. unfold parse_settings. destruct (render l) eqn:E.
  - now apply render_nil in E.
  - rewrite <- E, parse_args_render by auto. cbn [filenames numLines app]. fold (count l).
    now destruct (operands l).
Qed.

Lemma split_unlines_app : forall l x, Forall (fun l => ~ In nl l) l -> ~ In nl x ->
  split_on nl (unlines l ++ x) = l ++ [x].
Proof.
  induction l as [|y r IH]; intros x H Hx.
  - simpl. now apply split_on_no_sep.
  - inversion H; subst. change (unlines (y :: r)) with ((y ++ [nl]) ++ unlines r). rewrite <- !app_assoc.
    change ([nl] ++ unlines r ++ x) with (nl :: unlines r ++ x).
    rewrite split_on_app by auto. simpl. now rewrite IH.
Qed.

Lemma split_consists : forall c ls, consists_of c ls ->
  split_on nl c = ls ++ [[]] \/ (exists l x, ls = l ++ [x] /\ x <> [] /\ split_on nl c = ls).
Proof.
  intros c ls [Hn [->|(l&x&->&Hx&->)]].
  - left. rewrite <- (app_nil_r (unlines ls)). apply split_unlines_app; auto.
  - right. exists l, x. repeat split; auto. apply Forall_app in Hn as [H1 H2]. inversion H2; subst.
    now apply split_unlines_app.
Qed.

Lemma short_tok : forall s, short_line s -> (max_token <=? N.of_nat (length s))%N = false.
Proof. unfold short_line, max_token. lia. Qed.

Lemma head_segs_cons : forall s r e k, r <> [] -> short_line s ->
  head_segs (s :: r) e k = if (0 <? k)%Z then
        (drop_cr s ++ [nl] ++ fst (head_segs r e (k - 1)), snd (head_segs r e (k - 1))) else ([], false).
Proof.
  intros s r e k Hr Hs. destruct r as [|s' r]; [congruence|].
  change (head_segs (s :: s' :: r) e k) with
    (if (max_token <=? N.of_nat (List.length s))%N then ([], true)
      else if (0 <? k)%Z then
        let '(o, p) := head_segs (s' :: r) e (k - 1) in (drop_cr s ++ [nl] ++ o, p)
      else ([], false)).
  rewrite short_tok by auto. destruct (head_segs (s' :: r) e (k - 1)). reflexivity.
Qed.

Lemma unlines_cons : forall x l, unlines (x :: l) = x ++ [nl] ++ unlines l.
Proof. intros. unfold unlines. simpl. now rewrite <- app_assoc. Qed.

Lemma head_segs_closed : forall ls k, Forall short_line ls ->
  head_segs (ls ++ [[]]) false k = (unlines (map drop_cr (firstn (Z.to_nat k) ls)), false).
Proof.
  induction ls as [|s r IH]; intros k H.
  - rewrite firstn_nil. reflexivity.
  - inversion H; subst. change ((s :: r) ++ [[]]) with (s :: (r ++ [[]])).
    rewrite head_segs_cons; auto; [|destruct r; discriminate]. rewrite IH by auto.
    destruct (0 <? k)%Z eqn:E.
    + replace (Z.to_nat k) with (S (Z.to_nat (k - 1))) by lia. cbn [firstn map].
      rewrite unlines_cons. reflexivity.
    + replace (Z.to_nat k) with 0 by lia. reflexivity.
Qed.

Lemma head_segs_open : forall l x k, Forall short_line l -> short_line x -> x <> [] ->
  head_segs (l ++ [x]) false k = (unlines (map drop_cr (firstn (Z.to_nat k) (l ++ [x]))), false).
Proof.
  induction l as [|s r IH]; intros x k H Hx Hne.
  - cbn [app head_segs]. rewrite short_tok by auto. destruct x as [|a x]; [congruence|].
    destruct (0 <? k)%Z eqn:E.
    + replace (Z.to_nat k) with (S (Z.to_nat (k - 1))) by lia. cbn [firstn]. rewrite firstn_nil.
      unfold unlines. cbn [map flat_map]. now rewrite app_nil_r.
    + replace (Z.to_nat k) with 0 by lia. reflexivity.
  - inversion H; subst. change ((s :: r) ++ [x]) with (s :: (r ++ [x])).
    rewrite head_segs_cons; auto; [|destruct r; discriminate]. rewrite IH by auto.
    destruct (0 <? k)%Z eqn:E.
    + replace (Z.to_nat k) with (S (Z.to_nat (k - 1))) by lia. cbn [firstn map].
      rewrite unlines_cons. reflexivity.
    + replace (Z.to_nat k) with 0 by lia. reflexivity.
Qed.

Lemma head_file_ok : forall c ls k, consists_of c ls -> Forall short_line ls ->
  head_file (c, None) k = (unlines (map drop_cr (firstn (Z.to_nat k) ls)), false).
Proof.
  intros c ls k H Hs. unfold head_file. cbn [fst snd].
  destruct (split_consists _ _ H) as [->|(l&x&->&Hx&->)].
  - now apply head_segs_closed.
  - apply Forall_app in Hs as [H1 H2]. inversion H2; subst. now apply head_segs_open.
Qed.

Lemma drop_cr_not_ended : forall l, not_cr_ended l -> drop_cr l = l.
Proof.
  intros l H. unfold drop_cr. destruct (rev l) as [|c r] eqn:E; auto.
  destruct (Ascii.eqb c cr) eqn:Ec; auto. apply Ascii.eqb_eq in Ec. subst. exfalso. apply (H (rev r)).
  rewrite <- (rev_involutive l), E. reflexivity.
Qed.

Lemma drop_cr_ended : forall p, drop_cr (p ++ [cr]) = p.
Proof. intros. unfold drop_cr. rewrite rev_app_distr. cbn. apply rev_involutive. Qed.

Lemma map_drop_cr : forall ls, Forall not_cr_ended ls -> map drop_cr ls = ls.
Proof. induction 1; cbn; auto. rewrite IHForall, drop_cr_not_ended; auto. Qed.

Lemma Forall_firstn' : forall {A} (P : A -> Prop) n l, Forall P l -> Forall P (firstn n l).
Proof.
  intros A P n l H. rewrite <- (firstn_skipn n l) in H. now apply Forall_app in H.
Qed.

(* operand i onwards, pairwise with its lines *)
Fixpoint all_read (w : world) (i : nat) (fs : list bytes) (lss : list (list bytes)) : Prop :=
  match fs, lss with
  | [], [] => True
  | f :: fs', ls :: lss' => reads w i f ls /\ all_read w (S i) fs' lss'
  | _, _ => False
  end.

Lemma all_read_nth : forall w fs lss i, length fs = length lss ->
  (forall j f ls, nth_error fs j = Some f -> nth_error lss j = Some ls -> reads w (i + j) f ls) ->
  all_read w i fs lss.
Proof.
  induction fs as [|f fs IH]; intros [|ls lss] i L H; try discriminate; cbn; auto.
  split.
  - rewrite <- (Nat.add_0_r i). apply (H 0); reflexivity.
  - apply IH; auto. intros j g gs H1 H2. replace (S i + j) with (i + S j) by lia. apply (H (S j)); auto.
Qed.

Lemma open_reads : forall w i f ls, reads w i f ls -> exists c, open w i f = Some (c, None) /\ consists_of c ls.
Proof.
  intros w i f ls (c&H&[[-> E]|[N E]]); exists c; split; auto; unfold open.
  - now rewrite beqb_refl, E.
  - now rewrite beqb_false.
Qed.

Definition section_of (n : Z) (p : bytes * list bytes) : bytes :=
  B "==> " ++ fst p ++ B " <==" ++ [nl] ++ unlines (map drop_cr (firstn (Z.to_nat n) (snd p))).

Lemma process_many : forall w k fs lss i, all_read w i fs lss -> Forall (Forall short_line) lss ->
  process_from w true k i fs = {| out := (match fs with [] => [] | _ => if 0 <? i then [nl] else [] end)
      ++ join [nl] (map (section_of k) (combine fs lss)); errout := []; fin := Exit 0 |}.
Proof.
  induction fs as [|f fs IH]; intros [|ls lss] i H Hs; try contradiction; [reflexivity|].
  destruct H as [H1 H2]. inversion Hs; subst. destruct (open_reads _ _ _ _ H1) as (c&E&C).
  cbn [process_from]. rewrite E, (head_file_ok c ls) by auto. rewrite (IH lss) by auto.
  cbn [out errout fin combine map].
  change (0 <? S i) with true. unfold header. destruct fs as [|g fs].
  - destruct lss; [|contradiction]. cbn [combine map join]. unfold section_of at 1. cbn [fst snd].
    f_equal. rewrite !app_nil_r, <- !app_assoc. reflexivity.
  - destruct lss as [|gs lss]; [contradiction|].
    cbn [combine map].
    change (join [nl] (section_of k (f, ls) :: section_of k (g, gs) :: map (section_of k) (combine fs lss)))
      with (section_of k (f, ls) ++ [nl] ++ join [nl] (section_of k (g, gs) :: map (section_of k) (combine fs lss))).
    set (R := join [nl] _). change (section_of k (f, ls)) with
      (B "==> " ++ f ++ B " <==" ++ [nl] ++ unlines (map drop_cr (firstn (Z.to_nat k) ls))).
    f_equal. rewrite <- !app_assoc. reflexivity.
Qed.

Lemma section_map : forall n fs lss, Forall (Forall not_cr_ended) lss ->
  map (section_of n) (combine fs lss) = map (section n) (combine fs lss).
Proof.
  induction fs as [|f fs IH]; intros [|ls lss] H; try reflexivity. inversion H; subst.
  cbn [combine map]. rewrite IH by auto. unfold section_of, section at 1. cbn [fst snd].
  rewrite map_drop_cr by now apply Forall_firstn'. reflexivity.
Qed.

Lemma head_one : forall w items f ls, Forall item_ok items -> operands items = [f] ->
  reads w 0 f ls -> Forall short_line ls ->
  head_main w (render items) =
    {| out := unlines (map drop_cr (firstn (Z.to_nat (count items)) ls)); errout := []; fin := Exit 0 |}.
Proof.
  intros w items f ls H E R S. unfold head_main.
  rewrite parse_settings_render, E by (auto; intros ->; discriminate).
  cbn [filenames numLines List.length Nat.ltb Nat.leb process_from].
  destruct (open_reads _ _ _ _ R) as (c&Eo&C). rewrite Eo, (head_file_ok c ls) by auto.
  cbn [header out errout fin app]. now rewrite app_nil_r.
Qed.

Lemma head_one_plain : forall w items f ls, Forall item_ok items -> operands items = [f] ->
  reads w 0 f ls -> Forall short_line ls -> Forall not_cr_ended ls ->
  head_main w (render items) =
    {| out := unlines (firstn (Z.to_nat (count items)) ls); errout := []; fin := Exit 0 |}.
Proof.
  intros w items f ls H E R S N. rewrite (head_one w items f ls) by auto.
  rewrite map_drop_cr; auto. now apply Forall_firstn'.
Qed.

Lemma head_many_plain : forall w items lss, Forall item_ok items -> 2 <= length (operands items) ->
  length lss = length (operands items) ->
  (forall i f ls, nth_error (operands items) i = Some f -> nth_error lss i = Some ls -> reads w i f ls) ->
  Forall (Forall short_line) lss -> Forall (Forall not_cr_ended) lss ->
  head_main w (render items) =
    {| out := join [nl] (map (section (count items)) (combine (operands items) lss));
       errout := []; fin := Exit 0 |}.
Proof.
  intros w items lss H L L2 R S N. unfold head_main.
  assert (items <> []) by (intros ->; simpl in L; lia).
  rewrite parse_settings_render by auto. cbn [filenames numLines].
  assert (E : match operands items with [] => [B "-"] | o => o end = operands items)
    by (destruct (operands items); [simpl in L; lia|reflexivity]).
  replace (match operands items with [] => [B "-"] | b :: l => b :: l end) with (operands items)
    by (now rewrite <- E at 1).
  replace (1 <? length (operands items)) with true by lia.
  rewrite (process_many w _ _ lss 0).
  - rewrite section_map by auto. destruct (operands items); reflexivity.
  - apply all_read_nth; auto.
  - auto.
Qed.

Lemma head_n_stdin : forall w items ls, Forall item_ok items -> items <> [] -> operands items = [] ->
  reads w 0 (B "-") ls -> Forall short_line ls -> Forall not_cr_ended ls ->
  head_main w (render items) =
    {| out := unlines (firstn (Z.to_nat (count items)) ls); errout := []; fin := Exit 0 |}.
Proof.
  intros w items ls H Hne E R S N. unfold head_main.
  rewrite parse_settings_render, E by auto.
  cbn [filenames numLines List.length Nat.ltb Nat.leb process_from].
  destruct (open_reads _ _ _ _ R) as (c&Eo&C). rewrite Eo, (head_file_ok c ls) by auto.
  cbn [header out errout fin app]. rewrite app_nil_r, map_drop_cr; auto. now apply Forall_firstn'.
Qed.

(* ---- C128 ---- *)
Lemma printed_drop : forall ls o, printed ls o <-> o = unlines (map drop_cr ls).
Proof.
  intros ls o. split.
  - intros (ls'&F&->). f_equal. induction F as [|l l' r r' H F IH]; [reflexivity|]. cbn [map]. f_equal; auto.
    destruct H as [->|[N ->]]; [now rewrite drop_cr_ended|now rewrite drop_cr_not_ended].
  - intros ->. exists (map drop_cr ls). split; auto.
    induction ls as [|l r IH]; [constructor|]. cbn [map]. constructor; auto.
    destruct (list_eq_dec ascii_dec l (removelast l ++ [cr])) as [Q|Q].
    + left. rewrite Q at 2. rewrite drop_cr_ended. exact Q.
    + assert (not_cr_ended l). { intros p ->. apply Q. now rewrite removelast_last. }
      right. split; auto. now apply drop_cr_not_ended.
Qed.

Lemma split_lines : forall ls y, Forall line_ok ls -> split_on nl (unlines ls ++ y) = ls ++ split_on nl y.
Proof.
  induction ls as [|l r IH]; intros y H; [reflexivity|]. inversion H as [|? ? [N _] Hr]; subst.
  rewrite unlines_cons, <- app_assoc. change ([nl] ++ unlines r ++ y) with (nl :: unlines r ++ y).
  rewrite <- app_assoc. cbn [app]. rewrite split_on_app by auto. cbn [app]. now rewrite IH.
Qed.

Lemma split_on_ne : forall y, split_on nl y <> [].
Proof. destruct y as [|c y]; cbn; [discriminate|]. destruct (Ascii.eqb c nl); [discriminate|]. destruct (split_on nl y); discriminate. Qed.

(* the lines before the interesting one *)
Lemma head_segs_before : forall ls segs e k, Forall line_ok ls -> segs <> [] -> length ls <= Z.to_nat k ->
  head_segs (ls ++ segs) e k =
    (unlines (map drop_cr ls) ++ fst (head_segs segs e (k - Z.of_nat (length ls))),
     snd (head_segs segs e (k - Z.of_nat (length ls)))).
Proof.
  induction ls as [|l r IH]; intros segs e k H N L.
  - cbn [app length map]. replace (k - Z.of_nat 0)%Z with k by lia. unfold unlines. cbn [flat_map app].
    now destruct (head_segs segs e k).
  - inversion H as [|? ? [N1 S1] Hr]; subst. cbn [length] in L. cbn [app].
    rewrite head_segs_cons by (auto; destruct r; auto; discriminate).
    replace (0 <? k)%Z with true by lia. rewrite IH by (auto; lia). cbn [fst snd map].
    rewrite unlines_cons. replace (k - 1 - Z.of_nat (length r))%Z with (k - Z.of_nat (length (l :: r)))%Z
      by (cbn [length]; lia).
    f_equal. rewrite <- !app_assoc. reflexivity.
Qed.

Lemma shows_head : forall k c o ok, shows (Z.to_nat k) c o ok -> head_file c k = (o, negb ok).
Proof.
  intros k c o ok H. unfold head_file. destruct H as [ls rest e o H L P|ls x e o H L X P|ls x rest e o H L X R P];
    apply printed_drop in P; subst o; cbn [fst snd].
  - rewrite split_lines by auto. rewrite <- (firstn_skipn (Z.to_nat k) ls) at 1.
    destruct (skipn (Z.to_nat k) ls) as [|y [|z r]] eqn:E;
      apply (f_equal (@length _)) in E as E'; rewrite skipn_length, L in E'; cbn [length] in E'; try lia.
    rewrite <- app_assoc. rewrite <- (firstn_skipn (Z.to_nat k) ls) in H. rewrite E in H.
    apply Forall_app in H as [H1 H2]. inversion H2 as [|? ? [Y1 Y2] _]; subst.
    rewrite head_segs_before by (auto; try discriminate; rewrite firstn_length; lia).
    cbn [app]. rewrite head_segs_cons by (auto using split_on_ne).
    replace (0 <? k - Z.of_nat (length (firstn (Z.to_nat k) ls)))%Z with false; [|rewrite firstn_length; lia].
    cbn [fst snd]. now rewrite app_nil_r.
  - destruct X as [X1 X2]. rewrite split_lines by auto. rewrite (split_on_no_sep nl x) by auto.
    rewrite head_segs_before by (auto; discriminate). cbn [head_segs]. rewrite short_tok by auto.
    destruct x as [|a x].
    + cbn [fst snd]. rewrite !app_nil_r, firstn_all2 by lia. now destruct e.
    + cbn [fst snd]. destruct (0 <? k - Z.of_nat (length ls))%Z eqn:E.
      * rewrite firstn_all2 by (rewrite app_length; cbn [length]; lia). rewrite map_app. unfold unlines.
        rewrite flat_map_app. cbn [map flat_map]. rewrite app_nil_r. now destruct e.
      * rewrite firstn_app, firstn_all2 by lia. replace (Z.to_nat k - length ls) with 0 by lia.
        cbn [firstn]. rewrite !app_nil_r. now destruct e.
  - destruct X as [X1 X2]. rewrite split_lines by auto.
    assert (T : (max_token <=? N.of_nat (length x))%N = true) by (unfold max_token; lia).
    destruct R as [->|R].
    + rewrite app_nil_r, (split_on_no_sep nl x) by auto. rewrite head_segs_before by (auto; discriminate).
      cbn [head_segs]. rewrite T. cbn [fst snd]. now rewrite app_nil_r.
    + destruct rest as [|c rest]; [discriminate|]. cbn [hd] in R. subst c. rewrite split_on_app by auto.
      rewrite head_segs_before by (auto; discriminate).
      destruct (split_on nl rest) as [|s r] eqn:E; [now apply split_on_ne in E|].
      change (head_segs (x :: s :: r) ?a ?b) with
        (if (max_token <=? N.of_nat (List.length x))%N then ([], true)
         else if (0 <? b)%Z then let '(o, p) := head_segs (s :: r) a (b - 1) in (drop_cr x ++ [nl] ++ o, p)
              else ([], false)).
      rewrite T. cbn [fst snd]. now rewrite app_nil_r.
Qed.

Lemma gives_open : forall w i f c, gives w i f c -> open w i f = Some c.
Proof.
  intros w i f c [[-> H]|[N H]]; unfold open; [now rewrite beqb_refl, H|now rewrite beqb_false].
Qed.

Lemma in_split_first : forall (c : ascii) l, In c l -> exists x r, l = x ++ c :: r /\ ~ In c x.
Proof.
  intros c l. induction l as [|d l IH]; intros H; [contradiction|]. destruct (ascii_dec d c) as [->|D].
  - exists [], l. split; auto.
  - destruct H as [H|H]; [congruence|]. destruct (IH H) as (x&r&->&X). exists (d :: x), r. split; auto.
    intros [Q|Q]; congruence || contradiction.
Qed.
(* every input shows something *)
Lemma shows_total : forall n c, exists o ok, shows n c o ok.
Proof.
  intros n [b e].
  assert (G : forall m b ls, Forall line_ok ls -> length ls + m = n -> exists o ok, shows n (unlines ls ++ b, e) o ok).
  { induction m as [|m IH]; intros b0 ls H L.
    all: destruct (in_dec ascii_dec nl b0) as [I|I].
    all: try (apply in_split_first in I as (x&r&->&X)).
    all: try (destruct (N.ltb_spec (N.of_nat (length b0)) 65536) as [S|S];
      [eexists _, _; apply shows_all; eauto; [lia|split; auto|apply printed_drop; reflexivity]
      |eexists _, _; rewrite <- (app_nil_r b0); apply shows_long; eauto; [lia|split; auto|apply printed_drop; reflexivity]]).
    all: destruct (N.ltb_spec (N.of_nat (length x)) 65536) as [S|S];
      [|eexists _, _; apply shows_long; eauto; [lia|split; auto|apply printed_drop; reflexivity]].
    - exists (unlines (map drop_cr (firstn n (ls ++ [x])))), true.
      replace (unlines ls ++ x ++ nl :: r) with (unlines (ls ++ [x]) ++ r).
      + apply shows_enough; [apply Forall_app; split; auto; repeat constructor; auto| |now apply printed_drop].
        rewrite app_length. cbn [length]. lia.
      + unfold unlines. rewrite flat_map_app. cbn [flat_map]. rewrite <- !app_assoc. reflexivity.
    - replace (unlines ls ++ x ++ nl :: r) with (unlines (ls ++ [x]) ++ r).
      + apply IH; [apply Forall_app; split; auto; repeat constructor; auto|].
        rewrite app_length. cbn [length]. lia.
      + unfold unlines. rewrite flat_map_app. cbn [flat_map]. rewrite <- !app_assoc. reflexivity. }
  apply (G n b []); [constructor|reflexivity].
Qed.

(* several operands *)
Fixpoint headed (i : nat) (fs os : list bytes) : bytes :=
  match fs, os with
  | f :: fs', o :: os' => header true i f ++ o ++ headed (S i) fs' os'
  | _, _ => []
  end.
Lemma headed_S : forall fs os i, headed (S i) fs os =
  flat_map (fun p => nl :: under_header true p) (combine fs os).
Proof.
  induction fs as [|f fs IH]; intros [|o os] i; try reflexivity. cbn [headed combine flat_map]. rewrite IH.
  unfold header, under_header. cbn [Nat.ltb Nat.leb fst snd].
  change (nl :: B "==> " ++ f ++ B " <==" ++ [nl] ++ o) with ([nl] ++ B "==> " ++ f ++ B " <==" ++ [nl] ++ o).
  rewrite <- !app_assoc. reflexivity.
Qed.
Lemma join_cons_flat : forall (x : bytes) l, join [nl] (x :: l) = x ++ flat_map (fun y => nl :: y) l.
Proof.
  intros x l. revert x. induction l as [|y l IH]; intros x; [cbn; now rewrite app_nil_r|].
  change (join [nl] (x :: y :: l)) with (x ++ [nl] ++ join [nl] (y :: l)). rewrite IH. reflexivity.
Qed.
Lemma flat_map_map : forall {A B C} (f : A -> B) (g : B -> list C) l,
  flat_map g (map f l) = flat_map (fun x => g (f x)) l.
Proof. induction l as [|a l IH]; [reflexivity|]. cbn. now rewrite IH. Qed.
Lemma headed_join : forall fs os, headed 0 fs os = join [nl] (map (under_header true) (combine fs os)).
Proof.
  intros [|f fs] [|o os]; try reflexivity. cbn [headed combine map]. rewrite join_cons_flat, headed_S, flat_map_map.
  change (under_header true (f, o)) with (B "==> " ++ f ++ B " <==" ++ [nl] ++ o).
  change (header true 0 f) with (B "==> " ++ f ++ B " <==" ++ [nl]). rewrite <- !app_assoc. reflexivity.
Qed.
Lemma headed_app : forall fs os i f o, length fs = length os ->
  headed i (fs ++ [f]) (os ++ [o]) = headed i fs os ++ header true (i + length fs) f ++ o.
Proof.
  induction fs as [|g fs IH]; intros [|p os] i f o L; try discriminate; cbn [app headed length].
  - now rewrite Nat.add_0_r, app_nil_r.
  - rewrite IH by (cbn in L; lia). replace (S i + length fs) with (i + S (length fs)) by lia.
    now rewrite <- !app_assoc.
Qed.
Lemma combine_snoc : forall (fs os : list bytes) f o, length fs = length os ->
  combine (fs ++ [f]) (os ++ [o]) = combine fs os ++ [(f, o)].
Proof.
  induction fs as [|g fs IH]; intros [|p os] f o L; try discriminate; [reflexivity|]. cbn. rewrite IH; auto.
Qed.
Lemma all_show_length : forall w n fs os i, all_show w n i fs os -> length fs = length os.
Proof. induction fs as [|f fs IH]; intros [|o os] i H; cbn in H; try contradiction; auto. destruct H as [_ H]. cbn. f_equal. eauto. Qed.

Lemma process_prefix : forall w k fs os i r, all_show w (Z.to_nat k) i fs os ->
  process_from w true k i (fs ++ r) =
    {| out := headed i fs os ++ out (process_from w true k (i + length fs) r);
       errout := errout (process_from w true k (i + length fs) r);
       fin := fin (process_from w true k (i + length fs) r) |}.
Proof.
  induction fs as [|f fs IH]; intros [|o os] i r H; cbn in H; try contradiction.
  - cbn [app headed length]. rewrite Nat.add_0_r. now destruct (process_from w true k i r).
  - destruct H as [(c&G&S) H]. cbn [app process_from]. rewrite (gives_open _ _ _ _ G), (shows_head _ _ _ _ S).
    cbn [negb]. rewrite (IH os) by auto. cbn [out errout fin headed length].
    replace (Datatypes.S i + length fs) with (i + Datatypes.S (length fs)) by lia. now rewrite <- !app_assoc.
Qed.

Lemma process_one : forall w k i f c o ok, gives w i f c -> shows (Z.to_nat k) c o ok ->
  forall many r, process_from w many k i (f :: r) =
    if ok then let rr := process_from w many k (S i) r in
               {| out := header many i f ++ o ++ out rr; errout := errout rr; fin := fin rr |}
    else {| out := header many i f ++ o; errout := []; fin := Panicked |}.
Proof.
  intros w k i f c o ok G S many r. cbn [process_from]. rewrite (gives_open _ _ _ _ G), (shows_head _ _ _ _ S).
  now destruct ok.
Qed.

Lemma head_inputs : forall w items, Forall item_ok items -> items <> [] ->
  head_main w (render items) =
    process_from w (1 <? length (inputs items)) (count items) 0 (inputs items).
Proof. intros w items H N. unfold head_main. rewrite parse_settings_render by auto. reflexivity. Qed.

Lemma head_exact_ok : forall w items os, Forall item_ok items -> items <> [] ->
  all_show w (Z.to_nat (count items)) 0 (inputs items) os ->
  head_main w (render items) =
    {| out := join [nl] (map (under_header (1 <? length (inputs items))) (combine (inputs items) os));
       errout := []; fin := Exit 0 |}.
Proof.
  intros w items os H N A. rewrite head_inputs by auto. destruct (1 <? length (inputs items)) eqn:E.
  - rewrite <- (app_nil_r (inputs items)) at 1. rewrite (process_prefix w _ _ os) by auto.
    cbn [process_from out errout fin]. now rewrite app_nil_r, headed_join.
  - destruct (inputs items) as [|f [|g r]] eqn:Q; [unfold inputs in Q; destruct (operands items); discriminate| |discriminate].
    destruct os as [|o [|p os]]; cbn in A; try contradiction; [|destruct A as [_ []]].
    destruct A as [(c&G&S) _]. rewrite (process_one _ _ _ _ _ _ _ G S). cbn [process_from out errout fin header app combine map join].
    now rewrite app_nil_r.
Qed.

Lemma head_exact_fail : forall w items fs f post os o, Forall item_ok items -> items <> [] ->
  inputs items = fs ++ f :: post -> all_show w (Z.to_nat (count items)) 0 fs os ->
  (unopenable w f /\ o = []) \/ (exists c, gives w (length fs) f c /\ shows (Z.to_nat (count items)) c o false) ->
  head_main w (render items) =
    {| out := join [nl] (map (under_header (1 <? length (inputs items))) (combine fs os ++ [(f, o)]));
       errout := []; fin := Panicked |}.
Proof.
  intros w items fs f post os o H N E A F. rewrite head_inputs by auto. rewrite E.
  assert (P : forall many, process_from w many (count items) (length fs) (f :: post) =
    {| out := header many (length fs) f ++ o; errout := []; fin := Panicked |}).
  { intros many. destruct F as [[[F1 F2] ->]|(c&G&S)].
    - cbn [process_from]. unfold open. rewrite (beqb_false f), F2 by auto. now rewrite app_nil_r.
    - now rewrite (process_one _ _ _ _ _ _ _ G S). }
  pose proof (all_show_length _ _ _ _ _ A) as L.
  destruct (1 <? length (fs ++ f :: post)) eqn:Q.
  - rewrite (process_prefix w _ _ os) by auto. cbn [Nat.add]. rewrite P. cbn [out errout fin].
    rewrite <- combine_snoc, <- headed_join, headed_app by auto. reflexivity.
  - destruct fs as [|g fs]; [|rewrite app_length in Q; cbn [length] in Q; lia].
    destruct os; [|discriminate]. cbn [app]. cbn [length] in P. rewrite P. reflexivity.
Qed.

Lemma unlines_shorter : forall ls, Exists (fun l => exists p, l = p ++ [cr]) ls ->
  length (unlines (map drop_cr ls)) < length (unlines ls).
Proof.
  assert (D : forall l, length (drop_cr l) <= length l).
  { intros l. unfold drop_cr. destruct (rev l) as [|c r] eqn:E; [lia|]. destruct (Ascii.eqb c cr); [|lia].
    apply (f_equal (@length _)) in E. rewrite rev_length in E. cbn [length] in E. rewrite rev_length. lia. }
  assert (M : forall ls, length (unlines (map drop_cr ls)) <= length (unlines ls)).
  { induction ls as [|l r IH]; [auto|]. cbn [map]. rewrite !unlines_cons, !app_length. specialize (D l). lia. }
  intros ls H. induction H as [l r [p ->]|l r H IH]; cbn [map]; rewrite !unlines_cons, !app_length.
  - rewrite drop_cr_ended. specialize (M r). cbn [length]. lia.
  - specialize (D l). lia.
Qed.

(* ---- C159 ---- *)
Lemma drop_cr_cases : forall l, (exists p, l = p ++ [cr] /\ drop_cr l = p) \/ (not_cr_ended l /\ drop_cr l = l).
Proof.
  intros l. destruct (list_eq_dec ascii_dec l (removelast l ++ [cr])) as [Q|Q].
  - left. exists (removelast l). split; [exact Q|]. rewrite Q at 1. apply drop_cr_ended.
  - assert (not_cr_ended l) by (intros p ->; apply Q; now rewrite removelast_last). right. split; auto using drop_cr_not_ended.
Qed.
Lemma drop_cr_in : forall l, ~ In nl l -> ~ In nl (drop_cr l).
Proof. intros l H. destruct (drop_cr_cases l) as [(p&->&E)|[_ E]]; rewrite E; auto. intros I. apply H, in_or_app. now left. Qed.
Lemma drop_cr_short : forall l, short_line l -> short_line (drop_cr l).
Proof.
  intros l H. destruct (drop_cr_cases l) as [(p&->&E)|[_ E]]; rewrite E; auto. unfold short_line in *.
  rewrite app_length in H. cbn [length] in H. lia.
Qed.
(* the two runs: the second one reads what the first one printed *)
Lemma head_head : forall w items f ls w' items' f', Forall item_ok items -> operands items = [f] ->
  reads w 0 f ls -> Forall short_line ls -> Forall item_ok items' -> operands items' = [f'] ->
  gives w' 0 f' (out (head_main w (render items)), None) ->
  head_main w' (render items') =
    {| out := unlines (map drop_cr (map drop_cr (firstn (Nat.min (Z.to_nat (count items')) (Z.to_nat (count items))) ls)));
       errout := []; fin := Exit 0 |}.
Proof.
  intros w items f ls w' items' f' H E R Sh H' E' Gv. rewrite (head_one w items f ls H E R Sh) in Gv. cbn [out] in Gv.
  set (ls1 := map drop_cr (firstn (Z.to_nat (count items)) ls)) in *.
  assert (N : Forall (fun l => ~ In nl l) ls).
  { destruct R as (c&[C _]&_). exact C. }
  assert (R' : reads w' 0 f' ls1).
  { exists (unlines ls1). split; [split; [|now left]|].
    - unfold ls1. rewrite Forall_map. eapply Forall_impl; [|apply Forall_firstn', N]. intros l. apply drop_cr_in.
    - destruct Gv as [[? ?]|[? ?]]; [left|right]; auto. }
  rewrite (head_one w' items' f' ls1 H' E' R').
  - unfold ls1. rewrite firstn_map, firstn_firstn. reflexivity.
  - unfold ls1. rewrite Forall_map. eapply Forall_impl; [|apply Forall_firstn', Sh]. intros l. apply drop_cr_short.
Qed.

