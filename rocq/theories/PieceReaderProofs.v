(* Proofs for C143. *)
From Verif Require Import GoBase PieceTableModel PieceTableSpec PieceTableProofs PieceReaderModel PieceReaderSpec.
Local Open Scope Z_scope.

Lemma sub_eq : forall b off n, firstn (Z.to_nat n) (skipn (Z.to_nat off) b) = sub b off n.
Proof. reflexivity. Qed.

Lemma read_loop_full : forall f rd i off want b, 0 < want -> rd i off want = (b, false) -> len b = want ->
  read_loop (S f) rd i off want [] = (Got b, S i).
Proof.
  intros f rd i off want b Hw E L. cbn [read_loop List.length].
  replace (Z.of_nat 0 <? want) with true by lia.
  rewrite Z.add_0_r, Z.sub_0_r, E. cbn [app]. unfold len in L.
  destruct f; cbn [read_loop]; rewrite L;
    (replace (want <? want) with false by lia; replace (want =? want) with true by lia; reflexivity).
Qed.

Lemma read_loop_err : forall f rd i off want b, 0 < want -> rd i off want = (b, true) ->
  read_loop (S f) rd i off want [] = (Failed, S i).
Proof.
  intros f rd i off want b Hw E. cbn [read_loop List.length].
  replace (Z.of_nat 0 <? want) with true by lia.
  rewrite Z.add_0_r, Z.sub_0_r, E. reflexivity.
Qed.

Lemma buf_read_ok : forall b i off n, 0 <= off -> 0 < n -> off + n <= len b ->
  buf_read_at b i off n = (sub b off n, false).
Proof.
  intros. unfold buf_read_at. replace (off <? 0) with false by lia.
  rewrite sub_eq. f_equal. pose proof (sub_len b off n). unfold len in *. lia.
Qed.

(* the piece read over rd: content, or an error *)
Definition touches (content : bytes) (p : piece) : Prop :=
  prdr p = ROrig /\ 0 < plen p /\ poff p + plen p = len content.

Lemma contract_full : forall rd pt i off n, keeps_contract rd (orig pt) ->
  0 <= off -> 0 < n -> off + n <= len (orig pt) ->
  exists err, rd i off n = (sub (orig pt) off n, err) /\ (err = true -> off + n = len (orig pt)).
Proof.
  intros rd pt i off n Hk Ho Hn Hl. specialize (Hk i off n). destruct (rd i off n) as [b err].
  destruct Hk as (E & _ & K); try lia. exists err. subst b. rewrite sub_eq in *.
  split; auto. intro X. apply K in X. rewrite sub_len in X by lia. lia.
Qed.

Lemma pieces_over : forall f rd pt ps i, keeps_contract rd (orig pt) -> Forall (pok pt) ps ->
  string_pieces_over (S f) rd i ps = Some (Ok (denote pt ps)) \/
  (string_pieces_over (S f) rd i ps = Some Panic /\ ~ eof_only_when_short rd /\
     Exists (touches (orig pt)) ps).
Proof.
  intros f rd pt ps i Hk H. revert i. induction H as [|p ps Hp Hps IH]; intro i; [left; reflexivity|].
  cbn [string_pieces_over]. destruct Hp as (P1 & P2 & P3).
  change (denote pt (p :: ps)) with (pbytes pt p ++ denote pt ps).
  destruct (plen p =? 0) eqn:E.
  - replace (pbytes pt p) with (@nil ascii).
    2:{ unfold pbytes. replace (plen p) with 0 by lia. reflexivity. }
    destruct (IH i) as [->|(->&N&X)]; [left; reflexivity|]. right. auto.
  - assert (W : 0 < plen p) by lia. replace (plen p <? 0) with false by lia. unfold read_piece_over.
    destruct (prdr p) eqn:R; cbn [rdr_content] in P3.
    + destruct (contract_full rd pt i (poff p) (plen p) Hk) as (err & E1 & E2); try lia.
      destruct err.
      * rewrite (read_loop_err f rd i _ _ _ W E1). right. split; [reflexivity|]. split.
        -- intro Q. specialize (Q i (poff p) (plen p)). rewrite E1 in Q. cbn [fst snd] in Q.
           specialize (Q ltac:(lia) ltac:(apply sub_len; lia)). discriminate.
        -- apply Exists_cons_hd. repeat split; auto; lia.
      * rewrite (read_loop_full f rd i _ _ _ W E1) by (apply sub_len; lia).
        assert (PB : pbytes pt p = sub (orig pt) (poff p) (plen p)) by (unfold pbytes; now rewrite R).
        rewrite PB. destruct (IH (S i)) as [->|(->&N&X)]; [left; reflexivity|]. right. auto.
    + rewrite (read_loop_full f _ i _ _ _ W (buf_read_ok b i _ _ P2 W P3)) by (apply sub_len; lia).
      assert (PB : pbytes pt p = sub b (poff p) (plen p)) by (unfold pbytes; now rewrite R).
      rewrite PB. destruct (IH (S i)) as [->|(->&N&X)]; [left; reflexivity|]. right. auto.
Qed.

Lemma pieces_over_touch : forall f rd pt ps i, keeps_contract rd (orig pt) -> eof_at_the_end rd (orig pt) ->
  Forall (pok pt) ps -> Exists (touches (orig pt)) ps -> string_pieces_over (S f) rd i ps = Some Panic.
Proof.
  intros f rd pt ps i Hk He H. revert i. induction H as [|p ps Hp Hps IH]; intros i X; [inversion X|].
  cbn [string_pieces_over]. destruct Hp as (P1 & P2 & P3).
  destruct (plen p =? 0) eqn:E.
  - apply IH. inversion X; subst; auto. destruct H0 as (?&?&?). lia.
  - assert (W : 0 < plen p) by lia. replace (plen p <? 0) with false by lia. unfold read_piece_over.
    destruct (prdr p) eqn:R; cbn [rdr_content] in P3.
    + destruct (contract_full rd pt i (poff p) (plen p) Hk) as (err & E1 & E2); try lia.
      destruct err.
      * now rewrite (read_loop_err f rd i _ _ _ W E1).
      * rewrite (read_loop_full f rd i _ _ _ W E1) by (apply sub_len; lia).
        rewrite IH; auto. inversion X; subst; auto. destruct H0 as (_&_&T).
        specialize (He i (poff p) (plen p) P2 ltac:(lia) T). rewrite E1 in He. discriminate.
    + rewrite (read_loop_full f _ i _ _ _ W (buf_read_ok b i _ _ P2 W P3)) by (apply sub_len; lia).
      rewrite IH; auto. inversion X; subst; auto. destruct H0 as (T&_&_). congruence.
Qed.

Lemma string_over_pieces : forall f rd pt, Forall (pok pt) (head pt) ->
  string_over f rd pt = string_pieces_over f rd 0 (head pt).
Proof.
  intros. unfold string_over. pose proof (total_nonneg _ _ H). now replace (total_len (head pt) <? 0) with false by lia.
Qed.

(* the pieces do not depend on what the original reader holds *)
Lemma run_edits_shape : forall es a b, head a = head b -> appendb a = appendb b ->
  head (fst (run_edits a es)) = head (fst (run_edits b es)) /\ snd (run_edits a es) = snd (run_edits b es).
Proof.
  induction es as [|e es IH]; intros a b Hh Ha; [auto|]. destruct e as [t x|n x]; cbn [run_edits].
  - unfold pt_insert. rewrite <- Hh, <- Ha. destruct (head a) eqn:E.
    + apply IH; auto.
    + destruct (insert_pieces (appendb a) t x 0 (p :: l)) as [[ps buf]|].
      * apply IH; auto.
      * cbn [fst snd]. rewrite E. auto.
  - apply IH; cbn [pt_delete head appendb]; congruence.
Qed.

Lemma run_edits_orig : forall es a, orig (fst (run_edits a es)) = orig a.
Proof.
  induction es as [|e es IH]; intros a; [auto|]. destruct e as [t x|n x]; cbn [run_edits].
  - unfold pt_insert. destruct (head a) eqn:E.
    + now rewrite IH.
    + destruct (insert_pieces (appendb a) t x 0 (p :: l)) as [[ps buf]|]; [now rewrite IH|reflexivity].
  - now rewrite IH.
Qed.

Lemma app_eq_len : forall {A} (a b c d : list A), length a = length b -> a ++ c = b ++ d -> a = b /\ c = d.
Proof.
  induction a; destruct b; simpl; intros; try discriminate; auto.
  inversion H0; subst. destruct (IHa b c d) as [-> ->]; auto.
Qed.

Lemma edits_range_len : forall es s s', len s = len s' -> edits_in_range s es -> edits_in_range s' es.
Proof.
  induction es as [|e es IH]; intros s s' L H; [exact I|]. destruct H as [H1 H2]. split.
  - destruct e; cbn [edit_in_range] in *; rewrite <- L; auto.
  - apply (IH (apply_edit s e)); auto. destruct e; cbn [edit_in_range apply_edit] in *.
    + rewrite !splice_len; lia.
    + rewrite !cut_out_len; lia.
Qed.

Lemma sub_snoc : forall p c c' off n, 0 <= off -> 0 <= n -> off + n <= len p ->
  sub (p ++ [c]) off n = sub (p ++ [c']) off n.
Proof.
  intros. unfold sub, len in *. rewrite !skipn_app_left by lia.
  rewrite !firstn_app_left by (rewrite skipn_length; lia). reflexivity.
Qed.

Lemma sub_snoc_end : forall p c off n, 0 <= off -> 0 < n -> off + n = len (p ++ [c]) ->
  exists q, sub (p ++ [c]) off n = q ++ [c].
Proof.
  intros. unfold sub, len in *. rewrite app_length in H1. cbn [List.length] in H1.
  rewrite skipn_app_left by lia. rewrite firstn_app_right by (rewrite skipn_length; lia).
  replace (Z.to_nat n - length (skipn (Z.to_nat off) p))%nat with 1%nat by (rewrite skipn_length; lia).
  eexists. reflexivity.
Qed.

Lemma denote_differs : forall pt pt' p c c' ps, orig pt = p ++ [c] -> orig pt' = p ++ [c'] ->
  Forall (pok pt) ps -> Forall (pok pt') ps ->
  (Exists (touches (p ++ [c])) ps -> c <> c' -> denote pt ps <> denote pt' ps) /\
  (~ Exists (touches (p ++ [c])) ps -> denote pt ps = denote pt' ps).
Proof.
  intros pt pt' p c c' ps O O' H H'. 
  assert (L : forall x, len (p ++ [x]) = len p + 1) by (intro; rewrite len_app; reflexivity).
  induction H as [|q ps Hq Hps IH]; [split; [intro X; inversion X|reflexivity]|].
  inversion H' as [|? ? Hq' Hps']; subst. destruct (IH Hps') as [I1 I2]. clear IH.
  change (denote pt (q :: ps)) with (pbytes pt q ++ denote pt ps).
  change (denote pt' (q :: ps)) with (pbytes pt' q ++ denote pt' ps).
  assert (LL : length (pbytes pt q) = length (pbytes pt' q)).
  { pose proof (pbytes_len _ _ Hq). pose proof (pbytes_len _ _ Hq'). unfold len in *. lia. }
  split.
  - intros X Hc E. apply app_eq_len in E; auto. destruct E as [E1 E2].
    inversion X; subst; [|now apply (I1 H0 Hc)].
    destruct H0 as (R & P & T). destruct Hq as (Q1&Q2&Q3). unfold pbytes in E1. rewrite R in E1.
    cbn [rdr_content] in E1. rewrite O, O' in E1.
    destruct (sub_snoc_end p c (poff q) (plen q) Q2 P T) as (u & U).
    destruct (sub_snoc_end p c' (poff q) (plen q) Q2 P) as (v & V); [rewrite L in *; lia|].
    rewrite U, V in E1. apply app_inj_tail in E1. destruct E1. congruence.
  - intros X. rewrite I2 by (intro; apply X; now apply Exists_cons_tl). f_equal.
    destruct Hq as (Q1&Q2&Q3). unfold pbytes. destruct (prdr q) eqn:R; [|reflexivity].
    cbn [rdr_content] in *. rewrite O, O' in *.
    destruct (Z.eq_dec (plen q) 0) as [Z0|NZ]; [rewrite Z0; reflexivity|].
    apply sub_snoc; try lia. rewrite L in Q3.
    assert (poff q + plen q <> len p + 1); [|lia].
    intro. apply X. apply Exists_cons_hd. repeat split; auto; [lia|rewrite L; lia].
Qed.

Lemma whole_inv : forall content cc es, len content <= max_int64 -> edits_in_range content es ->
  exists pt, run_edits (new_piece_table content cc (len content)) es = (pt, Returned) /\ inv pt (apply_edits content es)
    /\ orig pt = content.
Proof.
  intros content cc es L R. pose proof (len_nonneg content).
  assert (E : firstn (Z.to_nat (len content)) content = content) by (unfold len; rewrite Nat2Z.id; apply firstn_all).
  destruct (run_edits_inv es (new_piece_table content cc (len content)) content) as (pt&E1&E2&E3); auto.
  - rewrite <- E at 3. apply inv_new. lia.
  - exists pt. split; auto. split; auto. pose proof (run_edits_orig es (new_piece_table content cc (len content))) as X.
    rewrite E1 in X. exact X.
Qed.

Lemma any_other : forall c : ascii, exists c', c <> c'.
Proof. intro c. destruct c as [b ? ? ? ? ? ? ?]. exists (Ascii (negb b) b0 b1 b2 b3 b4 b5 b6). destruct b; discriminate. Qed.

Theorem over_quiet : forall rd content cc es fuel, keeps_contract rd content -> eof_only_when_short rd ->
  len content <= max_int64 -> edits_in_range content es ->
  exists pt, run_edits (new_piece_table content cc (len content)) es = (pt, Returned) /\
    string_over (S fuel) rd pt = Some (Ok (apply_edits content es)).
Proof.
  intros rd content cc es fuel Hk Hq L R. destruct (whole_inv content cc es L R) as (pt & E1 & Hi & O).
  exists pt. split; auto. destruct Hi as (_&_&_&F&D). rewrite string_over_pieces by auto.
  rewrite <- O in Hk. destruct (pieces_over fuel rd pt (head pt) 0 Hk F) as [->|(_&N&_)]; [now rewrite D|contradiction].
Qed.

Theorem over_any : forall rd content cc es fuel, keeps_contract rd content ->
  len content <= max_int64 -> edits_in_range content es ->
  exists pt, run_edits (new_piece_table content cc (len content)) es = (pt, Returned) /\
    (string_over (S fuel) rd pt = Some (Ok (apply_edits content es)) \/ string_over (S fuel) rd pt = Some Panic).
Proof.
  intros rd content cc es fuel Hk L R. destruct (whole_inv content cc es L R) as (pt & E1 & Hi & O).
  exists pt. split; auto. destruct Hi as (_&_&_&F&D). rewrite string_over_pieces by auto.
  rewrite <- O in Hk. destruct (pieces_over fuel rd pt (head pt) 0 Hk F) as [->|(->&_)]; [rewrite D|]; auto.
Qed.

Theorem over_lost : forall rd p c cc es fuel, keeps_contract rd (p ++ [c]) ->
  len (p ++ [c]) <= max_int64 -> edits_in_range (p ++ [c]) es ->
  exists pt, run_edits (new_piece_table (p ++ [c]) cc (len (p ++ [c]))) es = (pt, Returned) /\
    (~ last_byte_kept p c es -> string_over (S fuel) rd pt = Some (Ok (apply_edits (p ++ [c]) es))) /\
    (eof_at_the_end rd (p ++ [c]) -> last_byte_kept p c es -> string_over (S fuel) rd pt = Some Panic).
Proof.
  intros rd p c cc es fuel Hk L R. destruct (whole_inv (p ++ [c]) cc es L R) as (pt & E1 & Hi & O).
  exists pt. split; auto. destruct Hi as (_&_&_&F&D). rewrite string_over_pieces by auto.
  assert (K : forall c', exists pt', inv pt' (apply_edits (p ++ [c']) es) /\ orig pt' = p ++ [c'] /\ head pt' = head pt).
  { intro c'. assert (LL : len (p ++ [c']) = len (p ++ [c])) by (rewrite !len_app; reflexivity).
    destruct (whole_inv (p ++ [c']) cc es) as (pt' & X1 & X2 & X3); [lia|eapply edits_range_len; [|exact R]; auto|].
    exists pt'. split; auto. split; auto.
    destruct (run_edits_shape es (new_piece_table (p ++ [c']) cc (len (p ++ [c'])))
                (new_piece_table (p ++ [c]) cc (len (p ++ [c])))) as [Y _]; auto.
    - cbn [new_piece_table head]. now rewrite LL.
    - rewrite X1, E1 in Y. exact Y. }
  split.
  - intro N. rewrite <- O in Hk. destruct (pieces_over fuel rd pt (head pt) 0 Hk F) as [->|(_&_&T)]; [now rewrite D|].
    exfalso. apply N. destruct (any_other c) as (c' & Hc). exists c'.
    destruct (K c') as (pt' & (_&_&_&F'&D') & O' & Hh). rewrite Hh in F', D'.
    rewrite O in T. destruct (denote_differs pt pt' p c c' (head pt) O O' F F') as [I1 _].
    rewrite <- D, <- D'. intro Q. now apply (I1 T Hc).
  - intros He (c' & Hd). rewrite <- O in Hk, He. apply (pieces_over_touch fuel rd pt); auto.
    destruct (K c') as (pt' & (_&_&_&F'&D') & O' & Hh). rewrite Hh in F', D'.
    destruct (denote_differs pt pt' p c c' (head pt) O O' F F') as [_ I2].
    rewrite O.
    destruct (Exists_dec (touches (p ++ [c])) (head pt)) as [Y|Nn]; auto.
    + intro q. unfold touches. destruct (prdr q); [|right; intros (?&_); discriminate].
      destruct (Z_lt_dec 0 (plen q)); [|right; intros (_&?&_); lia].
      destruct (Z.eq_dec (poff q + plen q) (len (p ++ [c]))); [left; auto|right; intros (_&_&?); lia].
    + exfalso. apply Hd. rewrite <- D, <- D'. symmetry. now apply I2.
Qed.

(* nothing but insertions: every byte of the original stays *)
Lemma only_insertions_keep : forall es p c, edits_in_range (p ++ [c]) es ->
  (forall n a, ~ In (Del n a) es) -> last_byte_kept p c es.
Proof.
  intros es p c R N. destruct (any_other c) as (c' & Hc). exists c'.
  assert (G : forall es s s', length s = length s' -> s <> s' -> (forall n a, ~ In (Del n a) es) ->
    apply_edits s es <> apply_edits s' es).
  { clear. induction es as [|e es IH]; intros s s' L D N; [exact D|]. cbn [apply_edits]. apply IH.
    - destruct e as [t a|n a]; [|destruct (N n a); left; reflexivity]. cbn [apply_edit]. unfold splice.
      rewrite !app_length, !firstn_length, !skipn_length. lia.
    - destruct e as [t a|n a]; [|destruct (N n a); left; reflexivity]. cbn [apply_edit]. unfold splice.
      intro E. apply app_eq_len in E; [|rewrite !firstn_length; lia]. destruct E as [E1 E2].
      apply app_eq_len in E2; auto. destruct E2 as [_ E2]. apply D.
      rewrite <- (firstn_skipn (Z.to_nat a) s), <- (firstn_skipn (Z.to_nat a) s'). congruence.
    - intros n a I. apply (N n a). now right. }
  apply G; auto.
  - rewrite !app_length. reflexivity.
  - intro E. apply app_inj_tail in E. destruct E. congruence.
Qed.

(* short reads without an error *)
Lemma read_loop_progress : forall content rd off want, 0 <= off -> off + want <= len content ->
  delivers_some rd content ->
  forall f i got, len got <= want -> got = sub content off (len got) -> want - len got <= Z.of_nat f ->
  exists i', read_loop f rd i off want got = (Got (sub content off want), i').
Proof.
  intros content rd off want Ho Hl Hd. induction f as [|f IH]; intros i got Hg Eg Hf; cbn [read_loop];
    fold (len got).
  - replace (len got <? want) with false by lia. replace (len got =? want) with true by lia.
    exists i. replace (len got) with want in Eg by lia. now rewrite <- Eg.
  - destruct (len got <? want) eqn:E.
    + pose proof (len_nonneg got). destruct (Hd i (off + len got) (want - len got)) as (k & Hk & ->); try lia.
      rewrite sub_eq.
      assert (X : got ++ sub content (off + len got) k = sub content off (len got + k)).
      { rewrite sub_app by lia. now rewrite <- Eg. }
      assert (Y : len (got ++ sub content (off + len got) k) = len got + k) by (rewrite len_app, sub_len; lia).
      apply IH; rewrite Y; auto; lia.
    + replace (len got =? want) with true by lia. exists i. replace (len got) with want in Eg by lia. now rewrite <- Eg.
Qed.

Lemma buf_delivers : forall b, delivers_some (buf_read_at b) b.
Proof. intros b i off n H1 H2 H3. exists n. split; [lia|]. now apply buf_read_ok. Qed.

Lemma pieces_over_some : forall f rd pt ps i, delivers_some rd (orig pt) -> Forall (pok pt) ps ->
  total_len ps <= Z.of_nat f -> string_pieces_over f rd i ps = Some (Ok (denote pt ps)).
Proof.
  intros f rd pt ps i Hd H. revert i. induction H as [|p ps Hp Hps IH]; intros i T; [reflexivity|].
  cbn [string_pieces_over total_len fold_right] in *. pose proof (total_nonneg _ _ Hps) as TN. unfold total_len in TN.
  destruct Hp as (P1 & P2 & P3).
  change (denote pt (p :: ps)) with (pbytes pt p ++ denote pt ps).
  destruct (plen p =? 0) eqn:E.
  - replace (pbytes pt p) with (@nil ascii).
    2:{ unfold pbytes. replace (plen p) with 0 by lia. reflexivity. }
    rewrite IH by (unfold total_len; lia). reflexivity.
  - replace (plen p <? 0) with false by lia. unfold read_piece_over.
    assert (X : delivers_some (match prdr p with ROrig => rd | RBuf b => buf_read_at b end) (rdr_content pt (prdr p))).
    { destruct (prdr p); [exact Hd|apply buf_delivers]. }
    destruct (read_loop_progress _ _ (poff p) (plen p) P2 P3 X f i []) as (i' & ->); [unfold len; cbn; lia|reflexivity|unfold len; cbn; lia|].
    rewrite IH by (unfold total_len; lia). reflexivity.
Qed.

Theorem over_some : forall rd content cc es fuel, delivers_some rd content ->
  len content <= max_int64 -> edits_in_range content es -> len (apply_edits content es) <= Z.of_nat fuel ->
  exists pt, run_edits (new_piece_table content cc (len content)) es = (pt, Returned) /\
    string_over fuel rd pt = Some (Ok (apply_edits content es)).
Proof.
  intros rd content cc es fuel Hk L R Hf. destruct (whole_inv content cc es L R) as (pt & E1 & Hi & O).
  exists pt. split; auto. destruct Hi as (_&_&_&F&D). rewrite string_over_pieces by auto. rewrite <- O in Hk.
  rewrite (pieces_over_some fuel rd pt) by (auto; rewrite <- (denote_len pt) by auto; rewrite D; auto). now rewrite D.
Qed.
