From Verif Require Import GoBase PieceTableModel PieceTableSpec.
Local Open Scope Z_scope.

Lemma beqb_refl : forall a, beqb a a = true.
Proof. induction a; simpl; auto. rewrite Ascii.eqb_refl; auto. Qed.

Lemma wrap64_id : forall z, min_int64 <= z <= max_int64 -> wrap64 z = z.
Proof.
  intros z H. unfold wrap64, min_int64, max_int64 in *.
  rewrite Z.mod_small; lia.
Qed.

(* bytes [off, off+n) of b *)
Definition sub (b : bytes) (off n : Z) : bytes :=
  firstn (Z.to_nat n) (skipn (Z.to_nat off) b).

Lemma firstn_add : forall {A} (l : list A) m n,
  firstn (m + n) l = firstn m l ++ firstn n (skipn m l).
Proof. induction l; intros [|m] n; simpl; auto. - rewrite firstn_nil; auto. - now rewrite IHl. Qed.

Lemma skipn_add : forall {A} (l : list A) m n, skipn (m + n) l = skipn n (skipn m l).
Proof. induction l; intros [|m] n; simpl; auto. now rewrite skipn_nil. Qed.

Lemma sub_app : forall b off l1 l2, 0 <= off -> 0 <= l1 -> 0 <= l2 ->
  sub b off (l1 + l2) = sub b off l1 ++ sub b (off + l1) l2.
Proof.
  intros. unfold sub. rewrite Z2Nat.inj_add, firstn_add by lia.
  rewrite Z2Nat.inj_add, skipn_add by lia. reflexivity.
Qed.

Lemma sub_len : forall b off n, 0 <= off -> 0 <= n -> off + n <= len b -> len (sub b off n) = n.
Proof.
  intros. unfold sub, len in *. rewrite firstn_length, skipn_length. lia.
Qed.

Lemma sub_all : forall b, sub b 0 (len b) = b.
Proof. intros. unfold sub, len. rewrite Nat2Z.id. simpl. apply firstn_all. Qed.

Definition rdr_content (pt : piece_table) (r : reader) : bytes :=
  match r with ROrig => orig pt | RBuf b => b end.

Definition pbytes (pt : piece_table) (p : piece) : bytes :=
  sub (rdr_content pt (prdr p)) (poff p) (plen p).

Definition pok (pt : piece_table) (p : piece) : Prop :=
  0 <= plen p /\ 0 <= poff p /\ poff p + plen p <= len (rdr_content pt (prdr p)).

Definition denote (pt : piece_table) (ps : list piece) : bytes := flat_map (pbytes pt) ps.

Lemma pbytes_len : forall pt p, pok pt p -> len (pbytes pt p) = plen p.
Proof. intros pt p (?&?&?). apply sub_len; auto. Qed.

Lemma len_app : forall a b, len (a ++ b) = len a + len b.
Proof. intros. unfold len. rewrite app_length. lia. Qed.

Lemma len_cons : forall x a, len (x :: a) = 1 + len a.
Proof. intros. unfold len. cbn [List.length]. lia. Qed.

Lemma len_nonneg : forall a, 0 <= len a. Proof. intros; unfold len; lia. Qed.

Lemma denote_len : forall pt ps, Forall (pok pt) ps -> len (denote pt ps) = total_len ps.
Proof.
  induction 1; simpl; auto. rewrite len_app, pbytes_len, IHForall; auto.
Qed.

Lemma total_nonneg : forall pt ps, Forall (pok pt) ps -> 0 <= total_len ps.
Proof. induction 1; simpl; [lia|]. destruct H; lia. Qed.

Lemma string_pieces_ok : forall pt ps, closed pt = false -> Forall (pok pt) ps ->
  string_pieces pt ps = Ok (denote pt ps).
Proof.
  intros pt ps Hc H. induction H as [|p ps Hp Hps IH]; simpl; auto.
  destruct Hp as (H1&H2&H3). rewrite IH.
  destruct (plen p =? 0) eqn:E.
  - unfold pbytes. replace (plen p) with 0 by lia. unfold sub; simpl. reflexivity.
  - destruct (plen p <? 0) eqn:E2; [lia|].
    unfold piece_read, read_at. fold (rdr_content pt (prdr p)). fold (len (rdr_content pt (prdr p))).
    replace (match prdr p with ROrig => closed pt | RBuf _ => false end) with false
      by (destruct (prdr p); auto).
    replace ((0 <=? poff p) && (poff p + plen p <=? len (rdr_content pt (prdr p)))) with true by lia.
    reflexivity.
Qed.

Lemma pt_string_ok : forall pt, closed pt = false -> Forall (pok pt) (head pt) ->
  pt_string pt = Ok (denote pt (head pt)).
Proof.
  intros. unfold pt_string. pose proof (total_nonneg _ _ H0).
  destruct (total_len (head pt) <? 0) eqn:E; [lia|]. apply string_pieces_ok; auto.
Qed.

(* splitting a list at a position inside / beyond its first part *)
Lemma firstn_app_left : forall {A} (a b : list A) n, (n <= length a)%nat -> firstn n (a ++ b) = firstn n a.
Proof. intros. rewrite firstn_app. replace (n - length a)%nat with O by lia. simpl. now rewrite app_nil_r. Qed.
Lemma skipn_app_left : forall {A} (a b : list A) n, (n <= length a)%nat -> skipn n (a ++ b) = skipn n a ++ b.
Proof. intros. rewrite skipn_app. replace (n - length a)%nat with O by lia. reflexivity. Qed.
Lemma firstn_app_right : forall {A} (a b : list A) n, (length a <= n)%nat ->
  firstn n (a ++ b) = a ++ firstn (n - length a) b.
Proof. intros. rewrite firstn_app. rewrite firstn_all2 by lia. reflexivity. Qed.
Lemma skipn_app_right : forall {A} (a b : list A) n, (length a <= n)%nat ->
  skipn n (a ++ b) = skipn (n - length a) b.
Proof. intros. rewrite skipn_app. rewrite skipn_all2 by lia. reflexivity. Qed.

Lemma pbytes_split : forall pt p k, pok pt p -> 0 <= k <= plen p ->
  sub (rdr_content pt (prdr p)) (poff p) k = firstn (Z.to_nat k) (pbytes pt p) /\
  sub (rdr_content pt (prdr p)) (poff p + k) (plen p - k) = skipn (Z.to_nat k) (pbytes pt p).
Proof.
  intros pt p k Hok Hk. pose proof Hok as (H1&H2&H3).
  assert (pbytes pt p = sub (rdr_content pt (prdr p)) (poff p) k ++
          sub (rdr_content pt (prdr p)) (poff p + k) (plen p - k)).
  { unfold pbytes. rewrite <- sub_app by lia. f_equal; lia. }
  assert (L : length (sub (rdr_content pt (prdr p)) (poff p) k) = Z.to_nat k).
  { pose proof (sub_len (rdr_content pt (prdr p)) (poff p) k). unfold len in *. lia. }
  rewrite H. rewrite firstn_app_left, skipn_app_left by lia.
  rewrite <- L. rewrite firstn_all, skipn_all. auto.
Qed.

Lemma pok_split : forall pt p k, pok pt p -> 0 <= k <= plen p ->
  pok pt {| plen := k; poff := poff p; prdr := prdr p |} /\
  pok pt {| plen := plen p - k; poff := poff p + k; prdr := prdr p |}.
Proof. intros pt p k (H1&H2&H3) Hk. unfold pok; simpl. lia. Qed.

Lemma splice_app_right : forall a b t k, len a <= k ->
  splice (a ++ b) t k = a ++ splice b t (k - len a).
Proof.
  intros. unfold splice, len in *. rewrite firstn_app_right, skipn_app_right by lia.
  rewrite <- app_assoc. replace (Z.to_nat k - length a)%nat with (Z.to_nat (k - Z.of_nat (length a))) by lia. auto.
Qed.

Lemma insert_pieces_ok : forall pt buf text at_ ps idx,
  Forall (pok pt) ps -> idx <= at_ <= idx + total_len ps -> ps <> [] ->
  exists ps', insert_pieces (Some buf) text at_ idx ps = Some (ps', buf ++ text) /\
    Forall (pok pt) ps' /\ denote pt ps' = splice (denote pt ps) text (at_ - idx) /\ ps' <> [].
Proof.
  intros pt buf text at_ ps. induction ps as [|p r IH]; intros idx Hok Hat Hne; [congruence|].
  inversion Hok; subst. simpl in Hat. simpl.
  pose proof H1 as (A1&A2&A3).
  destruct (at_ <=? idx + plen p) eqn:E.
  - assert (K : 0 <= at_ - idx <= plen p) by lia.
    eexists; split; [reflexivity|].
    replace (at_ - (idx + plen p - plen p)) with (at_ - idx) by lia.
    destruct (pok_split _ _ _ H1 K). destruct (pbytes_split _ _ _ H1 K) as [P1 P2].
    assert (pok pt {| plen := Z.of_nat (length text); poff := Z.of_nat (length buf); prdr := RBuf (buf ++ text) |}).
    { unfold pok; simpl. rewrite len_app. unfold len. lia. }
    split; [repeat (apply Forall_cons; [assumption|]); assumption|]. split; [|discriminate].
    unfold splice. simpl. change (denote pt (p :: r)) with (pbytes pt p ++ denote pt r).
    assert (LL : (Z.to_nat (at_ - idx) <= length (pbytes pt p))%nat).
    { pose proof (pbytes_len _ _ H1). unfold len in *. lia. }
    rewrite firstn_app_left, skipn_app_left by auto.
    unfold pbytes at 1; simpl. rewrite P1. f_equal.
    unfold pbytes at 1; simpl. unfold sub. rewrite !Nat2Z.id, skipn_app.
    rewrite skipn_all, Nat.sub_diag. simpl. rewrite firstn_all. f_equal.
    unfold pbytes at 1; simpl. rewrite P2. reflexivity.
  - destruct r as [|q r'].
    + simpl in *. lia.
    + destruct (IH (idx + plen p)) as (ps' & E1 & E2 & E3 & E4); auto; [lia|congruence|].
      rewrite E1. eexists; split; [reflexivity|]. split; [constructor; auto|]. split; [|discriminate].
      simpl. rewrite E3. change (flat_map (pbytes pt) r') with (denote pt r').
      change (pbytes pt q ++ denote pt r') with (denote pt (q :: r')).
      rewrite splice_app_right by (rewrite pbytes_len; auto; lia).
      rewrite pbytes_len by auto. do 2 f_equal. lia.
Qed.

Lemma insert_pieces_panic : forall app text at_ ps idx pt,
  Forall (pok pt) ps -> idx + total_len ps < at_ -> insert_pieces app text at_ idx ps = None.
Proof.
  induction ps as [|p r IH]; intros idx pt Hok Hat; simpl; auto.
  inversion Hok; subst. simpl in Hat.
  pose proof (total_nonneg _ _ H2).
  destruct (at_ <=? idx + plen p) eqn:E; [lia|].
  rewrite (IH _ pt); auto. lia.
Qed.

Lemma delete_rest_ok : forall pt ps stop start,
  Forall (pok pt) ps -> start <= stop <= start + total_len ps -> ps <> [] ->
  exists ps', delete_rest stop start ps = Some ps' /\ Forall (pok pt) ps' /\
    denote pt ps' = skipn (Z.to_nat (stop - start)) (denote pt ps).
Proof.
  induction ps as [|p r IH]; intros stop start Hok Hs Hne; [congruence|].
  inversion Hok; subst. pose proof H1 as (A1&A2&A3). simpl in *.
  destruct (stop <=? start + plen p) eqn:E.
  - assert (K : 0 <= stop - start <= plen p) by lia.
    destruct (pok_split _ _ _ H1 K). destruct (pbytes_split _ _ _ H1 K) as [P1 P2].
    eexists; split; [reflexivity|]. split; [constructor; auto|].
    simpl. unfold pbytes at 1; simpl. rewrite P2.
    rewrite skipn_app_left; auto. pose proof (pbytes_len _ _ H1). unfold len in *. lia.
  - destruct r as [|q r']; [simpl in *; lia|].
    destruct (IH stop (start + plen p)) as (ps'&E1&E2&E3); auto; [lia|congruence|].
    exists ps'. split; auto. split; auto. rewrite E3.
    pose proof (pbytes_len _ _ H1). unfold len in *.
    change (flat_map (pbytes pt) (q :: r')) with (denote pt (q :: r')).
    rewrite skipn_app_right by lia. f_equal. lia.
Qed.

Lemma delete_rest_none : forall pt ps stop start,
  Forall (pok pt) ps -> start + total_len ps < stop -> delete_rest stop start ps = None.
Proof.
  induction ps as [|p r IH]; intros stop start Hok Hs; simpl; auto.
  inversion Hok; subst. simpl in Hs. pose proof (total_nonneg _ _ H2).
  destruct (stop <=? start + plen p) eqn:E; [lia|]. apply IH; auto. lia.
Qed.

Lemma cut_out_app_right : forall a b n k, len a <= k -> 0 <= n ->
  cut_out (a ++ b) n k = a ++ cut_out b n (k - len a).
Proof.
  intros. unfold cut_out, len in *. rewrite firstn_app_right, skipn_app_right by lia.
  rewrite <- app_assoc. f_equal. f_equal; f_equal; lia.
Qed.

Lemma delete_pieces_ok : forall pt n ps at_ start,
  Forall (pok pt) ps -> 0 <= n -> start <= at_ -> at_ + n <= start + total_len ps ->
  let ps' := delete_pieces at_ n (at_ + n) start ps in
  Forall (pok pt) ps' /\ denote pt ps' = cut_out (denote pt ps) n (at_ - start) /\ (ps <> [] -> ps' <> []).
Proof.
  intros pt n ps. induction ps as [|p r IH]; intros at_ start Hok Hn Hat Hle; simpl.
  { split; auto. split; auto. unfold cut_out. now rewrite firstn_nil, skipn_nil. }
  inversion Hok; subst. pose proof H1 as (A1&A2&A3). simpl in Hle.
  pose proof (pbytes_len _ _ H1) as PL.
  destruct (at_ <=? start + plen p) eqn:E.
  - assert (K : 0 <= at_ - start <= plen p) by lia.
    destruct (pok_split _ _ _ H1 K) as [O1 O2]. destruct (pbytes_split _ _ _ H1 K) as [P1 P2].
    destruct (at_ + n <=? start + plen p) eqn:E2.
    + assert (K2 : 0 <= at_ - start + n <= plen p) by lia.
      destruct (pok_split _ _ _ H1 K2) as [O3 O4]. destruct (pbytes_split _ _ _ H1 K2) as [P3 P4].
      replace (start + plen p - (at_ + n)) with (plen p - (at_ - start + n)) by lia.
      split; [repeat (apply Forall_cons; [assumption|]); assumption|]. split; [|discriminate].
      simpl. unfold pbytes at 1 2; simpl. rewrite P1, P4. unfold cut_out.
      unfold len in PL. rewrite firstn_app_left, skipn_app_left by lia. reflexivity.
    + destruct r as [|q r']; [simpl in *; lia|].
      destruct (delete_rest_ok pt (q :: r') (at_ + n) (start + plen p)) as (ps'&E3&E4&E5); auto;
        [lia|congruence|].
      rewrite E3. split; [constructor; auto|]. split; [|discriminate].
      simpl denote. unfold pbytes at 1; simpl plen; simpl poff; simpl prdr. rewrite P1, E5.
      unfold cut_out. unfold len in PL.
      change (flat_map (pbytes pt) (q :: r')) with (denote pt (q :: r')).
      rewrite firstn_app_left, skipn_app_right by lia. f_equal. f_equal. lia.
  - destruct (IH at_ (start + plen p)) as (F1&F2&F3); auto; try lia.
    split; [constructor; auto|]. split; [|discriminate].
    simpl. rewrite F2. rewrite cut_out_app_right by lia. do 2 f_equal. lia.
Qed.

(* deleting past the end: exact effect *)
Lemma delete_pieces_past : forall pt n ps at_ start,
  Forall (pok pt) ps -> start <= at_ -> start + total_len ps < at_ + n ->
  let ps' := delete_pieces at_ n (at_ + n) start ps in
  Forall (pok pt) ps' /\ exists k, at_ - start <= k /\
    denote pt ps' = firstn (Z.to_nat (at_ - start)) (denote pt ps) ++ skipn (Z.to_nat k) (denote pt ps).
Proof.
  intros pt n ps. induction ps as [|p r IH]; intros at_ start Hok Hat Hle; simpl.
  { split; auto. exists (at_ - start). split; [lia|]. now rewrite firstn_nil, skipn_nil. }
  inversion Hok; subst. pose proof H1 as (A1&A2&A3). simpl in Hle.
  pose proof (pbytes_len _ _ H1) as PL. pose proof (total_nonneg _ _ H2).
  destruct (at_ <=? start + plen p) eqn:E.
  - assert (K : 0 <= at_ - start <= plen p) by lia.
    destruct (pok_split _ _ _ H1 K) as [O1 O2]. destruct (pbytes_split _ _ _ H1 K) as [P1 P2].
    destruct (at_ + n <=? start + plen p) eqn:E2; [lia|].
    rewrite (delete_rest_none pt) by (auto; lia).
    split; [constructor; auto|]. exists (plen p). split; [lia|].
    simpl. unfold pbytes at 1; simpl. rewrite P1. unfold len in PL.
    rewrite firstn_app_left, skipn_app_right by lia.
    replace (Z.to_nat (plen p) - length (pbytes pt p))%nat with O by lia. reflexivity.
  - destruct (IH at_ (start + plen p)) as (F1&k&F2&F3); auto; try lia.
    split; [constructor; auto|]. exists (k + plen p). split; [lia|].
    simpl. rewrite F3. unfold len in PL. rewrite firstn_app_right, skipn_app_right by lia.
    rewrite <- app_assoc. do 2 f_equal; f_equal; lia.
Qed.

(* invariant: open, has a buffer, non-empty piece list, all pieces readable, denotes s *)
Definition inv (pt : piece_table) (s : bytes) : Prop :=
  closed pt = false /\ (exists buf, appendb pt = Some buf) /\ head pt <> [] /\
  Forall (pok pt) (head pt) /\ denote pt (head pt) = s.

Lemma pok_ext : forall pt pt' ps, orig pt = orig pt' -> Forall (pok pt) ps -> Forall (pok pt') ps.
Proof.
  intros. eapply Forall_impl; [|eauto]. unfold pok, rdr_content. intros. rewrite <- H. auto.
Qed.
Lemma denote_ext : forall pt pt' ps, orig pt = orig pt' -> denote pt ps = denote pt' ps.
Proof. intros. unfold denote, pbytes, rdr_content. now rewrite H. Qed.

Lemma inv_string : forall pt s, inv pt s -> pt_string pt = Ok s.
Proof. intros pt s (H1&H2&H3&H4&H5). rewrite pt_string_ok; auto. now rewrite H5. Qed.

Lemma inv_new : forall content cc n, 0 <= n <= len content ->
  inv (new_piece_table content cc n) (firstn (Z.to_nat n) content).
Proof.
  intros. unfold inv; simpl. split; auto. split; eauto. split; [discriminate|].
  split. - repeat constructor; simpl; lia.
  - unfold pbytes; simpl. unfold sub; simpl. apply app_nil_r.
Qed.

Lemma inv_insert : forall pt s t a, inv pt s -> 0 <= a <= len s ->
  exists pt', pt_insert pt t a = (pt', Returned) /\ inv pt' (splice s t a).
Proof.
  intros pt s t a (H1&(buf&H2)&H3&H4&H5) Ha.
  destruct (insert_pieces_ok pt buf t a (head pt) 0) as (ps'&E1&E2&E3&E4); auto.
  { rewrite <- denote_len with (pt := pt); auto. rewrite H5. lia. }
  unfold pt_insert. destruct (head pt) eqn:Eh; [congruence|]. rewrite <- Eh in *.
  rewrite H2, E1. eexists; split; [reflexivity|].
  rewrite Z.sub_0_r, H5 in E3.
  unfold inv; simpl. split; auto. split; eauto.
Qed.

Lemma inv_insert_past : forall pt s t a, inv pt s -> len s < a ->
  pt_insert pt t a = (pt, Panics).
Proof.
  intros pt s t a (H1&(buf&H2)&H3&H4&H5) Ha.
  unfold pt_insert. destruct (head pt) eqn:Eh; [congruence|]. rewrite <- Eh in *.
  rewrite insert_pieces_panic with (pt := pt); auto.
  rewrite <- denote_len with (pt := pt); auto. rewrite H5. lia.
Qed.

Lemma inv_delete : forall pt s n a, inv pt s -> 0 <= a -> 0 <= n -> a + n <= len s -> a + n <= max_int64 ->
  inv (pt_delete pt n a) (cut_out s n a).
Proof.
  intros pt s n a (H1&(buf&H2)&H3&H4&H5) Ha Hn Hle Hm.
  assert (T : total_len (head pt) = len s) by (rewrite <- denote_len with (pt := pt), H5; auto).
  destruct (delete_pieces_ok pt n (head pt) a 0) as (F1&F2&F3); auto; try lia.
  unfold pt_delete. rewrite wrap64_id by (unfold min_int64; lia).
  rewrite Z.sub_0_r, H5 in F2.
  unfold inv; simpl. split; auto. split; eauto.
Qed.

Lemma inv_delete_past : forall pt s n a, inv pt s -> 0 <= a -> len s < a + n -> a + n <= max_int64 ->
  exists k, a <= k /\ inv (pt_delete pt n a) (firstn (Z.to_nat a) s ++ skipn (Z.to_nat k) s).
Proof.
  intros pt s n a (H1&(buf&H2)&H3&H4&H5) Ha Hle Hm.
  assert (T : total_len (head pt) = len s) by (rewrite <- denote_len with (pt := pt), H5; auto).
  pose proof (len_nonneg s).
  destruct (delete_pieces_past pt n (head pt) a 0) as (F1&k&F2&F3); auto; try lia.
  exists k. split; [lia|].
  unfold pt_delete. rewrite wrap64_id by (unfold min_int64; lia).
  rewrite Z.sub_0_r, H5 in F3.
  unfold inv; simpl. split; auto. split; eauto. split; auto.
  clear - H3. destruct (head pt); [congruence|]. simpl.
  destruct (_ <=? _); [|discriminate]. destruct (_ <=? _); [discriminate|].
  destruct (delete_rest _ _ _); discriminate.
Qed.

Lemma splice_len : forall s t a, 0 <= a <= len s -> len (splice s t a) = len s + len t.
Proof.
  intros. unfold splice. rewrite !len_app. unfold len in *.
  rewrite firstn_length, skipn_length. lia.
Qed.
Lemma cut_out_len : forall s n a, 0 <= a -> 0 <= n -> a + n <= len s -> len (cut_out s n a) = len s - n.
Proof.
  intros. unfold cut_out. rewrite !len_app. unfold len in *.
  rewrite firstn_length, skipn_length. lia.
Qed.

Lemma run_edits_inv : forall es pt s, inv pt s -> len s <= max_int64 -> edits_in_range s es ->
  exists pt', run_edits pt es = (pt', Returned) /\ inv pt' (apply_edits s es) /\
    len (apply_edits s es) <= max_int64.
Proof.
  induction es as [|e es IH]; intros pt s Hi Hl Hr; simpl.
  - eauto.
  - destruct Hr as [He Hr]. destruct e as [t a|n a]; simpl in *.
    + destruct (inv_insert pt s t a Hi) as (pt'&E1&E2); [lia|]. rewrite E1. apply IH; auto.
      rewrite splice_len by lia. lia.
    + apply IH; auto. apply inv_delete; auto; lia.
      rewrite cut_out_len by lia. lia.
Qed.

Lemma table_for_inv : forall pt s, table_for pt s -> inv pt s /\ len s <= max_int64.
Proof.
  intros pt s (content&cc&n&es&H1&H2&H3&H4&H5).
  destruct (run_edits_inv es (new_piece_table content cc n) (firstn (Z.to_nat n) content)) as (pt'&E1&E2&E3); auto.
  - now apply inv_new.
  - unfold len in *. rewrite firstn_length. lia.
  - rewrite H4 in E1. inversion E1; subst. auto.
Qed.

Lemma piece_table_refines : forall content can_close n es,
  0 <= n <= len content -> n <= max_int64 ->
  edits_in_range (firstn (Z.to_nat n) content) es ->
  exists pt, run_edits (new_piece_table content can_close n) es = (pt, Returned) /\
    pt_string pt = Ok (apply_edits (firstn (Z.to_nat n) content) es).
Proof.
  intros. destruct (run_edits_inv es (new_piece_table content can_close n) (firstn (Z.to_nat n) content)) as (pt'&E1&E2&E3); auto.
  - now apply inv_new.
  - unfold len in *. rewrite firstn_length. lia.
  - eauto using inv_string.
Qed.

Lemma piece_table_whole : forall content can_close es,
  len content <= max_int64 -> edits_in_range content es ->
  exists pt, run_edits (new_piece_table content can_close (len content)) es = (pt, Returned) /\
    pt_string pt = Ok (apply_edits content es).
Proof.
  intros. pose proof (len_nonneg content).
  assert (E : firstn (Z.to_nat (len content)) content = content).
  { unfold len. rewrite Nat2Z.id. apply firstn_all. }
  destruct (piece_table_refines content can_close (len content) es) as (pt&E1&E2); auto; try lia.
  - now rewrite E.
  - rewrite E in E2. eauto.
Qed.

Lemma insert_accepts_iff : forall pt s t a, table_for pt s ->
  (0 <= a <= len s -> exists pt', pt_insert pt t a = (pt', Returned) /\ pt_string pt' = Ok (splice s t a)) /\
  (len s < a -> exists pt', pt_insert pt t a = (pt', Panics) /\ pt_string pt' = Ok s).
Proof.
  intros pt s t a H. apply table_for_inv in H as [H _]. split; intros.
  - destruct (inv_insert pt s t a H) as (pt'&E1&E2); auto. eauto using inv_string.
  - exists pt. split; [eapply inv_insert_past; eauto | now apply inv_string].
Qed.

Lemma delete_past_end : forall pt s n a, table_for pt s -> 0 <= a <= len s -> len s < a + n <= max_int64 ->
  exists k, a <= k <= len s /\
    pt_string (pt_delete pt n a) = Ok (firstn (Z.to_nat a) s ++ skipn (Z.to_nat k) s).
Proof.
  intros pt s n a H Ha Hn. apply table_for_inv in H as [H _].
  destruct (inv_delete_past pt s n a H) as (k&E1&E2); try lia.
  destruct (Z.leb_spec k (len s)).
  - exists k. split; [lia|]. now apply inv_string.
  - exists (len s). split; [lia|]. rewrite (inv_string _ _ E2). do 2 f_equal.
    unfold len in *. rewrite !skipn_all2 by lia. reflexivity.
Qed.

Lemma delete_past_end_fresh : forall content cc n a,
  len content <= max_int64 ->
  0 <= a <= len content -> len content < a + n <= max_int64 ->
  pt_string (pt_delete (new_piece_table content cc (len content)) n a)
    = Ok (firstn (Z.to_nat a) content).
Proof.
  intros. unfold pt_delete. rewrite wrap64_id by (unfold min_int64; lia). simpl.
  rewrite Z.add_0_l.
  destruct (a <=? len content) eqn:E; [|lia]. destruct (a + n <=? len content) eqn:E2; [lia|].
  rewrite pt_string_ok; simpl; auto.
  - unfold pbytes; simpl. rewrite app_nil_r, Z.sub_0_r. reflexivity.
  - repeat constructor; simpl; try lia. 
Qed.

(* --- naive table --- *)
Lemma naive_insert_spec : forall s t a, 0 <= a <= len s -> len s + len t <= max_int64 ->
  naive_insert s t a = Ok (splice s t a).
Proof.
  intros. unfold naive_insert. fold (len s) (len t).
  replace ((0 <=? a) && (a <=? len s) && (len s + len t <=? max_int64)) with true by lia. reflexivity.
Qed.

Lemma naive_delete_spec : forall s n a, 0 <= a -> 0 <= n -> a + n <= len s -> a + n <= max_int64 ->
  naive_delete s n a = Ok (cut_out s n a).
Proof.
  intros. unfold naive_delete. fold (len s). rewrite wrap64_id by (unfold min_int64; lia).
  replace ((0 <=? a) && (a <=? len s) && (0 <=? a + n) && (a + n <=? len s)) with true by lia.
  reflexivity.
Qed.

Lemma atoi_range : forall b z, atoi b = Some z -> min_int64 <= z <= max_int64.
Proof.
  unfold atoi. intros b z. destruct (parse_dec b); [|discriminate].
  destruct (in_int64 z0) eqn:E; [|discriminate]. intros [= <-]. unfold in_int64 in E. lia.
Qed.

Lemma wrap64_over : forall z, max_int64 < z <= max_int64 + max_int64 -> wrap64 z < 0.
Proof.
  intros z H. unfold wrap64, max_int64 in *.
  replace (z + 2 ^ 63) with (z - 2^63 + 1 * 2 ^ 64) by lia.
  rewrite Z.mod_add by lia. rewrite Z.mod_small; lia.
Qed.

Lemma fuzz_loop_ok : forall sscanf cmds nt pt, inv pt nt -> len nt <= max_int64 ->
  fuzz_loop sscanf nt pt cmds <> FuzzProblem.
Proof.
  induction cmds as [|cmd rest IH]; intros nt pt Hi Hl; simpl; [discriminate|].
  destruct (sscanf cmd) as [[[typ at0] txt]|]; [|discriminate].
  destruct ((at0 <? 0) || (typ =? 0)) eqn:E1; [discriminate|].
  fold (len nt). set (a := if len nt <? at0 then len nt else at0).
  assert (Ha : 0 <= a <= len nt).
  { unfold a. pose proof (len_nonneg nt). destruct (len nt <? at0) eqn:E; lia. }
  destruct (0 <? typ).
  - destruct (naive_insert nt txt a) as [nt'| |] eqn:E2; try discriminate.
    unfold naive_insert in E2. fold (len nt) (len txt) in E2.
    destruct ((0 <=? a) && (a <=? len nt) && (len nt + len txt <=? max_int64)) eqn:E3; [|discriminate].
    inversion E2; subst nt'. fold (splice nt txt a).
    destruct (inv_insert pt nt txt a Hi Ha) as (pt'&F1&F2). rewrite F1.
    rewrite (inv_string _ _ F2), beqb_refl. apply IH; auto. rewrite splice_len; lia.
  - destruct (atoi txt) as [n|] eqn:En; [|discriminate]. apply atoi_range in En.
    destruct ((n <? 0) || (len nt <=? wrap64 (a + n))) eqn:E2; [discriminate|].
    destruct (naive_delete nt n a) as [nt'| |] eqn:E3; try discriminate.
    unfold naive_delete in E3. fold (len nt) in E3.
    destruct ((0 <=? a) && (a <=? len nt) && (0 <=? wrap64 (a + n)) && (wrap64 (a + n) <=? len nt)) eqn:E4; [|discriminate].
    assert (a + n <= max_int64).
    { destruct (Z.leb_spec (a + n) max_int64); auto.
      assert (wrap64 (a + n) < 0) by (apply wrap64_over; lia). lia. }
    rewrite wrap64_id in * by (unfold min_int64; lia).
    inversion E3; subst nt'. fold (cut_out nt n a).
    assert (F2 : inv (pt_delete pt n a) (cut_out nt n a)) by (apply inv_delete; auto; lia).
    rewrite (inv_string _ _ F2), beqb_refl. apply IH; auto. rewrite cut_out_len; lia.
Qed.

Lemma scan_segs_bound : forall segs l e x, scan_segs segs = (l, e) -> In x l -> len x < 65536.
Proof.
  induction segs as [|s r IH]; simpl; intros l e x H Hx.
  - inversion H; subst. contradiction.
  - destruct (max_token <=? N.of_nat (length s))%N eqn:E.
    + inversion H; subst. contradiction.
    + destruct (scan_segs r) as [l' e'] eqn:Es. inversion H; subst.
      destruct Hx as [<-|Hx]; [|eapply IH; eauto].
      assert (len (drop_cr s) <= len s).
      { unfold drop_cr. destruct (rev s) eqn:Er; [lia|]. destruct (Ascii.eqb a cr); [|lia].
        assert (s = rev l ++ [a]) by (rewrite <- (rev_involutive s), Er; reflexivity).
        subst s. rewrite len_app. unfold len. simpl. lia. }
      unfold max_token, len in *. lia.
Qed.

Lemma fuzz_no_problem : forall sscanf data, fuzz sscanf data <> FuzzProblem.
Proof.
  intros. unfold fuzz, scan_lines. destruct (scan_segs (raw_lines data)) as [lines e] eqn:E.
  destruct lines as [|o cmds].
  - destruct e; [discriminate|]. discriminate.
  - assert (len o < 65536) by (eapply scan_segs_bound; eauto; left; auto).
    apply fuzz_loop_ok.
    + fold (len o).
      assert (EE : firstn (Z.to_nat (len o)) o = o).
      { unfold len. rewrite Nat2Z.id. apply firstn_all. }
      pose proof (inv_new o false (len o)) as I. rewrite EE in I. apply I. pose proof (len_nonneg o). lia.
    + unfold max_int64. lia.
Qed.

(* --- zero value --- *)
Lemma zero_table_one_insert : forall t a es, len t <= max_int64 ->
  (forall e, In e es -> exists n a', e = Del n a') -> edits_in_range t es ->
  exists pt, run_edits zero_table (Ins t a :: es) = (pt, Returned) /\
    pt_string pt = Ok (apply_edits t es).
Proof.
  intros t a es Ht Hes Hr. simpl.
  set (pt0 := {| orig := []; closable := false; closed := false; appendb := None;
     head := [{| plen := Z.of_nat (length t); poff := 0; prdr := RBuf t |}] |}).
  assert (I : forall es pt s, closed pt = false -> Forall (pok pt) (head pt) -> denote pt (head pt) = s ->
     len s <= max_int64 -> (forall e, In e es -> exists n a', e = Del n a') -> edits_in_range s es ->
     exists pt', run_edits pt es = (pt', Returned) /\ pt_string pt' = Ok (apply_edits s es)).
  { clear. induction es as [|e es IH]; intros pt s H1 H2 H3 Hl H4 H5; simpl.
    - exists pt. split; auto. rewrite pt_string_ok by auto. now rewrite H3.
    - destruct (H4 e) as (n&a&->); [left; auto|]. destruct H5 as [(R1&R2&R3) H5]. simpl in H5.
      assert (T : total_len (head pt) = len s) by (rewrite <- denote_len with (pt := pt), H3; auto).
      destruct (delete_pieces_ok pt n (head pt) a 0) as (F1&F2&F3); auto; try lia.
      apply IH; auto.
      + unfold pt_delete. rewrite wrap64_id by (unfold min_int64; lia). auto.
      + unfold pt_delete. rewrite wrap64_id by (unfold min_int64; lia). simpl.
        rewrite denote_ext with (pt' := pt) by reflexivity. rewrite F2, H3. f_equal. lia.
      + cbn [apply_edit]; rewrite cut_out_len; lia.
      + intros; apply H4; right; auto. }
  apply (I es pt0 t); auto.
  - repeat constructor; simpl; unfold len; lia.
  - simpl. rewrite app_nil_r. unfold pbytes; simpl. apply sub_all.
Qed.

(* --- Fuzz returns when the numbers are small --- *)
Definition sumlen (l : list bytes) : Z := fold_right (fun x n => len x + n) 0 l.

Lemma fuzz_loop_returns : forall sscanf M cmds nt pt,
  (forall cmd typ a txt, sscanf cmd = Some (typ, a, txt) -> len txt <= len cmd) ->
  (forall cmd typ a txt n, sscanf cmd = Some (typ, a, txt) -> atoi txt = Some n -> n <= max_int64 - M) ->
  inv pt nt -> len nt + sumlen cmds <= M -> M <= max_int64 ->
  fuzz_loop sscanf nt pt cmds = FuzzReturned.
Proof.
  intros sscanf M cmds. induction cmds as [|cmd rest IH]; intros nt pt S1 S2 Hi Hl HM; simpl; auto.
  destruct (sscanf cmd) as [[[typ at0] txt]|] eqn:Es; auto.
  destruct ((at0 <? 0) || (typ =? 0)) eqn:E1; auto.
  fold (len nt). set (a := if len nt <? at0 then len nt else at0).
  assert (Ha : 0 <= a <= len nt).
  { unfold a. pose proof (len_nonneg nt). destruct (len nt <? at0) eqn:E; lia. }
  simpl in Hl. assert (Hs : 0 <= sumlen rest).
  { clear. induction rest; simpl; [lia|]. pose proof (len_nonneg a). lia. }
  pose proof (S1 _ _ _ _ Es) as L1. pose proof (len_nonneg txt). pose proof (len_nonneg cmd).
  destruct (0 <? typ).
  - rewrite naive_insert_spec by lia.
    destruct (inv_insert pt nt txt a Hi Ha) as (pt'&F1&F2). rewrite F1.
    rewrite (inv_string _ _ F2), beqb_refl. apply IH; auto. rewrite splice_len; lia.
  - destruct (atoi txt) as [n|] eqn:En; auto. pose proof (S2 _ _ _ _ _ Es En) as L2. apply atoi_range in En.
    destruct (n <? 0) eqn:En0; auto. simpl.
    rewrite wrap64_id by (unfold min_int64; lia).
    destruct (len nt <=? a + n) eqn:E2; auto.
    rewrite naive_delete_spec by lia.
    assert (F2 : inv (pt_delete pt n a) (cut_out nt n a)) by (apply inv_delete; auto; lia).
    rewrite (inv_string _ _ F2), beqb_refl. apply IH; auto. rewrite cut_out_len; lia.
Qed.

Lemma drop_cr_len : forall s, len (drop_cr s) <= len s.
Proof.
  intros s. unfold drop_cr. destruct (rev s) eqn:Er; [lia|]. destruct (Ascii.eqb a cr); [|lia].
  assert (s = rev l ++ [a]) by (rewrite <- (rev_involutive s), Er; reflexivity).
  subst s. rewrite len_app. unfold len. simpl. lia.
Qed.

Lemma scan_segs_sum : forall segs l e, scan_segs segs = (l, e) -> sumlen l <= sumlen segs.
Proof.
  induction segs as [|s r IH]; simpl; intros l e H.
  - inversion H; simpl; lia.
  - assert (Hs : 0 <= sumlen r).
    { clear. induction r; simpl; [lia|]. pose proof (len_nonneg a). lia. }
    pose proof (len_nonneg s).
    destruct (max_token <=? N.of_nat (length s))%N.
    + inversion H; simpl; lia.
    + destruct (scan_segs r) as [l' e'] eqn:Es. inversion H; subst. simpl.
      specialize (IH _ _ eq_refl). pose proof (drop_cr_len s). lia.
Qed.

Lemma split_on_sum : forall c b, sumlen (split_on c b) <= len b.
Proof.
  induction b as [|x r IH]; [vm_compute; discriminate|]; simpl.
  rewrite len_cons.
  destruct (Ascii.eqb x c); simpl; [change (len []) with 0; lia|].
  destruct (split_on c r) as [|h t]; simpl in *.
  - change (len [x]) with 1. lia.
  - rewrite len_cons. lia.
Qed.

Lemma sumlen_removelast : forall l, sumlen (removelast l) <= sumlen l.
Proof.
  induction l as [|x r IH]; simpl; [lia|]. destruct r; simpl in *.
  - pose proof (len_nonneg x). lia.
  - lia.
Qed.

Lemma raw_lines_sum : forall b, sumlen (raw_lines b) <= len b.
Proof.
  intros. unfold raw_lines. pose proof (split_on_sum nl b).
  destruct (last (split_on nl b) []); auto.
  pose proof (sumlen_removelast (split_on nl b)). lia.
Qed.

Lemma fuzz_small_returns : forall sscanf data,
  len data <= max_int64 ->
  (forall cmd typ a txt, sscanf cmd = Some (typ, a, txt) -> len txt <= len cmd) ->
  (forall cmd typ a txt n, sscanf cmd = Some (typ, a, txt) -> atoi txt = Some n ->
     n <= max_int64 - len data) ->
  fuzz sscanf data = FuzzReturned.
Proof.
  intros sscanf data Hd S1 S2. unfold fuzz, scan_lines.
  destruct (scan_segs (raw_lines data)) as [lines e] eqn:E.
  pose proof (scan_segs_sum _ _ _ E) as Q. pose proof (raw_lines_sum data) as Q2.
  destruct lines as [|o cmds].
  - destruct e; reflexivity.
  - simpl in Q. apply fuzz_loop_returns with (M := len data); auto; [|lia].
    fold (len o).
    assert (EE : firstn (Z.to_nat (len o)) o = o).
    { unfold len. rewrite Nat2Z.id. apply firstn_all. }
    pose proof (inv_new o false (len o)) as I. rewrite EE in I. apply I. pose proof (len_nonneg o). lia.
Qed.

(* --- exactly when Fuzz crashes --- *)
Lemma fuzz_loop_crash : forall sscanf cmds nt pt, inv pt nt -> len nt <= max_int64 ->
  fuzz_loop sscanf nt pt cmds = FuzzCrash <-> fuzz_crash sscanf nt cmds.
Proof.
  intros sscanf cmds. induction cmds as [|cmd rest IH]; intros nt pt Hi Hl; cbn [fuzz_loop].
  { split; [discriminate|intros H; inversion H]. }
  destruct (sscanf cmd) as [[[typ at0] txt]|] eqn:Es; [|split; [discriminate|intros H; inversion H; congruence]].
  pose proof (len_nonneg nt) as N0. pose proof (len_nonneg txt) as N1.
  destruct ((at0 <? 0) || (typ =? 0)) eqn:E1.
  { split; [discriminate|]. intros H; inversion H as [? ? ? t a x ? X|? ? ? t a x X|? ? ? t a x X|? ? ? t a x ? X]; subst;
      rewrite Es in X; injection X as <- <- <-; exfalso; lia. }
  fold (len nt).
  replace (if len nt <? at0 then len nt else at0) with (Z.min at0 (len nt))
    by (destruct (Z.ltb_spec (len nt) at0); lia).
  set (a := Z.min at0 (len nt)). assert (Ha : 0 <= a <= len nt) by (unfold a; lia).
  destruct (0 <? typ) eqn:E2.
  - unfold naive_insert. fold (len nt) (len txt).
    destruct (Z.leb_spec (len nt + len txt) max_int64) as [L|L].
    + replace ((0 <=? a) && (a <=? len nt) && true) with true by lia. fold (splice nt txt a).
      destruct (inv_insert pt nt txt a Hi Ha) as (pt'&F1&F2). rewrite F1.
      rewrite (inv_string _ _ F2), beqb_refl. rewrite IH by (auto; rewrite splice_len; lia).
      split; intros H.
      * eapply fc_after_insert; eauto; lia.
      * inversion H as [? ? ? t q x ? X|? ? ? t q x X|? ? ? t q x X|? ? ? t q x ? X]; subst;
          rewrite Es in X; injection X as <- <- <-; try lia. assumption.
    + replace ((0 <=? a) && (a <=? len nt) && false) with false by lia.
      split; auto. intros _. eapply fc_too_long; eauto; lia.
  - destruct (atoi txt) as [n|] eqn:En.
    + pose proof (atoi_range _ _ En) as Rn. unfold min_int64 in Rn.
      assert (M : forall P : Prop, (max_int64 < a + n -> P) -> (n < 0 \/ (a + n <= max_int64 /\ len nt <= a + n) -> P) ->
        (0 <= n -> a + n < len nt -> P) -> P).
      { intros P. destruct (Z.ltb_spec max_int64 (a + n)); auto. destruct (Z.ltb_spec n 0); auto.
        destruct (Z.leb_spec (len nt) (a + n)); auto. }
      apply M; clear M.
      * intros O. assert (W : wrap64 (a + n) < 0) by (apply wrap64_over; lia).
        replace ((n <? 0) || (len nt <=? wrap64 (a + n))) with false by lia.
        unfold naive_delete. fold (len nt).
        replace ((0 <=? a) && (a <=? len nt) && (0 <=? wrap64 (a + n)) && (wrap64 (a + n) <=? len nt)) with false by lia.
        split; auto. intros _. eapply fc_delete; eauto; lia.
      * intros O. replace ((n <? 0) || (len nt <=? wrap64 (a + n))) with true.
        2:{ destruct O as [O|[O1 O2]]; [lia|]. rewrite wrap64_id by (unfold min_int64; lia). lia. }
        split; [discriminate|]. intros H.
        inversion H as [? ? ? t q x m X ? ? Y|? ? ? t q x X|? ? ? t q x X|? ? ? t q x m X ? ? Y]; subst;
          rewrite Es in X; injection X as <- <- <-; try lia;
          rewrite En in Y; injection Y as <-; unfold a in *; lia.
      * intros O1 O2. rewrite wrap64_id by (unfold min_int64; lia).
        replace ((n <? 0) || (len nt <=? a + n)) with false by lia.
        rewrite naive_delete_spec by lia.
        assert (F2 : inv (pt_delete pt n a) (cut_out nt n a)) by (apply inv_delete; auto; lia).
        rewrite (inv_string _ _ F2), beqb_refl. rewrite IH by (auto; rewrite cut_out_len; lia).
        split; intros H.
        -- eapply fc_after_delete; eauto; lia.
        -- inversion H as [? ? ? t q x m X ? ? Y|? ? ? t q x X|? ? ? t q x X|? ? ? t q x m X ? ? Y]; subst;
             rewrite Es in X; injection X as <- <- <-; try lia;
             rewrite En in Y; injection Y as <-; unfold a in *; [lia|assumption].
    + split; [discriminate|]. intros H.
      inversion H as [? ? ? t q x m X ? ? Y|? ? ? t q x X|? ? ? t q x X|? ? ? t q x m X ? ? Y]; subst;
        rewrite Es in X; injection X as <- <- <-; try lia; congruence.
Qed.

Lemma fuzz_crash_iff : forall sscanf data, fuzz sscanf data = FuzzCrash <->
  exists o cmds toolong, scan_lines data = (o :: cmds, toolong) /\ fuzz_crash sscanf o cmds.
Proof.
  intros sscanf data. unfold fuzz. destruct (scan_lines data) as [lines e] eqn:E.
  destruct lines as [|o cmds].
  - split; [destruct e; discriminate|]. intros (o&c&t&X&_). discriminate.
  - assert (L : len o < 65536) by (unfold scan_lines in E; eapply scan_segs_bound; eauto; left; auto).
    rewrite fuzz_loop_crash.
    + split; [eauto|]. intros (o'&c'&t&X&H). injection X as <- <- <-. exact H.
    + fold (len o). assert (EE : firstn (Z.to_nat (len o)) o = o).
      { unfold len. rewrite Nat2Z.id. apply firstn_all. }
      pose proof (inv_new o false (len o)) as I. rewrite EE in I. apply I. pose proof (len_nonneg o). lia.
    + unfold max_int64. lia.
Qed.

(* --- deleting past the end after one insertion --- *)
Lemma delete_past_end_inserted : forall content cc t p n a,
  len content + len t <= max_int64 -> 0 <= a <= p -> p <= len content -> len content + len t < a + n <= max_int64 ->
  exists pt, run_edits (new_piece_table content cc (len content)) [Ins t p] = (pt, Returned) /\
    pt_string (pt_delete pt n a) = Ok (firstn (Z.to_nat a) content ++ t ++ skipn (Z.to_nat p) content).
Proof.
  intros content cc t p n a L A P Nn. pose proof (len_nonneg content). pose proof (len_nonneg t).
  cbn [run_edits]. unfold pt_insert, new_piece_table. cbn [head appendb insert_pieces plen orig closable closed].
  rewrite Z.add_0_l. replace (p <=? len content) with true by lia.
  eexists. split; [reflexivity|].
  unfold pt_delete. rewrite wrap64_id by (unfold min_int64; lia). cbn [head delete_pieces plen poff prdr app].
  rewrite !Z.add_0_l, Z.sub_diag, !Z.sub_0_r.
  replace (a <=? p) with true by lia. replace (a + n <=? p) with false by lia.
  cbn [delete_rest plen]. replace (a + n <=? p + Z.of_nat (length t)) with false by (unfold len in *; lia).
  replace (a + n <=? p + Z.of_nat (length t) + (len content - p)) with false by (unfold len in *; lia).
  rewrite pt_string_ok; cbn [closed head denote flat_map pbytes plen poff prdr rdr_content orig]; auto.
  - rewrite app_nil_r. do 2 f_equal. f_equal.
    + fold (len t). cbn [app length]. apply sub_all.
    + unfold pbytes, sub. cbn [plen poff prdr rdr_content orig].
      rewrite firstn_all2; auto. rewrite skipn_length. unfold len. lia.
  - repeat (apply Forall_cons); auto; unfold pok; cbn [plen poff prdr rdr_content orig]; unfold len in *; cbn [length app]; lia.
Qed.

(* --- the zero value: the second insertion panics --- *)
Lemma insert_pieces_nil : forall t a ps idx, insert_pieces None t a idx ps = None.
Proof. induction ps as [|p r IH]; intros; cbn [insert_pieces]; auto. destruct (_ <=? _); auto. now rewrite IH. Qed.

Lemma zero_table_second_insert : forall t a dels t' a' rest,
  (forall e, In e dels -> exists n b, e = Del n b) ->
  snd (run_edits zero_table (Ins t a :: dels ++ Ins t' a' :: rest)) = Panics.
Proof.
  intros t a dels t' a' rest D. cbn [run_edits pt_insert zero_table head].
  assert (G : forall dels pt, appendb pt = None -> head pt <> [] -> (forall e, In e dels -> exists n b, e = Del n b) ->
    snd (run_edits pt (dels ++ Ins t' a' :: rest)) = Panics).
  { clear. induction dels as [|e dels IH]; intros pt A H D; cbn [app run_edits].
    - unfold pt_insert. destruct (head pt) eqn:E; [congruence|]. rewrite A, insert_pieces_nil. reflexivity.
    - destruct (D e) as (n&b&->); [now left|]. apply IH; auto; [|intros; apply D; now right].
      unfold pt_delete. cbn [head]. destruct (head pt); [congruence|]. cbn [delete_pieces].
      destruct (_ <=? _); [|discriminate]. destruct (_ <=? _); [discriminate|]. destruct (delete_rest _ _ _); discriminate. }
  apply G; auto; discriminate.
Qed.
