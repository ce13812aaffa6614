(* Proofs for C04: what a deletion reaching beyond the end removes *)
From Verif Require Import GoBase PieceTableModel PieceTableSpec PieceTableProofs PieceSeamSpec.
Local Open Scope Z_scope.

(* where the pieces end *)
Fixpoint ends (start : Z) (ps : list piece) : list Z :=
  match ps with [] => [] | p :: r => start + plen p :: ends (start + plen p) r end.

Lemma ends_lower : forall pt ps start b, Forall (pok pt) ps -> In b (ends start ps) -> start <= b.
Proof.
  induction ps as [|p r IH]; intros start b F Hin; [destruct Hin|].
  inversion F as [|? ? (P1 & _) F']; subst. cbn in Hin. destruct Hin as [<-|Hin]; [lia|].
  apply IH in Hin; [lia|assumption].
Qed.

Lemma ends_shift : forall ps start d, ends (start + d) ps = map (fun b => b + d) (ends start ps).
Proof.
  induction ps as [|p r IH]; intros; cbn; [reflexivity|]. f_equal; [lia|].
  rewrite <- IH. f_equal. lia.
Qed.

Lemma filter_all : forall (f : Z -> bool) l, (forall b, In b l -> f b = true) -> filter f l = l.
Proof.
  induction l as [|x l IH]; intros H; cbn; [reflexivity|].
  rewrite (H x) by (now left). f_equal. apply IH. intros. apply H. now right.
Qed.
Lemma filter_none : forall (f : Z -> bool) l, (forall b, In b l -> f b = false) -> filter f l = [].
Proof.
  induction l as [|x l IH]; intros H; cbn; [reflexivity|].
  rewrite (H x) by (now left). apply IH. intros. apply H. now right.
Qed.

(* Insert *)
Lemma insert_ends : forall pt buf t a ps start ps' buf', Forall (pok pt) ps -> start <= a ->
  insert_pieces (Some buf) t a start ps = Some (ps', buf') ->
  ends start ps' = seams_after (ends start ps) (Ins t a).
Proof.
  induction ps as [|p r IH]; intros start ps' buf' F Ha H; [discriminate|].
  inversion F as [|? ? (P1 & P2 & P3) F']; subst. cbn [insert_pieces] in H. cbn [ends seams_after].
  destruct (a <=? start + plen p) eqn:E.
  - injection H as <- _. cbn [ends plen filter].
    apply Z.leb_le in E. replace (start + plen p <? a) with false by lia. replace (a <=? start + plen p) with true by lia.
    rewrite filter_none, filter_all.
    + cbn [app map]. fold (len t). f_equal; [lia|]. f_equal; [lia|]. f_equal; [lia|].
      rewrite <- ends_shift. f_equal. lia.
    + intros b Hb. eapply ends_lower in Hb; [|eassumption]. lia.
    + intros b Hb. eapply ends_lower in Hb; [|eassumption]. lia.
  - destruct (insert_pieces (Some buf) t a (start + plen p) r) as [[ps1 b1]|] eqn:I; [|discriminate].
    injection H as <- _. cbn [ends filter]. apply Z.leb_gt in E.
    replace (start + plen p <? a) with true by lia. replace (a <=? start + plen p) with false by lia.
    cbn [app]. f_equal. eapply IH; [assumption|lia|eassumption].
Qed.

(* Delete *)
Lemma delete_rest_ends : forall pt ps n stop start ps', Forall (pok pt) ps -> start <= stop ->
  delete_rest stop start ps = Some ps' ->
  ends (stop - n) ps' = map (fun b => b - n) (filter (fun b => stop <=? b) (ends start ps)).
Proof.
  induction ps as [|q r IH]; intros n stop start ps' F Hs H; [discriminate|].
  inversion F as [|? ? (P1 & P2 & P3) F']; subst. cbn [delete_rest] in H. cbn [ends filter].
  destruct (stop <=? start + plen q) eqn:E.
  - injection H as <-. apply Z.leb_le in E. rewrite filter_all.
    + cbn [ends plen map]. f_equal; [lia|].
      replace (stop - n + (plen q - (stop - start))) with (start + plen q + - n) by lia.
      rewrite ends_shift. reflexivity.
    + intros b Hb. eapply ends_lower in Hb; [|eassumption]. lia.
  - apply Z.leb_gt in E. apply IH; [assumption|lia|assumption].
Qed.

Lemma delete_ends : forall pt n a ps start, Forall (pok pt) ps -> 0 <= n -> start <= a ->
  a + n <= start + total_len ps -> ps <> [] ->
  ends start (delete_pieces a n (a + n) start ps) = seams_after (ends start ps) (Del n a).
Proof.
  induction ps as [|p r IH]; intros start F Hn Ha Hle Hne; [congruence|].
  inversion F as [|? ? (P1 & P2 & P3) F']; subst. cbn [delete_pieces]. cbn [total_len fold_right] in Hle.
  fold (total_len r) in Hle. cbn [ends seams_after].
  destruct (a <=? start + plen p) eqn:E.
  - apply Z.leb_le in E. cbn [filter]. replace (start + plen p <? a) with false by lia.
    rewrite (filter_none (fun b => b <? a)) by (intros b Hb; eapply ends_lower in Hb; [|eassumption]; lia).
    cbn [app]. destruct (a + n <=? start + plen p) eqn:E2.
    + apply Z.leb_le in E2. rewrite filter_all by (intros b Hb; eapply ends_lower in Hb; [|eassumption]; lia).
      cbn [ends plen map]. f_equal; [lia|]. f_equal; [lia|].
      replace (start + (a - start) + (start + plen p - (a + n))) with (start + plen p + - n) by lia.
      rewrite ends_shift. reflexivity.
    + apply Z.leb_gt in E2. destruct r as [|q r']; [cbn in Hle; lia|].
      destruct (delete_rest_ok pt (q :: r') (a + n) (start + plen p)) as (r'' & D & _);
        [assumption|cbn [total_len fold_right] in *; fold (total_len r') in *; lia|congruence|]. rewrite D.
      cbn [ends plen]. f_equal; [lia|].
      transitivity (ends (a + n - n) r''); [f_equal; lia|].
      apply (delete_rest_ends pt (q :: r') n (a + n) (start + plen p) r''); auto; lia.
  - apply Z.leb_gt in E. cbn [ends filter]. replace (start + plen p <? a) with true by lia.
    replace (a + n <=? start + plen p) with false by lia. cbn [app]. f_equal.
    apply IH; try assumption; try lia. intros ->. cbn in Hle. lia.
Qed.

Lemma run_ends : forall es pt s, inv pt s -> len s <= max_int64 -> edits_in_range s es ->
  forall pt', run_edits pt es = (pt', Returned) -> ends 0 (head pt') = fold_left seams_after es (ends 0 (head pt)).
Proof.
  induction es as [|e es IH]; intros pt s I L R pt' H; cbn [run_edits fold_left] in *.
  - now injection H as <-.
  - destruct R as [R1 R2]. destruct e as [t a|n a]; cbn [edit_in_range apply_edit] in *.
    + destruct (inv_insert pt s t a I) as (pt1 & E1 & I1); [lia|]. rewrite E1 in H.
      rewrite (IH pt1 (splice s t a) I1) with (pt' := pt'); auto; [|rewrite splice_len; lia].
      f_equal. destruct I as (C1 & (buf & C2) & C3 & C4 & C5). unfold pt_insert in E1.
      destruct (head pt) as [|p ps] eqn:Eh; [congruence|]. rewrite C2 in E1.
      destruct (insert_pieces (Some buf) t a 0 (p :: ps)) as [[ps' buf']|] eqn:Ei; [|discriminate].
      injection E1 as <-. cbn [head]. eapply insert_ends; [eassumption|lia|eassumption].
    + rewrite (IH (pt_delete pt n a) (cut_out s n a)) with (pt' := pt'); auto.
      * f_equal. destruct I as (C1 & C2 & C3 & C4 & C5). unfold pt_delete. cbn [head].
        rewrite wrap64_id by (unfold min_int64; lia). eapply delete_ends; try eassumption; try lia.
        rewrite <- denote_len with (pt := pt), C5 by assumption. lia.
      * apply inv_delete; auto; lia.
      * rewrite cut_out_len by lia. lia.
Qed.

(* Delete beyond the end *)
Lemma delete_pieces_past_exact : forall pt n ps a start,
  Forall (pok pt) ps -> start <= a <= start + total_len ps -> start + total_len ps < a + n ->
  ps <> [] ->
  exists k, first_from (ends start ps) a k /\ k <= start + total_len ps /\
    denote pt (delete_pieces a n (a + n) start ps) =
      firstn (Z.to_nat (a - start)) (denote pt ps) ++ skipn (Z.to_nat (k - start)) (denote pt ps).
Proof.
  induction ps as [|p r IH]; intros a start F Ha Hle Hne; [congruence|].
  inversion F as [|? ? P F']; subst. pose proof P as (A1 & A2 & A3).
  cbn [total_len fold_right] in *. fold (total_len r) in *.
  pose proof (pbytes_len _ _ P) as PL. pose proof (total_nonneg _ _ F') as T.
  cbn [delete_pieces ends]. destruct (a <=? start + plen p) eqn:E.
  - apply Z.leb_le in E. assert (K : 0 <= a - start <= plen p) by lia.
    destruct (pbytes_split _ _ _ P K) as [P1 P2].
    replace (a + n <=? start + plen p) with false by lia.
    rewrite (delete_rest_none pt) by (auto; lia).
    exists (start + plen p). split; [|split; [lia|]].
    + repeat split; [now left|assumption|]. intros b [<-|Hb] _; [lia|].
      eapply ends_lower in Hb; [|eassumption]. lia.
    + cbn [denote flat_map]. unfold pbytes at 1. cbn [prdr poff plen]. rewrite P1. unfold len in PL.
      rewrite firstn_app_left, skipn_app_right by lia.
      replace (Z.to_nat (start + plen p - start) - length (pbytes pt p))%nat with O by lia. reflexivity.
  - apply Z.leb_gt in E. destruct r as [|q r']; [cbn in *; lia|].
    destruct (IH a (start + plen p)) as (k & (K1 & K2 & K3) & K4 & K5); try assumption; try lia; [discriminate|].
    exists k. split; [|split; [lia|]].
    + repeat split; [now right|assumption|]. intros b [<-|Hb] Hab; [lia|]. now apply K3.
    + change (denote pt (p :: delete_pieces a n (a + n) (start + plen p) (q :: r')))
        with (pbytes pt p ++ denote pt (delete_pieces a n (a + n) (start + plen p) (q :: r'))).
      rewrite K5. change (denote pt (p :: q :: r')) with (pbytes pt p ++ denote pt (q :: r')).
      unfold len in PL. rewrite firstn_app_right, skipn_app_right by lia. rewrite <- app_assoc.
      do 2 f_equal; f_equal; lia.
Qed.

Lemma delete_past_exact : forall content cc m es pt n a,
  let s := apply_edits (firstn (Z.to_nat m) content) es in
  0 <= m <= len content -> m <= max_int64 -> edits_in_range (firstn (Z.to_nat m) content) es ->
  run_edits (new_piece_table content cc m) es = (pt, Returned) ->
  0 <= a <= len s -> len s < a + n <= max_int64 ->
  exists k, first_from (seams m es) a k /\ k <= len s /\
    pt_string (pt_delete pt n a) = Ok (firstn (Z.to_nat a) s ++ skipn (Z.to_nat k) s).
Proof.
  intros content cc m es pt n a s Hm Hm2 R H Ha Hn.
  assert (I0 : inv (new_piece_table content cc m) (firstn (Z.to_nat m) content)) by now apply inv_new.
  assert (L0 : len (firstn (Z.to_nat m) content) <= max_int64) by (unfold len in *; rewrite firstn_length; lia).
  pose proof (run_ends es _ _ I0 L0 R pt H) as Een. cbn [new_piece_table head ends plen] in Een.
  rewrite Z.add_0_l in Een. fold (seams m es) in Een.
  destruct (run_edits_inv es _ _ I0 L0 R) as (pt1 & E1 & I1 & L1). rewrite H in E1. injection E1 as <-.
  fold s in I1, L1. destruct I1 as (C1 & (buf & C2) & C3 & C4 & C5).
  assert (T : total_len (head pt) = len s) by (rewrite <- denote_len with (pt := pt), C5; auto).
  destruct (delete_pieces_past_exact pt n (head pt) a 0) as (k & K1 & K2 & K3); try assumption; try lia.
  exists k. rewrite Een in K1. split; [assumption|]. split; [lia|].
  pose proof (delete_pieces_past pt n (head pt) a 0 C4) as (D1 & _); try lia.
  unfold pt_delete. rewrite wrap64_id by (unfold min_int64; lia).
  rewrite pt_string_ok; [|exact C1|].
  - cbn [head]. f_equal. rewrite <- C5, !Z.sub_0_r in *. rewrite <- K3. now apply denote_ext.
  - cbn [head]. eapply pok_ext; [|exact D1]. reflexivity.
Qed.

Lemma first_from_unique : forall l a k k', first_from l a k -> first_from l a k' -> k = k'.
Proof. intros l a k k' (A1 & A2 & A3) (B1 & B2 & B3). pose proof (A3 k' B1 B2). pose proof (B3 k A1 A2). lia. Qed.

Lemma delete_past_truncates_iff : forall content cc m es pt n a,
  let s := apply_edits (firstn (Z.to_nat m) content) es in
  0 <= m <= len content -> m <= max_int64 -> edits_in_range (firstn (Z.to_nat m) content) es ->
  run_edits (new_piece_table content cc m) es = (pt, Returned) ->
  0 <= a <= len s -> len s < a + n <= max_int64 ->
  pt_string (pt_delete pt n a) = Ok (firstn (Z.to_nat a) s) <->
  (forall b, In b (seams m es) -> ~ (a <= b < len s)).
Proof.
  intros content cc m es pt n a s Hm Hm2 R H Ha Hn.
  destruct (delete_past_exact content cc m es pt n a Hm Hm2 R H Ha Hn) as (k & (K1 & K2 & K3) & K4 & K5).
  fold s in K4, K5. rewrite K5. split.
  - intros E b Hb Hab. injection E as E. apply (f_equal (@List.length ascii)) in E.
    rewrite app_length, skipn_length in E. specialize (K3 b Hb (proj1 Hab)). unfold len in *. lia.
  - intros E. destruct (Z.eq_dec k (len s)) as [->|Hk].
    + unfold len. now rewrite Nat2Z.id, skipn_all, app_nil_r.
    + exfalso. apply (E k K1). lia.
Qed.
