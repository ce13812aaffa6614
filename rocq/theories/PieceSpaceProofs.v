(* How large a piece table grows (C139). *)
From Verif Require Import GoBase GoFacts PieceTableModel PieceTableSpec PieceTableProofs PieceSpaceSpec.
Local Open Scope nat_scope.

Lemma insert_pieces_size : forall ps buf t a i ps' buf', insert_pieces (Some buf) t a i ps = Some (ps', buf') ->
  List.length ps' = List.length ps + 2 /\ buf' = buf ++ t.
Proof.
  induction ps as [|p ps IH]; intros buf t a i ps' buf' H; [discriminate|]. cbn [insert_pieces] in H.
  destruct (a <=? i + plen p)%Z.
  - injection H as <- <-. cbn [List.length]. split; [lia|reflexivity].
  - destruct (insert_pieces (Some buf) t a (i + plen p) ps) as [[q b]|] eqn:E; [|discriminate]. injection H as <- <-.
    apply IH in E as [E ->]. cbn [List.length]. split; [lia|reflexivity].
Qed.
Lemma delete_rest_size : forall ps stop start ps', delete_rest stop start ps = Some ps' -> 1 <= List.length ps' <= List.length ps.
Proof.
  induction ps as [|p ps IH]; intros stop start ps' H; [discriminate|]. cbn [delete_rest] in H.
  destruct (stop <=? start + plen p)%Z; [injection H as <-; cbn [List.length]; lia|]. apply IH in H. cbn [List.length]. lia.
Qed.
Lemma delete_pieces_size : forall ps a n stop start, ps <> [] -> 1 <= List.length (delete_pieces a n stop start ps) <= List.length ps + 1.
Proof.
  induction ps as [|p ps IH]; intros a n stop start N; [congruence|]. cbn [delete_pieces].
  destruct (a <=? start + plen p)%Z.
  - destruct (stop <=? start + plen p)%Z; [cbn [List.length]; lia|].
    destruct (delete_rest stop (start + plen p) ps) as [r'|] eqn:E; cbn [List.length]; [apply delete_rest_size in E; lia|lia].
  - cbn [List.length]. destruct ps as [|q ps]; [cbn; lia|]. specialize (IH a n stop (start + plen p)%Z). assert (q :: ps <> []) by discriminate.
    specialize (IH H). lia.
Qed.

Lemma run_size : forall es pt buf pt', head pt <> [] -> appendb pt = Some buf -> run_edits pt es = (pt', Returned) ->
  1 <= List.length (head pt') <= List.length (head pt) + 2 * inserts es + deletes es /\ appendb pt' = Some (buf ++ inserted es).
Proof.
  induction es as [|e es IH]; intros pt buf pt' N A R.
  - injection R as <-. unfold inserts, deletes, inserted. cbn [filter List.length flat_map]. rewrite List.app_nil_r. split; auto.
    destruct (head pt); [congruence|cbn [List.length]; lia].
  - destruct e as [t a|n a]; cbn [run_edits] in R.
    + unfold pt_insert in R. destruct (head pt) as [|p ps] eqn:Hh; [congruence|]. rewrite A in R.
      destruct (insert_pieces (Some buf) t a 0 (p :: ps)) as [[ps' buf']|] eqn:E; [|discriminate].
      apply insert_pieces_size in E as [L ->]. apply (IH _ (buf ++ t)) in R; [|cbn [head]; intros ->; cbn in L; lia|reflexivity].
      cbn [head] in R. destruct R as [R1 ->]. unfold inserts, deletes, inserted in *. cbn [filter is_insert negb List.length flat_map].
      rewrite <- app_assoc. cbn [List.length] in L. split; [lia|reflexivity].
    + pose proof (delete_pieces_size (head pt) a n (wrap64 (a + n)) 0 N) as L.
      apply (IH _ buf) in R; [|cbn [pt_delete head]; intros Q; rewrite Q in L; cbn in L; lia|exact A].
      cbn [pt_delete head] in R. destruct R as [R1 ->]. unfold inserts, deletes, inserted in *. cbn [filter is_insert negb List.length flat_map app].
      split; [lia|reflexivity].
Qed.

(* pieces are never fewer than one, and only deletions that reach into another piece take any away *)
Lemma only_inserts : forall ts pt buf pt', head pt <> [] -> appendb pt = Some buf ->
  run_edits pt (map (fun x => Ins (fst x) (snd x)) ts) = (pt', Returned) ->
  List.length (head pt') = List.length (head pt) + 2 * List.length ts.
Proof.
  induction ts as [|[t a] ts IH]; intros pt buf pt' N A R.
  - injection R as <-. cbn [List.length]. lia.
  - cbn [map fst snd run_edits] in R. unfold pt_insert in R. destruct (head pt) as [|p ps] eqn:Hh; [congruence|]. rewrite A in R.
    destruct (insert_pieces (Some buf) t a 0 (p :: ps)) as [[ps' buf']|] eqn:E; [|discriminate].
    apply insert_pieces_size in E as [L ->]. apply (IH _ (buf ++ t)) in R; [|cbn [head]; intros ->; cbn in L; lia|reflexivity].
    cbn [head] in R. rewrite R, L. cbn [List.length]. lia.
Qed.
Lemma run_orig : forall es pt pt' r, run_edits pt es = (pt', r) -> orig pt' = orig pt.
Proof.
  induction es as [|[t a|n a] es IH]; intros pt pt' r R; cbn [run_edits] in R.
  - injection R as <- _. reflexivity.
  - unfold pt_insert in R. destruct (head pt) as [|p ps]; [apply IH in R; exact R|].
    destruct (insert_pieces (appendb pt) t a 0 (p :: ps)) as [[ps' buf']|]; [apply IH in R; exact R|]. injection R as <- _. reflexivity.
  - apply IH in R. exact R.
Qed.
