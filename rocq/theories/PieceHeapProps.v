(* Property theorems C119-C121 (pkg/txt/piece_table.go with its pointers). *)
From Verif Require Import GoBase PieceTableModel PieceTableSpec PieceTableProofs PieceHeapModel PieceHeapSpec PieceHeapProofs.
Local Open Scope Z_scope.

(* C119: with pieces that are changed and linked in place, every sequence of in-range edits still gives the edited text;
   whatever the edits, no method goes round in circles, and Insert panics exactly where the list of pieces does. *)
Theorem C119_text_in_place : forall content can_close es, len content <= max_int64 -> edits_in_range content es ->
  exists t, edit_all (new_table content can_close (len content)) es = Returns t /\ t_string t = Returns (apply_edits content es).
Proof.
  intros content cc es L R. destruct (piece_table_whole content cc es L R) as (pt & E & S1).
  pose proof (run_shows es _ _ (new_shows content cc (len content))) as Q. rewrite E in Q. destruct Q as (t & E' & Sh).
  exists t. split; [exact E'|]. now rewrite (string_shows _ _ Sh), S1.
Qed.
Print Assumptions C119_text_in_place.
Theorem C119_same_as_list : forall content can_close n es,
  match run_edits (new_piece_table content can_close n) es with
  | (pt, Returned) => exists t, edit_all (new_table content can_close n) es = Returns t /\
      t_string t = match pt_string pt with Ok s => Returns s | _ => Dies end
  | (_, Panics) => edit_all (new_table content can_close n) es = Dies
  end.
Proof.
  intros content cc n es. pose proof (run_shows es _ _ (new_shows content cc n)) as Q.
  destruct (run_edits (new_piece_table content cc n) es) as [pt []]; [|exact Q]. destruct Q as (t & E & Sh). exists t.
  split; [exact E|]. now apply string_shows.
Qed.
Print Assumptions C119_same_as_list.
Example C119_nonvacuous : edits_in_range (B "hello") [Ins (B "XY") 2; Del 3 1; Ins (B "!") 4] /\
  (exists t, edit_all (new_table (B "hello") false 5) [Ins (B "XY") 2; Del 3 1; Ins (B "!") 4] = Returns t /\
    t_string t = Returns (B "hllo!") /\ List.length (t_heap t) = 7%nat).
Proof.
  split; [vm_compute; repeat split; discriminate|]. eexists. split; [vm_compute; reflexivity|]. split; vm_compute; reflexivity.
Qed.

(* C120: clean ends without a panic and keeps the text, also under the edits that follow ... *)
Theorem C120_clean_keeps_text_partial : forall content can_close es es', len content <= max_int64 -> edits_in_range content es ->
  edits_in_range (apply_edits content es) es' ->
  exists t t' t2, edit_all (new_table content can_close (len content)) es = Returns t /\ t_clean t = Returns t' /\
    t_string t' = Returns (apply_edits content es) /\
    edit_all t' es' = Returns t2 /\ t_string t2 = Returns (apply_edits (apply_edits content es) es').
Proof.
  intros content cc es es' L R R'.
  assert (Lc : 0 <= len content <= len content) by (pose proof (len_nonneg content); lia).
  assert (Fc : firstn (Z.to_nat (len content)) content = content) by (unfold len; rewrite Nat2Z.id; apply firstn_all).
  pose proof (inv_new content cc (len content) Lc) as I0. rewrite Fc in I0.
  destruct (run_inv0 es _ content (or_introl I0) L R) as (pt & E & I1).
  assert (L1 : len (apply_edits content es) <= max_int64).
  { clear - L R. revert content L R. induction es as [|e es IH]; intros s L R; [exact L|]. destruct R as [R1 R2]. cbn [apply_edits].
    apply IH; [|exact R2]. destruct e as [x a|n a]; cbn [apply_edit edit_in_range] in *; [rewrite splice_len by lia; lia|rewrite cut_out_len by lia; lia]. }
  pose proof (run_shows es _ _ (new_shows content cc (len content))) as Q. rewrite E in Q. destruct Q as (t & E' & (Ea & Eb & Ec & Ed & l & H & N & M)).
  destruct (clean_seg t l H N) as (t' & Ct & Fa & Fb & Fc' & Fd & H' & N').
  pose proof (clean_inv0 _ _ l I1 M) as I2. set (pt' := {| orig := orig pt; closable := _; closed := _; appendb := _; head := _ |}) in I2.
  assert (Sh : shows t' pt').
  { unfold shows, pt'. cbn. split; [congruence|]. split; [congruence|]. split; [congruence|]. split; [congruence|]. now exists (cleaned l). }
  destruct (run_inv0 es' _ _ I2 L1 R') as (pt2 & E2 & I3). pose proof (run_shows es' _ _ Sh) as Q. rewrite E2 in Q. destruct Q as (t2 & E3 & Sh2).
  exists t, t', t2. split; [exact E'|]. split; [exact Ct|]. split; [now rewrite (string_shows _ _ Sh), (inv0_string _ _ I2)|].
  split; [exact E3|]. now rewrite (string_shows _ _ Sh2), (inv0_string _ _ I3).
Qed.
Print Assumptions C120_clean_keeps_text_partial.
(* ... and keeps the pieces that hold text; if no two pieces without text are next to each other nothing else is left ... *)
Theorem C120_clean_removes_partial : forall t l, seg (t_heap t) (t_head t) l None -> NoDup (map fst l) ->
  exists t' l', t_clean t = Returns t' /\ seg (t_heap t') (t_head t') l' None /\
    filter holds_text (map snd l') = filter holds_text (map snd l) /\
    (none_adjacent (map snd l) -> map snd l' = filter holds_text (map snd l)).
Proof.
  intros t l H N. destruct (clean_seg t l H N) as (t' & E & _ & _ & _ & _ & H' & _). exists t', (cleaned l). split; [exact E|]. split; [exact H'|].
  split; [apply cleaned_text|]. intros A. rewrite <- cleaned_text. pose proof (cleaned_all l A) as F.
  induction (map snd (cleaned l)) as [|x r IH]; [reflexivity|]. inversion F as [|? ? F1 F2]; subst. cbn [filter]. rewrite F1. f_equal. now apply IH.
Qed.
Print Assumptions C120_clean_removes_partial.
Example C120_nonvacuous : exists t t', edit_all (new_table (B "hello") false 5) [Ins [] 2] = Returns t /\
  List.length (filter holds_text (match walk 9 (t_heap t) (t_head t) with Returns l => l | _ => [] end)) = 2%nat /\
  t_clean t = Returns t' /\ t_string t' = Returns (B "hello") /\
  (exists l, walk 9 (t_heap t') (t_head t') = Returns l /\ List.length l = 2%nat).
Proof.
  eexists. eexists. split; [vm_compute; reflexivity|]. split; [vm_compute; reflexivity|]. split; [vm_compute; reflexivity|].
  split; [vm_compute; reflexivity|]. eexists. split; vm_compute; reflexivity.
Qed.
(* ... but not all pieces without text are removed: inserting nothing at the end of any text leaves two, of which clean removes one. *)
Theorem C120_clean_removes_refuted : forall content can_close, content <> [] ->
  exists t t' l, edit_all (new_table content can_close (len content)) [Ins [] (len content)] = Returns t /\ t_clean t = Returns t' /\
    walk (S (List.length (t_heap t'))) (t_heap t') (t_head t') = Returns l /\ existsb (fun p => plen p =? 0) l = true.
Proof.
  intros content cc Ne. cbn [edit_all]. unfold t_insert, new_table. cbn [t_head t_heap List.length insert_loop nth_error c_piece plen t_append].
  rewrite Z.add_0_l, Z.leb_refl. cbv zeta. rewrite !Z.sub_diag, Z.sub_0_r. cbn [app List.length poff prdr c_next Z.of_nat].
  assert (P : (len content <=? 0) = false) by (apply Z.leb_gt; destruct content; [congruence|]; rewrite len_cons; pose proof (len_nonneg content); lia).
  eexists. eexists. eexists. split; [reflexivity|]. split.
  - unfold t_clean. cbn [t_head t_heap List.length clean_head nth_error c_piece c_next plen]. rewrite P.
    cbn [clean_loop nth_error c_piece c_next plen]. rewrite P. rewrite ?Z.sub_diag. cbn [Z.leb Z.compare clean_loop nth_error c_piece c_next plen set_next upd].
    reflexivity.
  - cbn [t_head t_heap List.length walk nth_error c_piece c_next]. split; [reflexivity|].
    cbn [existsb plen]. cbn. now rewrite ?orb_true_r.
Qed.
Print Assumptions C120_clean_removes_refuted.

(* C121: append puts its pieces, in their order, between the piece and the one that came after it. *)
Theorem C121_append : forall h hd pre p x post l, seg h hd (pre ++ (p, x) :: post) None ->
  NoDup (map fst (pre ++ (p, x) :: post ++ l)) ->
  (forall a y, In (a, y) l -> exists n, nth_error h a = Some {| c_piece := y; c_next := n |}) ->
  seg (p_append h p (map fst l)) hd (pre ++ (p, x) :: l ++ post) None.
Proof. exact append_between. Qed.
Print Assumptions C121_append.
(* two new pieces between the first and the second of a list *)
Definition some_piece (n : Z) : piece := {| plen := n; poff := 0; prdr := ROrig |}.
Definition some_heap : heap :=
  [{| c_piece := some_piece 1; c_next := Some 1%nat |}; {| c_piece := some_piece 2; c_next := None |};
   {| c_piece := some_piece 3; c_next := None |}; {| c_piece := some_piece 4; c_next := None |}].
Example C121_nonvacuous : seg some_heap (Some 0%nat) ([] ++ (0%nat, some_piece 1) :: [(1%nat, some_piece 2)]) None /\
  NoDup (map fst ([] ++ (0%nat, some_piece 1) :: [(1%nat, some_piece 2)] ++ [(2%nat, some_piece 3); (3%nat, some_piece 4)])) /\
  (forall a y, In (a, y) [(2%nat, some_piece 3); (3%nat, some_piece 4)] -> exists n, nth_error some_heap a = Some {| c_piece := y; c_next := n |}) /\
  walk 9 (p_append some_heap 0 [2; 3]%nat) (Some 0%nat) = Returns [some_piece 1; some_piece 3; some_piece 4; some_piece 2].
Proof.
  split; [|split; [|split]].
  - cbn. split; [reflexivity|]. exists (Some 1%nat). split; [reflexivity|]. split; [reflexivity|]. exists None. now split.
  - repeat constructor; cbn; intuition discriminate.
  - intros a y [E|[E|[]]]; injection E as <- <-; exists None; reflexivity.
  - vm_compute. reflexivity.
Qed.
