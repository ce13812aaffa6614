(* C86 refuted: typed text with a character of more than one byte (see EdLoopProps.v for what is true). *)
From Verif Require Import GoBase GoFacts NumFacts PieceTableModel PieceTableSpec PieceTableProofs EdModel EdSpec EdProofs EdProofs2 EdProps RuneFacts
  EdPegModel EdPegSpec EdPegProofs EdPegProofs2 EdPegProofs3 EdPegProofs4 EdPegProofs5 EdLoopModel EdLoopSpec EdLoopProofs EdLoopProofs2 EdLoopProofs3.
Local Open Scope Z_scope.

(* C86, exactly: for every session with valid line numbers whose texts have no line beginning with a dot, over
   ordinary buffers, and every schedule, ed behaves as the list-of-lines editor would if every text of n
   characters were cut down to its first n bytes (C63).  C86_sessions_partial in EdLoopProps.v is the case of
   single-byte characters. *)
Theorem C86_cut_sessions_partial : forall compile capacity errtext, (forall n, (n <= capacity n)%nat) ->
  forall o perr fs ed ls h s, buffer ed ls -> good ls -> valid_history ls (map cut_text h) -> session_typed h ->
  steps compile capacity errtext o (begin fs ed (reads perr (session h))) s -> stopped compile capacity errtext o s ->
  l_status s = Finished /\ visible (l_out s) = map OReply (printed ls (map cut_text h)) /\
  buffer (l_ed s) (final_lines ls (map cut_text h)) /\ l_fs s = fs.
Proof.
  intros compile capacity errtext C o perr fs ed ls h s H G V K St T.
  destruct (run_from_begin _ _ _ _ _ _ _ _ _ _ (getLines_good ed ls H G) St T) as (rep&r&out&L&Vi&P&E).
  pose proof (session_reads_cut perr h (valid_can_type h ls ed H V K)) as Sg.
  unfold commands, first_errors, errors_after in *. rewrite Sg in *. cbn [fst snd map app] in *. set (h' := map cut_text h) in *.
  rewrite !map_map in *. cbn [fst snd] in *.
  destruct (history_ok compile capacity errtext C h' fs o 0 (set_current ed (lines_count ls)) ls) as (ed'&L'&B'); auto.
  change (map (fun x : acmd => concrete x) h') with (map concrete h') in L. rewrite L' in L. injection L as <- <-. destruct E as (E1&E2&E3).
  split; auto. split; [|split; auto; now rewrite E3].
  rewrite Vi. apply (placed_quiet _ _ _ P). intros e I. apply in_map_iff in I as (x&<-&_). reflexivity.
Qed.
Print Assumptions C86_cut_sessions_partial.

Lemma cut_same : forall h, session_ok h -> map cut_text h = h.
Proof.
  induction h as [|c h IH]; intros S; [reflexivity|]. cbn [map]. rewrite IH by (intros x Ix; apply S; now right). f_equal.
  specialize (S c (or_introl eq_refl)). destruct c; auto; cbn [cut_text]; now rewrite (proj2 (typable_cut _ S)).
Qed.
Lemma final_app : forall h ls c, final_lines ls (h ++ [c]) = aedit (final_lines ls h) c.
Proof. induction h as [|x h IH]; intros ls c; cbn [app final_lines]; auto. Qed.
Lemma edit_len : forall c ls, takes_text c -> len (unlines (aedit ls c)) - len (text_of c) = len (unlines (aedit ls (cut_text c))) - len (cut (text_of c)).
Proof. intros [n t|n t|m n t|m n|m n|m n|n] ls []; cbn [aedit cut_text text_of]; rewrite !typed_len; lia. Qed.
(* C86 refuted, for every buffer, every session with single-byte texts followed by a command whose text has
   a character of more than one byte, and every schedule: the text is not stored as typed. *)
Theorem C86_sessions_refuted : forall compile capacity errtext, (forall n, (n <= capacity n)%nat) ->
  forall o perr fs ed ls h c s, buffer ed ls -> good ls -> session_ok h -> takes_text c -> typed_text (text_of c) ->
  (List.length (runes_of (text_of c)) < List.length (text_of c))%nat -> valid_history ls (h ++ [cut_text c]) ->
  steps compile capacity errtext o (begin fs ed (reads perr (session (h ++ [c])))) s -> stopped compile capacity errtext o s ->
  l_status s = Finished /\ ~ buffer (l_ed s) (final_lines ls (h ++ [c])).
Proof.
  intros compile capacity errtext C o perr fs ed ls h c s H G K Tc Ty L V St T.
  destruct (C86_cut_sessions_partial compile capacity errtext C o perr fs ed ls (h ++ [c]) s) as (E1&_&E3&_); auto.
  - rewrite map_app, (cut_same h K). exact V.
  - intros x Ix Tx. apply in_app_iff in Ix as [Ix|[<-|[]]]; auto. specialize (K x Ix). destruct x; try destruct Tx; now apply typable_cut in K.
  - split; auto. intros Q. rewrite map_app, (cut_same h K) in E3. cbn [map] in E3. rewrite !final_app in *.
    apply holds_string in Q, E3. rewrite E3 in Q. injection Q as Q. pose proof (edit_len c (final_lines ls h) Tc) as D.
    unfold bytes in *. rewrite Q in D. unfold cut, len in D. rewrite firstn_length in D. lia.
Qed.
Print Assumptions C86_sessions_refuted.
(* e-acute in UTF-8 *)
Definition acute : bytes := [ascii_of_N 195; ascii_of_N 169].
Example C86_refuted_nonvacuous : typed_text (B "caf" ++ acute) /\ (List.length (runes_of (B "caf" ++ acute)) < List.length (B "caf" ++ acute))%nat /\
  cut_text (Append 1 (B "caf" ++ acute)) = Append 1 (B "caf" ++ [ascii_of_N 195]) /\
  valid_history demo_lines [cut_text (Append 1 (B "caf" ++ acute))].
Proof.
  split; [|split; [vm_compute; lia|split; [reflexivity|]]].
  - split; [|split; [split; [vm_compute; discriminate|]|]].
    + repeat constructor; vm_compute; try discriminate. 1: intros Q; repeat (destruct Q as [Q|Q]; [discriminate Q|]); exact Q.
      intros p Q. destruct p as [|? [|? [|? [|? [|? [|? p]]]]]]; discriminate Q.
    + intros l [<-|[]]. split; [vm_compute; intros Q; repeat (destruct Q as [Q|Q]; [discriminate Q|]); exact Q|discriminate].
    + intros l r [].
  - split; [split; [exact demo_good|exact I]|]. split; [vm_compute; split; discriminate|]. split; [vm_compute; discriminate|exact I].
Qed.
