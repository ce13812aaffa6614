(* C139: how large a piece table grows (pkg/txt/piece_table.go).  Statements only; proofs in PieceSpaceProofs.v. *)
From Verif Require Import GoBase PieceTableModel PieceTableSpec PieceSpaceSpec PieceSpaceProofs.

(* After any edits that were carried out, in range or not: at most two more pieces for every insertion and one for
   every deletion, whatever their lengths; the append buffer holds the inserted texts, each once and in order; the
   original is as it was. *)
Theorem C139_space : forall content can_close n es pt,
  run_edits (new_piece_table content can_close n) es = (pt, Returned) ->
  1 <= List.length (head pt) <= 1 + 2 * inserts es + deletes es /\ appendb pt = Some (inserted es) /\ orig pt = content.
Proof.
  intros content can_close n es pt R. pose proof (run_orig _ _ _ _ R) as O.
  destruct (run_size es (new_piece_table content can_close n) [] pt) as [L A]; [discriminate|reflexivity|exact R|].
  split; [exact L|]. split; [exact A|exact O].
Qed.
Print Assumptions C139_space.
(* The bound is reached: insertions alone always make two pieces each, however short or empty the texts, so that
   pieces of no bytes stay for good. *)
Theorem C139_insertions : forall content can_close n ts pt,
  run_edits (new_piece_table content can_close n) (map (fun x => Ins (fst x) (snd x)) ts) = (pt, Returned) ->
  List.length (head pt) = 1 + 2 * List.length ts.
Proof.
  intros content can_close n ts pt R. rewrite (only_inserts ts (new_piece_table content can_close n) [] pt); auto; discriminate.
Qed.
Print Assumptions C139_insertions.
Example C139_nonvacuous : exists pt, run_edits (new_piece_table (B "hello") false 5) [Ins (B "ab") 2; Del 4 1; Ins [] 0; Ins (B "c") 3] = (pt, Returned) /\
  List.length (head pt) = 6 /\ appendb pt = Some (B "abc") /\ pt_string pt = Ok (B "hloc").
Proof. eexists. split; [vm_compute; reflexivity|]. vm_compute. auto. Qed.
