(* Specification vocabulary for C01-C05: edits on a plain byte string. Independent of the model. *)
From Verif Require Import GoBase PieceTableModel.
Local Open Scope Z_scope.

Definition len (s : bytes) : Z := Z.of_nat (List.length s).
Arguments len : simpl never.

(* text spliced into s before position at *)
Definition splice (s text : bytes) (at_ : Z) : bytes :=
  firstn (Z.to_nat at_) s ++ text ++ skipn (Z.to_nat at_) s.

(* n bytes removed from s starting at position at *)
Definition cut_out (s : bytes) (n at_ : Z) : bytes :=
  firstn (Z.to_nat at_) s ++ skipn (Z.to_nat (at_ + n)) s.

Inductive edit := Ins (text : bytes) (at_ : Z) | Del (n at_ : Z).

Definition apply_edit (s : bytes) (e : edit) : bytes :=
  match e with Ins t a => splice s t a | Del n a => cut_out s n a end.

(* The edit addresses existing positions, and the result is a legal Go string length. *)
Definition edit_in_range (s : bytes) (e : edit) : Prop :=
  match e with
  | Ins t a => 0 <= a <= len s /\ len s + len t <= max_int64
  | Del n a => 0 <= a /\ 0 <= n /\ a + n <= len s
  end.

Fixpoint apply_edits (s : bytes) (es : list edit) : bytes :=
  match es with [] => s | e :: r => apply_edits (apply_edit s e) r end.

Fixpoint edits_in_range (s : bytes) (es : list edit) : Prop :=
  match es with
  | [] => True
  | e :: r => edit_in_range s e /\ edits_in_range (apply_edit s e) r
  end.

(* Driver: perform the edits through the API of the modelled PieceTable, stopping at a panic. *)
Fixpoint run_edits (pt : piece_table) (es : list edit) : piece_table * outcome :=
  match es with
  | [] => (pt, Returned)
  | Ins t a :: r =>
      match pt_insert pt t a with
      | (pt', Returned) => run_edits pt' r
      | (pt', Panics) => (pt', Panics)
      end
  | Del n a :: r => run_edits (pt_delete pt n a) r
  end.

(* A table obtained from an open reader over [content] (of which the first [n] bytes are used) by
   in-range edits, and the byte string it stands for. *)
Definition table_for (pt : piece_table) (s : bytes) : Prop :=
  exists content can_close n es,
    0 <= n <= len content /\ n <= max_int64 /\
    edits_in_range (firstn (Z.to_nat n) content) es /\
    run_edits (new_piece_table content can_close n) es = (pt, Returned) /\
    s = apply_edits (firstn (Z.to_nat n) content) es.

(* The runs of the fuzz driver that crash, told on the plain byte string: [s] is the text so far, the list
   holds the remaining lines, [sscanf] what fmt.Sscanf makes of a line. *)
Inductive fuzz_crash (sscanf : bytes -> option (Z * Z * bytes)) : bytes -> list bytes -> Prop :=
| fc_delete s cmd rest typ a txt n :      (* the end of the deleted range is beyond the largest int *)
    sscanf cmd = Some (typ, a, txt) -> typ < 0 -> 0 <= a -> atoi txt = Some n ->
    max_int64 < Z.min a (len s) + n -> fuzz_crash sscanf s (cmd :: rest)
| fc_too_long s cmd rest typ a txt :      (* the new text would be longer than the largest int *)
    sscanf cmd = Some (typ, a, txt) -> 0 < typ -> 0 <= a -> max_int64 < len s + len txt ->
    fuzz_crash sscanf s (cmd :: rest)
| fc_after_insert s cmd rest typ a txt :
    sscanf cmd = Some (typ, a, txt) -> 0 < typ -> 0 <= a -> len s + len txt <= max_int64 ->
    fuzz_crash sscanf (splice s txt (Z.min a (len s))) rest -> fuzz_crash sscanf s (cmd :: rest)
| fc_after_delete s cmd rest typ a txt n :
    sscanf cmd = Some (typ, a, txt) -> typ < 0 -> 0 <= a -> atoi txt = Some n -> 0 <= n ->
    Z.min a (len s) + n < len s ->
    fuzz_crash sscanf (cut_out s n (Z.min a (len s))) rest -> fuzz_crash sscanf s (cmd :: rest).
