(* Specification vocabulary for C129 and the refutations of C50, C51 and C54: what the editor takes for the
   lines of a text, and edits of bytes in terms of them. *)
From Verif Require Import GoBase GoFacts PieceTableSpec EdModel EdSpec.
Local Open Scope Z_scope.

(* a last blank line left out *)
Definition cut_blank (ls : list bytes) : list bytes :=
  match rev ls with [] :: r => rev r | _ => ls end.
(* The lines of a text: the pieces between newlines.  What follows the last newline is a line if it is not empty. *)
Definition text_pieces (s : bytes) : list bytes := cut_blank (split_on nl s).
(* one \r at the end removed *)
Definition without_cr (l : bytes) : bytes :=
  match rev l with c :: r => if Ascii.eqb c cr then rev r else l | [] => l end.
(* The lines the editor sees: without a \r at their end, and without a last one that is then blank. *)
Definition seen (s : bytes) : list bytes := cut_blank (map without_cr (text_pieces s)).
(* The position at which the editor believes line n to start: it counts one byte for every line end. *)
Definition line_start (s : bytes) (n : Z) : Z := len (unlines (upto (seen s) (n - 1))).

(* A text the editor can read: no line of 64K. *)
Definition readable (s : bytes) : Prop := Forall (fun l => len l < 65536) (text_pieces s).
(* A text that is empty or ends in a newline. *)
Definition complete (s : bytes) : Prop := forall p c, s = p ++ [c] -> c = nl.

(* What a command makes of a text *)
Definition exact_delete (s : bytes) (m n : Z) : bytes :=
  cut_out s (line_start s (n + 1) - line_start s m) (line_start s m).
Definition exact_insert (s : bytes) (n : Z) (t : bytes) : bytes := splice s (t ++ [nl]) (line_start s n).
Definition exact_edit (s : bytes) (c : acmd) : bytes :=
  match c with
  | Append n t => exact_insert s (n + 1) t
  | Insert_ n t => exact_insert s n t
  | Change m n t => exact_insert (exact_delete s m n) m t
  | Delete_ m n => exact_delete s m n
  | _ => s
  end.
(* and replies *)
Definition exact_reply (s : bytes) (c : acmd) : bytes := areply (seen s) c.
(* Conditions: addresses in order; those of p and n are lines the editor sees; readable texts that fit in memory *)
Definition exact_valid (s : bytes) (c : acmd) : Prop :=
  readable s /\ len s + len (text_of c) + 1 <= max_int64 /\
  match c with
  | Append n _ | Insert_ n _ | LineNo n => 0 <= n < max_int64
  | Change m n _ => 1 <= m <= n /\ n < max_int64 /\ readable (exact_delete s m n)
  | Delete_ m n => 1 <= m <= n /\ n < max_int64
  | Print_ m n | Number_ m n => 1 <= m <= n /\ n <= lines_count (seen s)
  end.
Fixpoint exact_history (s : bytes) (h : list acmd) : Prop :=
  match h with [] => True | c :: r => exact_valid s c /\ exact_history (exact_edit s c) r end.
Fixpoint exact_final (s : bytes) (h : list acmd) : bytes :=
  match h with [] => s | c :: r => exact_final (exact_edit s c) r end.
Fixpoint exact_printed (s : bytes) (h : list acmd) : list bytes :=
  match h with [] => [] | c :: r => (exact_reply s c ++ [nl]) :: exact_printed (exact_edit s c) r end.

(* The same on buffers of ordinary lines: the last line, if blank, is out of reach. *)
Definition hidden (ls : list bytes) : list bytes :=
  match rev ls with [] :: _ => [[]] | _ => [] end.
Definition line_delete (ls : list bytes) (m n : Z) : list bytes :=
  upto (cut_blank ls) (m - 1) ++ after (cut_blank ls) n ++ hidden ls.
Definition line_insert (ls : list bytes) (n : Z) (t : bytes) : list bytes :=
  upto (cut_blank ls) (n - 1) ++ typed t ++ after (cut_blank ls) (n - 1) ++ hidden ls.
Definition line_edit (ls : list bytes) (c : acmd) : list bytes :=
  match c with
  | Append n t => line_insert ls (n + 1) t
  | Insert_ n t => line_insert ls n t
  | Change m n t => line_insert (line_delete ls m n) m t
  | Delete_ m n => line_delete ls m n
  | _ => ls
  end.
