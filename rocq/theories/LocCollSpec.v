(* What may come after the header of LC_COLLATE and after the line order_end. *)
From Verif Require Import GoBase LocDocSpec LocHangSpec.

Definition starts_line (a : bytes) : Prop := a = [] \/ exists x c, a = x ++ [c] /\ In c [nl; cr].
Definition ends_word (r : bytes) : Prop := match r with [] => True | c :: _ => (byte_val c < 128)%N /\ ~ In c letters end.

(* words with blanks between them up to the word END or order_start *)
Inductive leads_out : bytes -> Prop :=
| out_now : forall w r, In w [B "END"; B "order_start"] -> ends_word r -> leads_out (w ++ r)
| out_later : forall v g b, v <> [] -> Forall (fun c => In c letters) v -> blanks g -> leads_out b -> leads_out (v ++ g ++ b).
Definition goes_on (b : bytes) : Prop := exists g u, b = g ++ u /\ Forall (fun c => In c [" "%char; tab]) g /\ leads_out u.

(* it is so after every header and every order_end of the text *)
Definition collations_go_on (src : bytes) : Prop :=
  (forall a g m b, src = a ++ B "LC_COLLATE" ++ g ++ m ++ b -> starts_line a -> Forall (fun c => In c [" "%char; tab]) g ->
     Forall (fun c => In c [nl; cr]) m -> g ++ m <> [] -> (forall c t, b = c :: t -> ~ In c [nl; cr]) -> goes_on b) /\
  (forall a m b, src = a ++ B "order_end" ++ m ++ b -> Forall (fun c => In c [nl; cr]) m -> m <> [] ->
     (forall c t, b = c :: t -> ~ In c [nl; cr]) -> goes_on b).

(* words with blanks between them, none of them END or order_start, up to something else *)
Inductive leads_nowhere : bytes -> Prop :=
| nowhere_now : forall c r, (byte_val c < 128)%N -> ~ In c (" "%char :: tab :: letters) -> leads_nowhere (c :: r)
| nowhere_later : forall v g b, v <> [] -> Forall (fun c => In c letters) v -> v <> B "END" -> v <> B "order_start" ->
    Forall (fun c => In c [" "%char; tab]) g -> ends_word (g ++ b) -> leads_nowhere b -> leads_nowhere (v ++ g ++ b).

(* the text goes on with a byte that is not part of the encoding of a character *)
Definition invalid (t : bytes) : Prop := t <> [] /\ decode_rune t = (rune_error, 1).
Definition small_letters : bytes := B "abcdefghijklmnopqrstuvwxyz_".
(* a small letter, one blank and such a byte *)
Definition torn (src : bytes) : Prop := exists a v c t, src = a ++ v :: c :: t /\ In v small_letters /\ In c [" "%char; tab] /\ invalid t.
