(* Specification vocabulary for C134 and C135: the commands k, m, t, r and ! as they are written. *)
From Verif Require Import GoBase EdModel EdPegModel EdPegSpec.

(* no address, or one *)
Definition at_most_one (r : wrange) : Prop := match r with NoAddress | OneAddress _ => True | _ => False end.
(* a mark: one of the letters a to z *)
Definition mark_name (c : ascii) : Prop := (97 <= byte_val c <= 122)%N.
(* the commands that take a range and an address to move or copy to *)
Definition dest_letter (c : ascii) (t : cmdType) : Prop := In (c, t) [("m"%char, ctmove); ("t"%char, ctcopy)].
(* a command with a destination *)
Definition to_command (t : cmdType) (a b dest : address) : command :=
  {| c_typ := t; c_start := a; c_end := b; c_dest := dest; c_text := []; c_params := [] |}.
(* something on one line *)
Definition one_line (s : bytes) : Prop := s <> [] /\ ~ In nl s.
(* the first n bytes of something of n characters *)
Definition first_bytes (s : bytes) : bytes := firstn (List.length (runes_of s)) s.

(* substitute, and the commands that execute others on the lines that match or do not *)
Definition edit_letter (c : ascii) : Prop := In c ["s"; "g"; "G"; "v"; "V"]%char.

(* the commands, as written, that ed reads and does nothing about *)
Inductive unserved : bytes -> command -> Prop :=
| un_bare lead x t trail : blanks lead -> bare_letter x t -> t <> ctquit -> blanks trail ->
    unserved (lead ++ [x] ++ trail) (the_command t zero_address zero_address [] [])
| un_file lead x t trail : blanks lead -> file_letter x t -> t <> ctedit -> blanks trail ->
    unserved (lead ++ [x] ++ trail) (the_command t zero_address zero_address [] [])
| un_file_name lead x t b1 f : blanks lead -> file_letter x t -> t <> ctedit -> blanks b1 -> b1 <> [] -> file_name f ->
    unserved (lead ++ [x] ++ b1 ++ f) (the_command t zero_address zero_address [] [first_bytes f])
| un_range lead r gap x t trail : blanks lead -> wrange_ok r -> blanks gap -> range_letter x t -> t = ctjoin \/ t = ctlist -> blanks trail ->
    unserved (lead ++ wrange_text r ++ gap ++ [x] ++ trail) (the_command t (wrange_start r) (wrange_end r) [] [])
| un_mark lead r gap c trail : blanks lead -> wrange_ok r -> at_most_one r -> blanks gap -> mark_name c -> blanks trail ->
    unserved (lead ++ wrange_text r ++ gap ++ B "k" ++ [c] ++ trail) (the_command ctmark (wrange_start r) zero_address [] [[c]])
| un_dest lead r gap x t a trail : blanks lead -> wrange_ok r -> blanks gap -> (r <> NoAddress -> ~ closed r -> gap = []) ->
    dest_letter x t -> waddr_ok a -> blanks trail ->
    unserved (lead ++ wrange_text r ++ gap ++ [x] ++ waddr_text a ++ trail) (to_command t (wrange_start r) (wrange_end r) (read_as a))
| un_read lead r gap b1 f : blanks lead -> wrange_ok r -> at_most_one r -> blanks gap -> blanks b1 -> b1 <> [] -> file_name f ->
    unserved (lead ++ wrange_text r ++ gap ++ B "r" ++ b1 ++ f) (the_command ctread (wrange_start r) zero_address (first_bytes f) [])
| un_shell lead s : blanks lead -> one_line s ->
    unserved (lead ++ B "!" ++ s) (the_command ctshell zero_address zero_address (first_bytes s) []).
