(* Specification vocabulary for C108 and C109: sessions that save.  A session is a list of commands of the abstract line
   editor of EdSpec.v, with w between them. *)
From Verif Require Import GoBase GoFacts PieceTableModel PieceTableSpec EdModel EdSpec EdLoopModel EdLoopSpec.
Local Open Scope Z_scope.

Inductive act := Do (c : acmd) | Save.
(* what is typed *)
Definition act_lines (a : act) : list bytes := match a with Do c => script c | Save => [B "w"] end.
Definition keyed (h : list act) : bytes := unlines (concat (map act_lines h)).
(* every command addresses existing lines of an ordinary buffer that fits in memory, and its text can be typed *)
Fixpoint workable (ls : list bytes) (h : list act) : Prop :=
  match h with
  | [] => True
  | Do c :: r => ordinary ls c /\ valid ls c /\ len (unlines ls) + len (text_of c) + 1 <= max_int64 /\
                 match c with Append _ t | Insert_ _ t | Change _ _ t => typable t | _ => True end /\
                 workable (aedit ls c) r
  | Save :: r => good ls /\ workable ls r
  end.
(* the lines the file ends with, when it holds [file] and the editor [ls] *)
Fixpoint saved (ls file : list bytes) (h : list act) : list bytes :=
  match h with
  | [] => file
  | Do c :: r => saved (aedit ls c) file r
  | Save :: r => saved ls ls r
  end.
(* the replies *)
Fixpoint answers (ls : list bytes) (h : list act) : list bytes :=
  match h with
  | [] => []
  | Do c :: r => (areply ls c ++ [nl]) :: answers (aedit ls c) r
  | Save :: r => [nl] :: answers ls r
  end.
(* nothing more is typed, or q and then anything *)
Definition leaving (tail : bytes) : Prop := tail = [] \/ exists r, tail = B "q" ++ nl :: r.
(* no system call fails (but data may be written in any pieces) *)
Definition no_failure (o : faults) : Prop :=
  f_stat o = false /\ f_open o = false /\ f_write o = false /\ f_close o = false /\ f_rename o = false /\
  f_reopen o = false /\ f_fstat o = false.
(* the versions of the text a session may leave in the file: the first one, and that of every w *)
Fixpoint versions (ls : list bytes) (h : list act) : list (list bytes) :=
  match h with
  | [] => []
  | Do c :: r => versions (aedit ls c) r
  | Save :: r => ls :: versions ls r
  end.
(* the files at this point of a run, or at a point inside the w being executed (after any of its system calls) *)
Definition at_a_moment (errtext : bytes) (o : nat -> faults) (s : loop) (fs : files) : Prop :=
  fs = l_fs s \/
  exists c states r, l_cons s = Busy c /\ c_typ c = ctwrite /\
    Write errtext (l_fs s) (o (l_k s)) (l_ed s) = (states, r) /\ In fs states.
