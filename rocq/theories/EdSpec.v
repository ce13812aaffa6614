(* Specification vocabulary for C50-C58, C64-C66, C70-C74: buffers as lists of lines. *)
From Verif Require Import GoBase GoFacts PieceTableModel PieceTableSpec EdModel.
Local Open Scope Z_scope.

Definition lines_count (ls : list bytes) : Z := Z.of_nat (List.length ls).

(* Lines of ordinary text: no newline inside, not ended by \r, shorter than the scanner's limit. *)
Definition ed_line (l : bytes) : Prop := ~ In nl l /\ (forall p, l <> p ++ [cr]) /\ len l < 65536.
(* Buffers of ordinary lines, of which the last is not blank. *)
Definition good (ls : list bytes) : Prop := Forall ed_line ls /\ (forall p, ls <> p ++ [[]]).

(* The text the editor holds; obtained by edits of an open file or of an empty buffer. *)
Definition holds (ed : itor) (text : bytes) : Prop := table_for (e_pt ed) text.
(* The editor holds these newline-terminated lines. *)
Definition buffer (ed : itor) (ls : list bytes) : Prop := holds ed (unlines ls).

(* The addresses n, . and $ (with a possible offset) and the line they denote. *)
Inductive denotes (ed : itor) (ls : list bytes) : address -> Z -> Prop :=
| den_num t k n : atoi t = Some n -> denotes ed ls {| a_typ := lNum; a_text := t; a_offset := k |} (n + k)
| den_cur t k : denotes ed ls {| a_typ := lCurrent; a_text := t; a_offset := k |} (e_current ed + k)
| den_last t k : denotes ed ls {| a_typ := lLast; a_text := t; a_offset := k |} (lines_count ls + k).
(* an address that is not relative to the end of the buffer *)
Definition not_last (a : address) : Prop := a_typ a <> lLast.

(* lines m to n *)
Definition between (ls : list bytes) (m n : Z) : list bytes :=
  firstn (Z.to_nat (n - m + 1)) (skipn (Z.to_nat (m - 1)) ls).
(* lines 1 to n, and those after n *)
Definition upto (ls : list bytes) (n : Z) : list bytes := firstn (Z.to_nat n) ls.
Definition after (ls : list bytes) (n : Z) : list bytes := skipn (Z.to_nat n) ls.
(* the lines of a text typed without its last newline *)
Definition typed (t : bytes) : list bytes := split_on nl t.
(* lines numbered from m on *)
Fixpoint numbered (m : Z) (ls : list bytes) : bytes :=
  match ls with [] => [] | l :: r => itoa m ++ [tab] ++ l ++ [nl] ++ numbered (m + 1) r end.

(* the command x with these addresses *)
Definition cmd_at (x : cmdType) (a b : address) (t : bytes) (ps : list bytes) : command :=
  {| c_typ := x; c_start := a; c_end := b; c_dest := zero_address; c_text := t; c_params := ps |}.
Definition num_addr (n : Z) : address := {| a_typ := lNum; a_text := itoa n; a_offset := 0 |}.

(* ---- the abstract line editor of C51 ---- *)
Inductive acmd :=
| Append (n : Z) (t : bytes) | Insert_ (n : Z) (t : bytes) | Change (m n : Z) (t : bytes)
| Delete_ (m n : Z) | Print_ (m n : Z) | Number_ (m n : Z) | LineNo (n : Z).
(* the buffer afterwards *)
Definition aedit (ls : list bytes) (c : acmd) : list bytes :=
  match c with
  | Append n t => upto ls n ++ typed t ++ after ls n
  | Insert_ n t => upto ls (n - 1) ++ typed t ++ after ls (n - 1)
  | Change m n t => upto ls (m - 1) ++ typed t ++ after ls n
  | Delete_ m n => upto ls (m - 1) ++ after ls n
  | _ => ls
  end.
(* what is printed, without the newline ending every reply *)
Definition areply (ls : list bytes) (c : acmd) : bytes :=
  match c with
  | Print_ m n => join [nl] (between ls m n)
  | Number_ m n => numbered m (between ls m n)
  | LineNo n => itoa n
  | _ => []
  end.
(* the addressed lines exist *)
Definition valid (ls : list bytes) (c : acmd) : Prop :=
  match c with
  | Append n t => 0 <= n <= lines_count ls
  | Insert_ n t => 0 <= n <= lines_count ls
  | Change m n t => 1 <= m <= n /\ n <= lines_count ls
  | Delete_ m n | Print_ m n | Number_ m n => 1 <= m <= n /\ n <= lines_count ls
  | LineNo n => 0 <= n <= lines_count ls
  end.
(* the command line as parsed *)
Definition concrete (c : acmd) : command :=
  match c with
  | Append n t => cmd_at ctappend (num_addr n) zero_address t []
  | Insert_ n t => cmd_at ctinsert (num_addr n) zero_address t []
  | Change m n t => cmd_at ctchange (num_addr m) (num_addr n) t []
  | Delete_ m n => cmd_at ctdelete (num_addr m) (num_addr n) [] []
  | Print_ m n => cmd_at ctprint (num_addr m) (num_addr n) [] []
  | Number_ m n => cmd_at ctnumber (num_addr m) (num_addr n) [] []
  | LineNo n => cmd_at ctlineNumber (num_addr n) zero_address [] []
  end.
(* the text typed *)
Definition text_of (c : acmd) : bytes :=
  match c with Append _ t | Insert_ _ t | Change _ _ t => t | _ => [] end.
(* the buffer is of ordinary lines without a blank last one, and remains so between the deletion and the
   insertion that make up a change *)
Definition ordinary (ls : list bytes) (c : acmd) : Prop :=
  good ls /\ match c with Change m n _ => good (upto ls (m - 1) ++ after ls n) | _ => True end.
(* every command of the history addresses existing lines of an ordinary buffer that fits in memory *)
Fixpoint valid_history (ls : list bytes) (h : list acmd) : Prop :=
  match h with
  | [] => True
  | c :: r => ordinary ls c /\ valid ls c /\ len (unlines ls) + len (text_of c) + 1 <= max_int64 /\
              valid_history (aedit ls c) r
  end.
Fixpoint final_lines (ls : list bytes) (h : list acmd) : list bytes :=
  match h with [] => ls | c :: r => final_lines (aedit ls c) r end.
Fixpoint printed (ls : list bytes) (h : list acmd) : list bytes :=
  match h with [] => [] | c :: r => (areply ls c ++ [nl]) :: printed (aedit ls c) r end.

(* the lines in the order a search from [cur] visits them: those after it, then from the first to it *)
Definition search_order (ls : list bytes) (cur : Z) : list Z :=
  let c := Z.to_nat cur in map Z.of_nat (seq (S c) (List.length ls - c) ++ seq 1 c).
(* an expression neither empty nor begun or ended by a slash *)
Definition slashless (re : bytes) : Prop :=
  (forall r, re <> "/"%char :: r) /\ (forall r, re <> r ++ ["/"%char]) /\ re <> [].

(* the addresses . 1 $ and .+1 *)
Definition dot : address := {| a_typ := lCurrent; a_text := B "."; a_offset := 0 |}.
Definition one : address := {| a_typ := lNum; a_text := B "1"; a_offset := 0 |}.
Definition dollar : address := {| a_typ := lLast; a_text := B "$"; a_offset := 0 |}.
Definition dot_plus_one : address := {| a_typ := lCurrent; a_text := B "."; a_offset := 1 |}.
(* The default addresses POSIX gives to each command; None for commands that take no address. *)
Definition posix_default (t : cmdType) : option (address * option address) :=
  match t with
  | ctnull => Some (dot_plus_one, None)
  | ctappend | ctinsert | ctmark => Some (dot, None)
  | ctread | ctlineNumber => Some (dollar, None)
  | ctchange | ctdelete | ctlist | ctnumber | ctprint | ctsubstitute | ctmove | ctcopy => Some (dot, Some dot)
  | ctjoin => Some (dot, Some dot_plus_one)
  | ctglobal | ctinteractive | ctglobalInverse | ctinteractiveInverse | ctwrite => Some (one, Some dollar)
  | _ => None
  end.
Definition default_right (t : cmdType) : Prop :=
  forall cmd, c_typ cmd = t -> is_null (c_start cmd) = true -> is_null (c_end cmd) = true ->
  forall s e, posix_default t = Some (s, e) ->
    c_start (setDefaultAddresses cmd) = s /\ (forall e', e = Some e' -> c_end (setDefaultAddresses cmd) = e').
