(* Model of the generated parser of pkg/ed/ed.peg.go as the machine it is: the rules are closures over one position, one token
   index and one array of tokens, which they change and set back.  (EdPegModel.v and EdErrModel.v have the same rules
   as functions that return what they matched.) *)
From Verif Require Import GoBase EdModel EdPegModel EdErrModel.
Local Open Scope nat_scope.

(* ed.peg.go:15-107: the constants of pegRule: captured text, the actions, the rules of the grammar by name, and
   ruleUnknown = 0 *)
Inductive peg_rule := GUnknown | GText | GAct (n : nat) | GRule (name : bytes).
(* ed.peg.go:109-198 *)
Definition rul3s (r : peg_rule) : bytes :=
  match r with
  | GUnknown => B "Unknown"
  | GText => B "PegText"
  | GAct n => B "Action" ++ itoa (Z.of_nat n)
  | GRule name => name
  end.
(* ed.peg.go:199-202; positions, uint32 in the program, are natural numbers: a command is shorter than 4 GiB *)
Record token32 := { k_rule : peg_rule; k_begin : nat; k_end : nat }.
Definition zero_token : token32 := {| k_rule := GUnknown; k_begin := 0; k_end := 0 |}.

(* the variables the closures share, ed.peg.go:540-544 and 558 *)
Record machine := { v_pos : nat; v_idx : nat; v_tree : list token32; v_max : named }.
(* ed.peg.go:295-306: doubles an array that is too short, then writes; None = index out of range *)
Definition tree_add (tree : list token32) (t : token32) (index : nat) : option (list token32) :=
  let tree := if List.length tree <=? index then tree ++ repeat zero_token (List.length tree) else tree in
  if index <? List.length tree then Some (firstn index tree ++ t :: skipn (S index) tree) else None.

(* how a rule ends: true, false, not at all, or with a panic *)
Inductive verdict := VOk | VFail | VHang | VPanic.
(* position, tokenIndex = position0, tokenIndex0 *)
Definition restore (s s0 : machine) : machine :=
  {| v_pos := v_pos s0; v_idx := v_idx s0; v_tree := v_tree s; v_max := v_max s |}.
Definition move (s : machine) : machine :=
  {| v_pos := S (v_pos s); v_idx := v_idx s; v_tree := v_tree s; v_max := v_max s |}.
(* ed.peg.go:572-578 *)
Definition vadd (rule : peg_rule) (begin : nat) (s : machine) : verdict * machine :=
  match tree_add (v_tree s) {| k_rule := rule; k_begin := begin; k_end := v_pos s |} (v_idx s) with
  | None => (VPanic, s)
  | Some tree =>
      (VOk, {| v_pos := v_pos s; v_idx := S (v_idx s); v_tree := tree;
               v_max := add (rul3s rule) begin (v_pos s) (v_max s) |})
  end.
(* if buffer[position] is not what is wanted { goto fail }; position++ -- ed.peg.go:580-586, 831, 848 *)
Definition vtest (buffer : list N) (want : N -> bool) (s : machine) : verdict * machine :=
  match nth_error buffer (v_pos s) with
  | None => (VPanic, s)
  | Some r => if want r then (VOk, move s) else (VFail, s)
  end.

(* the loop for e*, ed.peg.go:612-622; a body that matches without moving makes it go on for ever *)
Fixpoint vstar (body : machine -> verdict * machine) (fuel : nat) (s : machine) : verdict * machine :=
  match fuel with
  | O => (VHang, s)
  | S k =>
      match body s with
      | (VOk, s') => if v_pos s' =? v_pos s then (VHang, s') else vstar body k s'
      | (VFail, s') => (VOk, restore s' s)
      | x => x
      end
  end.
(* The generated code for each kind of expression, ed.peg.go:605-2580.  A failure inside a sequence leaves position and
   tokenIndex where they are: only the places that save them (alternatives, *, ?, ! and the rules) set them back. *)
Fixpoint vmatch (buffer : list N) (e : nexp) (s : machine) : verdict * machine :=
  match e with
  | NChr c => vtest buffer (fun r => N.eqb r c) s
  | NRange lo hi => vtest buffer (fun r => (N.leb lo r && N.leb r hi)%bool) s
  | NDot => vtest buffer (fun r => negb (N.eqb r endSymbol)) s
  | NSeq a b => match vmatch buffer a s with (VOk, s') => vmatch buffer b s' | x => x end
  | NAlt a b => match vmatch buffer a s with (VFail, s') => vmatch buffer b (restore s' s) | x => x end
  | NStar a => vstar (vmatch buffer a) (List.length buffer - v_pos s) s
  | NOpt a => match vmatch buffer a s with (VFail, s') => (VOk, restore s' s) | x => x end
  | NNot a =>
      match vmatch buffer a s with
      | (VOk, s') => (VFail, s')
      | (VFail, s') => (VOk, restore s' s)
      | x => x
      end
  | NText a => match vmatch buffer a s with (VOk, s') => vadd GText (v_pos s) s' | x => x end
  | NAct n => vadd (GAct n) (v_pos s) s
  | NRule name a =>
      match vmatch buffer a s with
      | (VOk, s') => vadd (GRule name) (v_pos s) s'
      | (VFail, s') => (VFail, restore s' s)
      | x => x
      end
  end.

(* what Parse returns: nil, with the array cut to the tokens of the match; or the error with max *)
Inductive parsed := Accepted (tokens : list token32) | Rejected (max : named) | Never | Crashed.
(* reset and parse, ed.peg.go:545-569, on an array in any state; the array as it is left *)
Definition parse_on (tree : list token32) (buf : bytes) : parsed * list token32 :=
  match vmatch (peg_buffer buf) n_first {| v_pos := 0; v_idx := 0; v_tree := tree; v_max := no_token |} with
  | (VOk, s) => (Accepted (firstn (v_idx s) (v_tree s)), v_tree s)
  | (VFail, s) => (Rejected (v_max s), v_tree s)
  | (VHang, s) => (Never, v_tree s)
  | (VPanic, s) => (Crashed, v_tree s)
  end.
(* Init, ed.peg.go:558: math.MaxInt16 zero tokens *)
Definition first_tree : list token32 := repeat zero_token (N.to_nat 32767).

(* What Execute does with the tokens, ed.peg.go:406-545: captured texts and actions, every other token is passed over *)
Definition exec_token (t : token32) : list token :=
  match k_rule t with GText => [TText (k_begin t) (k_end t)] | GAct n => [TAct n] | _ => [] end.
Definition exec_tokens (l : list token32) : list token := flat_map exec_token l.

(* ---- the syntax tree ---- *)
(* ed.peg.go:208-211: a node, with its children (up, and next of each) as a list *)
Inductive node := Node (t : token32) (ups : list node).
Definition n_tok (n : node) : token32 := match n with Node t _ => t end.
(* ed.peg.go:270-274: the nodes on the stack that lie within the token become its children *)
Fixpoint absorb (t : token32) (stack ups : list node) : list node * list node :=
  match stack with
  | n :: down =>
      if ((k_begin t <=? k_begin (n_tok n)) && (k_end (n_tok n) <=? k_end t))%bool
      then absorb t down (n :: ups) else (stack, ups)
  | [] => ([], ups)
  end.
(* ed.peg.go:265-276 *)
Fixpoint ast_loop (tokens : list token32) (stack : list node) : list node :=
  match tokens with
  | [] => stack
  | t :: r =>
      if k_begin t =? k_end t then ast_loop r stack
      else let '(down, ups) := absorb t stack [] in ast_loop r (Node t ups :: down)
  end.
(* ed.peg.go:258-281; None = nil *)
Definition AST (tokens : list token32) : option node :=
  match ast_loop tokens [] with n :: _ => Some n | [] => None end.
(* ed.peg.go:213-234, with pretty = false; [quote] is strconv.Quote, None = slice bounds out of range *)
Fixpoint print_node (quote : bytes -> bytes) (rs : list N) (depth : nat) (n : node) : option bytes :=
  match n with
  | Node t ups =>
      if ((k_begin t <=? k_end t) && (k_end t <=? List.length rs))%bool then
        match
          (fix all (l : list node) : option bytes :=
             match l with
             | [] => Some []
             | u :: r => match print_node quote rs (S depth) u, all r with Some a, Some b => Some (a ++ b) | _, _ => None end
             end) ups
        with
        | Some below =>
            Some (repeat " "%char depth ++ rul3s (k_rule t) ++ B " " ++
                  quote (string_of_runes (slice rs (k_begin t) (k_end t))) ++ [nl] ++ below)
        | None => None
        end
      else None
  end.
(* ed.peg.go:287-289 and 402-404 on the tokens of a parse *)
Definition WriteSyntaxTree (quote : bytes -> bytes) (tokens : list token32) (buf : bytes) : option bytes :=
  match AST tokens with None => Some [] | Some n => print_node quote (runes_of buf) 0 n end.
