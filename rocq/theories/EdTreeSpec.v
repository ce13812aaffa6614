(* Specification vocabulary for C144: parsing expression grammars as Ford defines them, on positions in a list of runes.
   [derives rs e i (Some (j, toks))]: e matches from i to j, and toks are the tokens of that match, those of a part before
   those of the whole; [derives rs e i None]: e does not match at i.  Nothing is ever taken back. *)
From Verif Require Import GoBase EdErrModel EdTreeModel.
Local Open Scope nat_scope.

Definition tok (r : peg_rule) (i j : nat) : token32 := {| k_rule := r; k_begin := i; k_end := j |}.

Inductive derives (rs : list N) : nexp -> nat -> option (nat * list token32) -> Prop :=
| d_chr c i : nth_error rs i = Some c -> derives rs (NChr c) i (Some (S i, []))
| d_chr_not c i : nth_error rs i <> Some c -> derives rs (NChr c) i None
| d_range lo hi c i : nth_error rs i = Some c -> (lo <= c <= hi)%N -> derives rs (NRange lo hi) i (Some (S i, []))
| d_range_not lo hi i : (forall c, nth_error rs i = Some c -> ~ (lo <= c <= hi)%N) -> derives rs (NRange lo hi) i None
| d_dot i : i < List.length rs -> derives rs NDot i (Some (S i, []))
| d_dot_not i : List.length rs <= i -> derives rs NDot i None
| d_seq a b i j k t t' : derives rs a i (Some (j, t)) -> derives rs b j (Some (k, t')) ->
    derives rs (NSeq a b) i (Some (k, t ++ t'))
| d_seq_not a b i : derives rs a i None -> derives rs (NSeq a b) i None
| d_seq_not2 a b i j t : derives rs a i (Some (j, t)) -> derives rs b j None -> derives rs (NSeq a b) i None
| d_alt a b i x : derives rs a i (Some x) -> derives rs (NAlt a b) i (Some x)
| d_alt2 a b i x : derives rs a i None -> derives rs b i x -> derives rs (NAlt a b) i x
| d_star_end a i : derives rs a i None -> derives rs (NStar a) i (Some (i, []))
| d_star a i j k t t' : derives rs a i (Some (j, t)) -> derives rs (NStar a) j (Some (k, t')) ->
    derives rs (NStar a) i (Some (k, t ++ t'))
| d_opt a i x : derives rs a i (Some x) -> derives rs (NOpt a) i (Some x)
| d_opt_not a i : derives rs a i None -> derives rs (NOpt a) i (Some (i, []))
| d_not a i : derives rs a i None -> derives rs (NNot a) i (Some (i, []))
| d_not_not a i x : derives rs a i (Some x) -> derives rs (NNot a) i None
| d_text a i j t : derives rs a i (Some (j, t)) -> derives rs (NText a) i (Some (j, t ++ [tok GText i j]))
| d_text_not a i : derives rs a i None -> derives rs (NText a) i None
| d_act n i : derives rs (NAct n) i (Some (i, [tok (GAct n) i i]))
| d_rule name a i j t : derives rs a i (Some (j, t)) -> derives rs (NRule name a) i (Some (j, t ++ [tok (GRule name) i j]))
| d_rule_not name a i : derives rs a i None -> derives rs (NRule name a) i None.

(* ---- for C145: trees of tokens ---- *)
(* the nodes stand one after the other between i and j *)
Fixpoint in_order (i j : nat) (l : list node) : Prop :=
  match l with
  | [] => i <= j
  | n :: r => i <= k_begin (n_tok n) /\ in_order (k_end (n_tok n)) j r
  end.
(* every node covers some text, and its children stand one after the other inside it *)
Inductive nested : node -> Prop :=
| nest t ups : k_begin t < k_end t -> in_order (k_begin t) (k_end t) ups -> (forall u, In u ups -> nested u) -> nested (Node t ups).
(* the tokens of a tree, children first *)
Fixpoint postorder (n : node) : list token32 := match n with Node t ups => flat_map postorder ups ++ [t] end.
(* the tokens of a tree with their depths, parents first *)
Fixpoint preorder (depth : nat) (n : node) : list (nat * token32) :=
  match n with Node t ups => (depth, t) :: flat_map (preorder (S depth)) ups end.
Definition covers_text (t : token32) : bool := negb (k_begin t =? k_end t).
(* one line of the printed tree *)
Definition tree_line (quote : bytes -> bytes) (rs : list N) (x : nat * token32) : bytes :=
  let '(depth, t) := x in
  repeat " "%char depth ++ rul3s (k_rule t) ++ B " " ++
  quote (string_of_runes (firstn (k_end t - k_begin t) (skipn (k_begin t) rs))) ++ [nl].
