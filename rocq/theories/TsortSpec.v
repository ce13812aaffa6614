(* Specification vocabulary for C12-C16: precedence relations and topological orders. *)
From Verif Require Import GoBase GoMap Utf8Facts TsortModel.
From Coq Require Export Permutation Relation_Operators Operators_Properties.

(* what the sorter has recorded: v must come after u *)
Definition edge (s : sorter) (u v : bytes) : Prop := exists l, In (u, l) s /\ In v l.
(* the items the sorter knows *)
Definition known (s : sorter) (x : bytes) : Prop :=
  (exists l, In (x, l) s) \/ (exists u, edge s u x).

(* sorters a client can build: Add and Order calls (with any iteration order) from the zero value *)
Inductive reachable : sorter -> Prop :=
| reach_new : reachable new_sorter
| reach_add : forall s items, reachable s -> reachable (add s items)
| reach_order : forall s perm s' r, reachable s -> (forall l, Permutation (perm l) l) ->
    order perm s = Some (s', r) -> reachable s'.

(* u occurs before v in l *)
Definition before (l : list bytes) (u v : bytes) : Prop :=
  exists a b c, l = a ++ u :: b ++ v :: c.

(* l lists exactly the items of [items], once each, respecting the relation r *)
Definition topological (items : bytes -> Prop) (r : bytes -> bytes -> Prop) (l : list bytes) : Prop :=
  NoDup l /\ (forall x, In x l <-> items x) /\ (forall u v, r u v -> before l u v).

Definition path (r : bytes -> bytes -> Prop) := clos_trans bytes r.
Definition cyclic (r : bytes -> bytes -> Prop) : Prop := exists x, path r x x.
(* x lies on or after a cycle *)
Definition after_cycle (r : bytes -> bytes -> Prop) (x : bytes) : Prop :=
  exists c, path r c c /\ (c = x \/ path r c x).

(* u immediately followed by v in a list passed to Add *)
Definition adjacent (items : list bytes) (u v : bytes) : Prop :=
  exists a b, items = a ++ u :: v :: b.

(* the sorter after a series of Add calls *)
Definition sorter_of (calls : list (list bytes)) : sorter := fold_left add calls new_sorter.

(* no single-item Add of an item that an earlier call put in front of another one *)
Definition no_erase (calls : list (list bytes)) : Prop :=
  forall pre x post, calls = pre ++ [x] :: post ->
    forall c v, In c pre -> ~ adjacent c x v.

(* the pairs of the tsort command's input *)
Fixpoint pairs_of (ws : list bytes) : list (bytes * bytes) :=
  match ws with
  | a :: b :: r => (a, b) :: pairs_of r
  | _ => []
  end.
(* no pair "x x" after a pair "x y" *)
Definition no_erase_pairs (ps : list (bytes * bytes)) : Prop :=
  forall pre x post, ps = pre ++ (x, x) :: post -> forall y, In (x, y) pre -> y = x.

(* the characters of a text in UTF-8, each with its bytes; a byte that does not belong to one counts as U+FFFD *)
Inductive characters : bytes -> list (N * bytes) -> Prop :=
| characters_nil : characters [] []
| characters_cons : forall r c b l, valid_rune r -> c = encode_rune r -> characters b l -> characters (c ++ b) ((r, c) :: l)
| characters_bad : forall c b l, decode_rune (c :: b) = (rune_error, 1) -> characters b l -> characters (c :: b) ((rune_error, [c]) :: l).
(* blanks: the white space characters of Unicode *)
Definition blank (r : N) : Prop := In r ([9; 10; 11; 12; 13; 32; 133; 160; 5760] ++ [8192; 8193; 8194; 8195; 8196; 8197; 8198; 8199; 8200; 8201; 8202] ++
  [8232; 8233; 8239; 8287; 12288])%N.
(* the blank-separated words of a text, each with the number of bytes of the blank after it (1 at the end) *)
Inductive worded_chars : list (N * bytes) -> list (bytes * nat) -> Prop :=
| worded_nil : worded_chars [] []
| worded_blank : forall r c t ws, blank r -> worded_chars t ws -> worded_chars ((r, c) :: t) ws
| worded_last : forall w, w <> [] -> Forall (fun x => ~ blank (fst x)) w -> worded_chars w [(concat (map snd w), 1)]
| worded_word : forall w r c t ws, w <> [] -> Forall (fun x => ~ blank (fst x)) w -> blank r -> worded_chars t ws ->
    worded_chars (w ++ (r, c) :: t) ((concat (map snd w), length c) :: ws).
Definition worded_at (b : bytes) (ws : list (bytes * nat)) : Prop := exists l, characters b l /\ worded_chars l ws.
Definition worded (b : bytes) (ws : list bytes) : Prop := exists l, worded_at b l /\ ws = map fst l.
(* every word, with the blank after it, fits bufio.Scanner's buffer *)
Definition fits (p : bytes * nat) : Prop := (N.of_nat (length (fst p) + snd p) <= 65536)%N.
Definition short_words (b : bytes) : Prop := forall l, worded_at b l -> Forall fits l.
Definition long_word (b : bytes) : Prop := exists l p, worded_at b l /\ In p l /\ ~ fits p.

(* the precedence relation a list of words describes: items of a pair differ, or stand alone *)
Definition rel_of (ws : list bytes) (u v : bytes) : Prop := In (u, v) (pairs_of ws) /\ u <> v.

(* what the program makes of them: a pair "x x" removes the pairs "x y" before it *)
Definition kept (ws : list bytes) (u v : bytes) : Prop :=
  exists pre post, pairs_of ws = pre ++ (u, v) :: post /\ u <> v /\ ~ In (u, u) post.
Definition kept_item (ws : list bytes) (x : bytes) : Prop := (exists y, In (x, y) (pairs_of ws)) \/ exists y, kept ws y x.

(* what the command reads: standard input without operand or for "-", else the first operand *)
Definition input_of {A} (fs : bytes -> option A) (stdin : A) (args : list bytes) : option A :=
  match args with
  | [] => Some stdin
  | f :: _ => if beqb f (B "-") then Some stdin else fs f
  end.

(* what the command says when it fails *)
Definition complaint (what about : bytes) : bytes := B "ahh jeez, " ++ what ++ B " [" ++ about ++ B "]" ++ [nl].
Definition failed (what about : bytes) : run_result := {| out := []; errout := complaint what about; fin := Exit 1 |}.
Definition impossible : run_result := failed (B "sort error!") (B "Hmm. Still items left. Ordering impossible?").
Definition unmatched (ws : list bytes) : run_result := failed (B "unmatched word!") (last ws []).
