(* Specification vocabulary for C113: which of the topological orders Order returns. *)
From Verif Require Import GoBase GoFacts GoMap TsortModel TsortSpec.

(* an item that need not come after any other *)
Definition free (s : sorter) (x : bytes) : Prop := known s x /\ forall u, ~ edge s u x.
(* of the items that must come before u, h is the last one in l *)
Definition last_before (s : sorter) (l : list bytes) (h u : bytes) : Prop :=
  edge s h u /\ forall h', edge s h' u -> h' = h \/ before l h' h.

(* g is l without some of its items *)
Inductive part_of : list bytes -> list bytes -> Prop :=
| po_nil : part_of [] []
| po_take : forall x g l, part_of g l -> part_of (x :: g) (x :: l)
| po_skip : forall x g l, part_of g l -> part_of g (x :: l).

(* the items that were only waiting for h, in the order in which they were recorded behind h *)
Definition released_by (s : sorter) (l : list bytes) (h : bytes) (g : list bytes) : Prop :=
  (forall u, In u g <-> last_before s l h u) /\ forall ls, In (h, ls) s -> part_of g ls.

(* ---- the order in which the successors of an item are recorded ---- *)
(* the items that stand right behind h in a list passed to Add *)
Fixpoint behind (h : bytes) (items : list bytes) : list bytes :=
  match items with
  | a :: ((b :: _) as r) => if bytes_dec a h then b :: behind h r else behind h r
  | _ => []
  end.
(* ... in a series of calls, after the last one that names h alone *)
Definition asked (h : bytes) (calls : list (list bytes)) : list bytes :=
  fold_left (fun acc c => if list_eq_dec bytes_dec c [h] then [] else acc ++ behind h c) calls [].
(* a list without its repetitions *)
Fixpoint firsts (l : list bytes) : list bytes :=
  match l with
  | [] => []
  | x :: r => x :: filter (fun y => if bytes_dec y x then false else true) (firsts r)
  end.
