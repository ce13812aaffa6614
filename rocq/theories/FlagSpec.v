(* Specification vocabulary for C36-C40. *)
From Verif Require Import GoBase Utf8Facts FlagModel.

(* ---- Go integer literals: decimal, 0-prefixed octal, 0x-prefixed hexadecimal, optional sign ---- *)
Definition digit_table : list (ascii * N) :=
  combine (B "0123456789abcdefABCDEF") [0;1;2;3;4;5;6;7;8;9;10;11;12;13;14;15;10;11;12;13;14;15]%N.
Inductive in_base (base : N) : bytes -> N -> Prop :=
| ib_nil : in_base base [] 0
| ib_snoc : forall ds c d n, in_base base ds n -> In (c, d) digit_table -> (d < base)%N ->
    in_base base (ds ++ [c]) (base * n + d).
Inductive magnitude : bytes -> N -> Prop :=
| m_dec : forall c ds n, c <> "0"%char -> in_base 10 (c :: ds) n -> magnitude (c :: ds) n
| m_oct : forall ds n, in_base 8 ds n -> magnitude ("0"%char :: ds) n
| m_hex : forall x ds n, x = "x"%char \/ x = "X"%char -> ds <> [] -> in_base 16 ds n ->
    magnitude ("0"%char :: x :: ds) n.
Inductive int_literal : bytes -> Z -> Prop :=
| il_plain : forall t n, magnitude t n -> int_literal t (Z.of_N n)
| il_plus : forall t n, magnitude t n -> int_literal ("+"%char :: t) (Z.of_N n)
| il_minus : forall t n, magnitude t n -> int_literal ("-"%char :: t) (- Z.of_N n).
(* the value fits an int64 *)
Definition int64_text (t : bytes) (z : Z) : Prop := int_literal t z /\ (min_int64 <= z <= max_int64)%Z.

(* ---- registration ---- *)
(* the calls of BoolVar, StringVar and IntVar made on a new parser, in order *)
Inductive kind := KBool | KString | KInt.
Record registration := { r_kind : kind; r_name : N; r_var : nat }.
Definition register (p : parser) (r : registration) : parser :=
  match r_kind r with KBool => BoolVar p (r_var r) (r_name r) | KString => StringVar p (r_var r) (r_name r) | KInt => IntVar p (r_var r) (r_name r) end.
Definition registered (l : list registration) : parser := fold_left register l new_parser.
(* the last registration of a name as a flag of this kind, and no registration *)
Definition last_as (k : kind) (c : N) (a : nat) (l : list registration) : Prop :=
  exists before after, l = before ++ {| r_kind := k; r_name := c; r_var := a |} :: after /\
    forall r, In r after -> r_kind r = k -> r_name r <> c.
Definition never_as (k : kind) (c : N) (l : list registration) : Prop := forall r, In r l -> r_kind r = k -> r_name r <> c.
Definition is_bool (p : parser) (c : N) (a : nat) : Prop := assoc c (bools p) = Some a.
Definition is_string (p : parser) (c : N) (a : nat) : Prop :=
  assoc c (bools p) = None /\ assoc c (strings p) = Some a.
Definition is_int (p : parser) (c : N) (a : nat) : Prop :=
  assoc c (bools p) = None /\ assoc c (strings p) = None /\ assoc c (ints p) = Some a.
Definition unregistered (p : parser) (c : N) : Prop :=
  assoc c (bools p) = None /\ assoc c (strings p) = None /\ assoc c (ints p) = None.

(* ---- well-formed command lines ---- *)
(* a value flag and its value *)
Inductive vflag := VStr (c : N) (a : nat) (v : bytes) | VInt (c : N) (a : nat) (t : bytes) (z : Z).
Definition vname (f : vflag) : N := match f with VStr c _ _ => c | VInt c _ _ _ => c end.
Definition vtext (f : vflag) : bytes := match f with VStr _ _ v => v | VInt _ _ t _ => t end.
Definition vwrite (f : vflag) : write := match f with VStr _ a v => WStr a v | VInt _ a _ z => WInt a z end.
Definition vflag_ok (p : parser) (f : vflag) : Prop :=
  match f with VStr c a _ => is_string p c a | VInt c a t z => is_int p c a /\ int64_text t z end.

(* one option group: Boolean flags (name, variable), then possibly a value flag *)
Record group := { flags : list (N * nat); value : option vflag }.
Definition names (g : group) : list N :=
  map fst (flags g) ++ match value g with Some f => [vname f] | None => [] end.
Definition group_args (g : group) : list bytes :=
  (B "-" ++ string_of_runes (names g)) :: match value g with Some f => [vtext f] | None => [] end.
Definition group_writes (g : group) : list write :=
  map (fun f => WBool (snd f)) (flags g) ++ match value g with Some f => [vwrite f] | None => [] end.
Definition group_ok (p : parser) (g : group) : Prop :=
  names g <> [] /\ names g <> [45%N] /\ Forall valid_rune (names g) /\
  Forall (fun f => is_bool p (fst f) (snd f)) (flags g) /\
  match value g with Some f => vflag_ok p f | None => True end.

(* what ends the options, and the positional arguments then left *)
Inductive ends_options : list bytes -> list bytes -> Prop :=
| eo_end : ends_options [] []
| eo_dashes : forall r, ends_options (B "--" :: r) r
| eo_operand : forall a r, a = [] \/ a = B "-" \/ hd "-"%char a <> "-"%char -> ends_options (a :: r) (a :: r).

(* value of a variable after writes *)
Definition int_after (a : nat) (init : Z) (ws : list write) : Z :=
  fold_left (fun z w => match w with WInt b y => if Nat.eqb b a then y else z | _ => z end) ws init.
