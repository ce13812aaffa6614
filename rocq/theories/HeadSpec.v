(* Specification vocabulary for C25, C26. *)
From Verif Require Import GoBase GoFacts HeadModel.

(* a piece of the command line: -n k, or an operand *)
Inductive item := Count (k : Z) | Operand (f : bytes).
Definition item_ok (i : item) : Prop :=
  match i with Count k => (min_int64 <= k <= max_int64)%Z | Operand f => f <> B "-n" end.
Definition render (l : list item) : list bytes :=
  flat_map (fun i => match i with Count k => [B "-n"; itoa k] | Operand f => [f] end) l.
(* the last count given, ten by default; the operands *)
Definition count (l : list item) : Z :=
  fold_left (fun acc i => match i with Count k => k | Operand _ => acc end) l 10%Z.
Definition operands (l : list item) : list bytes :=
  flat_map (fun i => match i with Count _ => [] | Operand f => [f] end) l.

(* a content and the lines it consists of; the last line may lack its newline *)
Definition consists_of (c : bytes) (ls : list bytes) : Prop :=
  Forall (fun l => ~ In nl l) ls /\
  (c = unlines ls \/ exists l x, ls = l ++ [x] /\ x <> [] /\ c = unlines l ++ x).
Definition short_line (l : bytes) : Prop := (N.of_nat (List.length l) < 65536)%N.
Definition not_cr_ended (l : bytes) : Prop := forall p, l <> p ++ [cr].

(* operand f at position i is readable and consists of lines ls *)
Definition reads (w : world) (i : nat) (f : bytes) (ls : list bytes) : Prop :=
  exists c, consists_of c ls /\
    ((f = B "-" /\ stdin_at w i = (c, None)) \/ (f <> B "-" /\ opens w f = Some (c, None))).

(* output for one file and for several *)
Definition section (n : Z) (p : bytes * list bytes) : bytes :=
  B "==> " ++ fst p ++ B " <==" ++ [nl] ++ unlines (firstn (Z.to_nat n) (snd p)).

(* ---- C128: what is printed of any input at all ---- *)
Definition line_ok (l : bytes) : Prop := ~ In nl l /\ short_line l.
Definition long_line (l : bytes) : Prop := ~ In nl l /\ (65536 <= N.of_nat (List.length l))%N.
(* what is printed of lines: each without one trailing carriage return, and ended by a newline *)
Definition printed (ls : list bytes) (o : bytes) : Prop :=
  exists ls', Forall2 (fun l l' => l = l' ++ [cr] \/ (not_cr_ended l /\ l' = l)) ls ls' /\ o = unlines ls'.
(* [shows n (c, e) o ok]: of an input that delivers the bytes c and then fails with the error e, if
   any, head -n n prints o, and goes on (ok) or panics. *)
Inductive shows (n : nat) : stream -> bytes -> bool -> Prop :=
| shows_enough : forall ls rest e o, Forall line_ok ls -> length ls = S n -> printed (firstn n ls) o ->
    shows n (unlines ls ++ rest, e) o true
| shows_all : forall ls x e o, Forall line_ok ls -> length ls <= n -> line_ok x ->
    printed (firstn n (ls ++ match x with [] => [] | _ => [x] end)) o ->
    shows n (unlines ls ++ x, e) o (match e with None => true | Some _ => false end)
| shows_long : forall ls x rest e o, Forall line_ok ls -> length ls <= n -> long_line x ->
    rest = [] \/ hd cr rest = nl -> printed ls o -> shows n (unlines ls ++ x ++ rest, e) o false.
(* what operand f at position i reads as, if it can be opened *)
Definition gives (w : world) (i : nat) (f : bytes) (c : stream) : Prop :=
  (f = B "-" /\ stdin_at w i = c) \/ (f <> B "-" /\ opens w f = Some c).
Definition unopenable (w : world) (f : bytes) : Prop := f <> B "-" /\ opens w f = None.
(* the operands at positions i, i + 1, ... print os *)
Fixpoint all_show (w : world) (n : nat) (i : nat) (fs : list bytes) (os : list bytes) : Prop :=
  match fs, os with
  | [], [] => True
  | f :: fs', o :: os' => (exists c, gives w i f c /\ shows n c o true) /\ all_show w n (S i) fs' os'
  | _, _ => False
  end.
Definition under_header (many : bool) (p : bytes * bytes) : bytes :=
  if many then B "==> " ++ fst p ++ B " <==" ++ [nl] ++ snd p else snd p.
(* the operands, standard input if there are none *)
Definition inputs (l : list item) : list bytes := match operands l with [] => [B "-"] | o => o end.

(* ---- C159: a line that ends in two carriage returns ---- *)
Definition twice_cr_ended (l : bytes) : Prop := exists p, l = p ++ [cr; cr].
