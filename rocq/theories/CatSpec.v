(* Specification vocabulary for C27, C28. *)
From Verif Require Import GoBase CatModel.

(* operand f at position i can be read completely and contains c *)
Definition readable (w : world) (i : nat) (f c : bytes) : Prop :=
  (f = B "-" /\ stdin_at w i = (c, None)) \/ (f <> B "-" /\ opens w f = inl (c, None)).
(* it fails with error e after c has been read (nothing, if it cannot be opened) *)
Definition failing (w : world) (i : nat) (f c e : bytes) : Prop :=
  (f = B "-" /\ stdin_at w i = (c, Some e)) \/
  (f <> B "-" /\ (opens w f = inl (c, Some e) \/ (c = [] /\ opens w f = inr e))).
(* the operands named by the arguments *)
Definition operands (args fs : list bytes) : Prop :=
  exists l, l = filter (fun a => negb (beqb a (B "-u"))) args /\
    ((l = [] /\ fs = [B "-"]) \/ (l <> [] /\ fs = l)).
(* the first (length cs) operands are readable and contain cs *)
Definition all_readable (w : world) (fs cs : list bytes) : Prop :=
  forall i c, nth_error cs i = Some c -> exists f, nth_error fs i = Some f /\ readable w i f c.
