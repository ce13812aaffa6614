(* Texts on which the lexer of locale definitions reads on past the end. *)
From Verif Require Import GoBase LocDocSpec.

(* the text ends in a numeric escape, backslash and one of 0-9 d x, that has at most one character after it in its line *)
Definition cut_escape (src : bytes) : Prop :=
  exists a c e, src = a ++ "\"%char :: c :: e ++ [nl] /\ In c (B "0123456789dx") /\ List.length (runes_of e) <= 1.

(* the last quote of the text opens the value of yesexpr or noexpr *)
Definition open_message (src : bytes) : Prop :=
  exists a k g q, src = a ++ k ++ g ++ """"%char :: q /\ In k [B "yesexpr"; B "noexpr"] /\ blanks g /\ ~ In """"%char q.

Definition letters : bytes := B "ABCDEFGHIJKLMNOPQRSTUVWXYZabcdefghijklmnopqrstuvwxyz_".
